(** NumberSpec.v - the number denoted by a decimal numeral. *)
From Coq Require Import ZArith NArith Reals.
From Flocq Require Import Core.
From Verif Require Import Base SerializationSpec.

Definition ten : radix := Build_radix 10 eq_refl.
(** The value of a digit string. *)
Definition dval (ds : str) : Z := fold_left (fun a c => (a * 10 + (Z.of_nat (nat_of_ascii c) - 48))%Z) ds 0%Z.
(** [decimal s r]: the numeral [s] (sign, digits, optional fraction, optional exponent) denotes the real number [r];
    [bpow ten k] is 10^k. *)
Definition fraction (fd : str) : str := match fd with [] => [] | _ => "."%char :: fd end.
Definition exponent (ex : option (bool * str)) : str :=
  match ex with None => [] | Some (neg, ed) => "e"%char :: (if neg : bool then "-"%char else "+"%char) :: ed end.
Definition exponent_val (ex : option (bool * str)) : Z :=
  match ex with None => 0%Z | Some (neg, ed) => if neg : bool then (- dval ed)%Z else dval ed end.
Inductive decimal : str -> R -> Prop :=
| dec_num (neg : bool) (ip fd : str) (ex : option (bool * str)) :
    digits ip -> Forall is_digit fd -> (forall b ed, ex = Some (b, ed) -> digits ed) ->
    decimal ((if neg then ["-"%char] else []) ++ ip ++ fraction fd ++ exponent ex)
            ((if neg then -1 else 1) * (IZR (dval (ip ++ fd)) * bpow ten (exponent_val ex - Z.of_nat (length fd))))%R.
