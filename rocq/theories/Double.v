(** Double.v - C++ [double] as IEEE-754 binary64 (Flocq), round-to-nearest-even.
    [binary_float 53 1024] has exactly one NaN; payloads/signs of NaN are not observable by the
    operations the repository uses. *)
From Coq Require Import ZArith Reals.
From Flocq Require Import Core IEEE754.BinarySingleNaN.
From Verif Require Import Base.

Definition double := binary_float 53 1024.
Lemma Hprec : FLX.Prec_gt_0 53. Proof. reflexivity. Qed.
Lemma Hemax : Prec_lt_emax 53 1024. Proof. reflexivity. Qed.

Definition dadd : double -> double -> double := @Bplus 53 1024 Hprec Hemax mode_NE.
Definition dsub : double -> double -> double := @Bminus 53 1024 Hprec Hemax mode_NE.
Definition dmul : double -> double -> double := @Bmult 53 1024 Hprec Hemax mode_NE.
Definition ddiv : double -> double -> double := @Bdiv 53 1024 Hprec Hemax mode_NE.
Definition dopp : double -> double := @Bopp 53 1024.
Definition dabs : double -> double := @Babs 53 1024.
(** C++ [<], [<=], [==] on doubles; false when an operand is NaN. *)
Definition dlt (a b : double) : bool := Bltb a b.
Definition dle (a b : double) : bool := Bleb a b.
Definition deq (a b : double) : bool := Beqb a b.
Definition dgt (a b : double) : bool := dlt b a.
Definition dge (a b : double) : bool := dle b a.
Definition dnan : double := B754_nan.
Definition dinf : double := B754_infinity false.
Definition is_nan_d (a : double) : bool := is_nan a.
Definition is_fin (a : double) : bool := is_finite a.

(** Conversion of an integer to double (exact below 2^53, correctly rounded above). *)
Definition dZ (z : Z) : double := binary_normalize 53 1024 Hprec Hemax mode_NE z 0 false.
(** The double denoted by the decimal literal [z * 10^-k]; a correctly rounded quotient of two
    integers that are exact for the literals used here, hence the value a C++ compiler produces. *)
Definition dec (z : Z) (k : Z) : double := ddiv (dZ z) (dZ (10 ^ k)).

(** [std::numeric_limits<double>::max()] and [::min()] (smallest positive normal number). *)
Definition DBL_MAX : double := binary_normalize 53 1024 Hprec Hemax mode_NE (2 ^ 53 - 1) 971 false.
Definition DBL_MIN : double := binary_normalize 53 1024 Hprec Hemax mode_NE 1 (-1022) false.
Definition dzero : double := B754_zero false.
Definition done : double := dZ 1.
