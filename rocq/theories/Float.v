(** Float.v - C++ [float] as IEEE-754 binary32 (Flocq), round-to-nearest-even, and the conversions between [float] and
    [double] the repository uses implicitly. One NaN, as in Double.v. *)
From Coq Require Import ZArith.
From Flocq Require Import Core IEEE754.BinarySingleNaN.
From Verif Require Import Base Double.

Definition float := binary_float 24 128.
Lemma Fprec : FLX.Prec_gt_0 24. Proof. reflexivity. Qed.
Lemma Fmax : Prec_lt_emax 24 128. Proof. reflexivity. Qed.

Definition fsub : float -> float -> float := @Bminus 24 128 Fprec Fmax mode_NE.
Definition fdiv : float -> float -> float := @Bdiv 24 128 Fprec Fmax mode_NE.
(** C++ [<] on floats; false when an operand is NaN. *)
Definition flt (a b : float) : bool := Bltb a b.
Definition fgt (a b : float) : bool := flt b a.
(** Conversion of an integer to float. *)
Definition fZ (z : Z) : float := binary_normalize 24 128 Fprec Fmax mode_NE z 0 false.
Definition fzero : float := B754_zero false.
Definition fone : float := fZ 1.
(** Conversion double -> float (rounds) and float -> double (exact). *)
Definition to_float (d : double) : float :=
  match d with
  | B754_zero s => B754_zero s
  | B754_infinity s => B754_infinity s
  | B754_nan => B754_nan
  | B754_finite s m e _ => binary_normalize 24 128 Fprec Fmax mode_NE (cond_Zopp s (Zpos m)) e s
  end.
Definition to_double (f : float) : double :=
  match f with
  | B754_zero s => B754_zero s
  | B754_infinity s => B754_infinity s
  | B754_nan => B754_nan
  | B754_finite s m e _ => binary_normalize 53 1024 Hprec Hemax mode_NE (cond_Zopp s (Zpos m)) e s
  end.
(** [std::numeric_limits<float>::max()] and [::min()] (smallest positive normal number). *)
Definition FLT_MAX : float := binary_normalize 24 128 Fprec Fmax mode_NE (2 ^ 24 - 1) 104 false.
Definition FLT_MIN : float := binary_normalize 24 128 Fprec Fmax mode_NE 1 (-126) false.
