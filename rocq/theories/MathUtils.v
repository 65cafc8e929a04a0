(** MathUtils.v - model of src/utils/MathUtils.cpp, src/utils/Trool.h. *)
From Coq Require Import ZArith.
From Flocq Require Import IEEE754.BinarySingleNaN.
From Verif Require Import Base Double.

(** src/Config.h:43 DEFAULT_DOUBLE_EQUAL_TOLERANCE *)
Definition TOL : double := dec 1 4.

(** src/utils/MathUtils.cpp:20-22 *)
Definition equal (d1 d2 t : double) : bool := dle (dabs (dsub d1 d2)) t.
(** src/utils/MathUtils.cpp:25-27 *)
Definition larger (d1 d2 t : double) : bool := dgt d1 (dadd d2 t).
(** src/utils/MathUtils.cpp:30-32 *)
Definition smaller (d1 d2 t : double) : bool := dlt d1 (dsub d2 t).
(** src/utils/MathUtils.cpp:35-37 *)
Definition equalOrLarger (d1 d2 t : double) : bool := dge d1 (dsub d2 t).
(** src/utils/MathUtils.cpp:40-42 *)
Definition equalOrSmaller (d1 d2 t : double) : bool := dle d1 (dadd d2 t).
(** src/utils/MathUtils.cpp:45-47 *)
Definition between (d low up t : double) : bool := equalOrLarger d low t && equalOrSmaller d up t.

(** [std::round]: nearest integer, ties away from zero. *)
Definition std_round (d : double) : double := @Bnearbyint 53 1024 Hemax mode_NA d.
(** src/utils/MathUtils.cpp:50-59. [std::pow(10.0, n)] is modelled as the correctly rounded power;
    the pipeline only uses n = 1 (src/Config.h:85,89), where it is exact. *)
Definition dround (d : double) (numDecimals : Z) : double :=
  if (numDecimals =? 0)%Z then std_round d
  else let divisor := dZ (10 ^ numDecimals) in
       ddiv (std_round (dmul d divisor)) divisor.

(** src/utils/MathUtils.cpp:62-64; [std::min(a,b)] is [(b < a) ? b : a]. *)
Definition minimum (a b : double) : double := if dlt b a then b else a.
(** src/utils/MathUtils.cpp:67-69 *)
Definition minimum3 (a b c : double) : double := minimum (minimum a b) c.
(** src/utils/MathUtils.cpp:72-74 *)
Definition minimum4 (a b c d : double) : double := minimum (minimum a b) (minimum c d).
(** src/utils/MathUtils.cpp:77-79; [std::max(a,b)] is [(a < b) ? b : a]. *)
Definition maximum (a b : double) : double := if dlt a b then b else a.
(** src/utils/MathUtils.cpp:82-84 *)
Definition maximum3 (a b c : double) : double := maximum (maximum a b) c.
(** src/utils/MathUtils.cpp:87-89 *)
Definition maximum4 (a b c d : double) : double := maximum (maximum a b) (maximum c d).

(** src/utils/Trool.h:21 *)
Inductive trool := TNone | TFalse | TTrue.
