(** XYCutSpec.v - specifications for the XY-cut properties, independent of the model's functions. *)
From Coq Require Import ZArith.
From Verif Require Import Base Double MathUtils Sort Elements.

(** [groups] are the consecutive pieces of [s] that result from cutting [s] in front of the positions [ps]. *)
Definition cut_at {A} (ps : list nat) (s : list A) (groups : list (list A)) : Prop :=
  concat groups = s /\ length groups = S (length ps) /\
  forall i p, nth_error ps i = Some p -> concat (firstn (S i) groups) = firstn p s.

(** Strictly increasing positions between 1 and n-1. *)
Definition cut_positions (n : nat) (ps : list nat) : Prop :=
  StronglySorted lt ps /\ forall p, In p ps -> 1 <= p < n.

(** The groups are non-empty and together contain every element exactly as often as [elements]. *)
Definition partition_of {A} (elements : list A) (groups : list (list A)) : Prop :=
  Permutation elements (concat groups) /\ forall g, In g groups -> g <> [].

(** Apart from the members [overlapping] and [m], no element of [l] extends beyond the edge of [m] by more than the
    tolerance. *)
Definition reaches_farthest {A} (edge : A -> double) (overlapping : list A) (m : A) (l : list A) : Prop :=
  exists rest, Permutation l (overlapping ++ m :: rest) /\ forall d, In d rest -> larger (edge d) (edge m) TOL = false.
