(** HierarchySpec.v - vocabulary for the statements about the hierarchy of text lines (C26). *)
From Coq Require Import ZArith.
From Verif Require Import Base Double MathUtils Elements.

Section Spec.
  (** [ps]: the positions of the lines of a page, in order. [acw]: the average character width. [absd]: see Lines.v. *)
  Context (acw : double) (absd : double -> double) (ps : list position).

  (** The distance between line [i] and the line before it is too large for a hierarchy across it: both lines have the same
      rotation and writing mode, and the distance is more than 10 (by more than 0.1). *)
  Definition gap_before (i : nat) : Prop :=
    exists j q p, i = S j /\ nth_error ps j = Some q /\ nth_error ps i = Some p /\ rotation q = rotation p /\ wMode q = wMode p /\
      larger (absd (computeVerticalGap q p)) (dZ 10) (dec 1 1) = true.
  (** There is no such gap between the lines [j] and [i]. *)
  Definition no_gap (j i : nat) : Prop := forall k, j < k <= i -> ~ gap_before k.
  (** Line [i] is strictly below line [j]; one line is indented compared to another; two lines start at the same x. *)
  Definition below (q p : position) : Prop := equalOrLarger (lowerY q) (lowerY p) (dec 1 1) = false.
  Definition indented (q p : position) : Prop := smaller (leftX q) (leftX p) (dmul (dZ 1) acw) = true.
  Definition aligned (q p : position) : Prop := equal (leftX q) (leftX p) (dmul (dZ 1) acw) = true.

  (** The lines start in columns: the comparisons of left sides (with tolerance) are those of column numbers. *)
  Definition in_columns (col : nat -> Z) : Prop := forall i j p q, nth_error ps i = Some p -> nth_error ps j = Some q ->
    larger (leftX p) (leftX q) (dmul (dZ 1) acw) = (col j <? col i)%Z /\
    smaller (leftX p) (leftX q) (dmul (dZ 1) acw) = (col i <? col j)%Z /\
    equal (leftX p) (leftX q) (dmul (dZ 1) acw) = (col i =? col j)%Z.

  (** [placed]: the lines that take part in the hierarchy. A line [j] is open for line [i] if it takes part, there is no gap
      between them, and no line in between starts further left than [j], or starts in the same column and takes part. *)
  Definition open_for (col : nat -> Z) (placed : nat -> bool) (i j : nat) : Prop :=
    j < i /\ placed j = true /\ no_gap j i /\
    forall k, j < k < i -> (col j <= col k)%Z /\ (col k = col j -> placed k = false).
  (** [j] is the reference line of [i]: the last open line that does not start further right. *)
  Definition reference (col : nat -> Z) (placed : nat -> bool) (i j : nat) : Prop :=
    open_for col placed i j /\ (col j <= col i)%Z /\
    forall j', open_for col placed i j' -> (col j' <= col i)%Z -> j' <= j.
End Spec.
