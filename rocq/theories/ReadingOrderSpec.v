(** ReadingOrderSpec.v - which cuts the reading order detection chooses, stated without the model's functions. *)
From Coq Require Import ZArith.
From Verif Require Import Base Double MathUtils Elements XYCut Document ReadingOrder.

(** [ps] are the positions of the cut candidates from top to bottom, [n] the number of elements and [D lo hi] says that
    the elements between the positions [lo] and [hi] can be divided by an x-cut. *)
Section YCuts.
  Context (D : nat -> nat -> Prop) (ps : list nat) (n : nat).
  (** The topmost candidate such that the elements below it can be divided (if there is one). *)
  Definition lower_cut (low : option nat) : Prop :=
    match low with
    | Some i => exists p, nth_error ps i = Some p /\ D p n /\ forall j q, j < i -> nth_error ps j = Some q -> ~ D q n
    | None => forall j q, nth_error ps j = Some q -> ~ D q n
    end.
  (** The bottommost candidate, not below candidate [lst], such that the elements above it can be divided. *)
  Definition upper_cut (lst : nat) (high : option nat) : Prop :=
    match high with
    | Some i => i <= lst /\ exists p, nth_error ps i = Some p /\ D 0 p /\ forall j q, i < j <= lst -> nth_error ps j = Some q -> ~ D 0 q
    | None => forall j q, j <= lst -> nth_error ps j = Some q -> ~ D 0 q
    end.
  (** From candidate [i] downwards: pair a candidate with the bottommost candidate such that the elements in between can
      be divided and go on below, or skip it if there is none. *)
  Inductive paired (lst : nat) : nat -> list nat -> Prop :=
  | pd_end i : lst <= i -> paired lst i []
  | pd_pair i j p q l : i < lst -> i <= j <= lst -> nth_error ps i = Some p -> nth_error ps j = Some q -> D p q ->
      (forall k r, j < k <= lst -> nth_error ps k = Some r -> ~ D p r) ->
      paired lst (S j) l -> paired lst i (i :: j :: l)
  | pd_skip i p l : i < lst -> nth_error ps i = Some p ->
      (forall k r, i <= k <= lst -> nth_error ps k = Some r -> ~ D p r) ->
      paired lst (S i) l -> paired lst i l.
  Definition chosen_y_cuts (chosen : list nat) : Prop :=
    exists low high pairs,
      lower_cut low /\
      (let lst := match low with Some i => i | None => length ps - 1 end in
       upper_cut lst high /\
       paired lst (match high with Some i => i | None => 0 end) pairs) /\
      (forall k, In k chosen <-> low = Some k \/ high = Some k \/ In k pairs).
End YCuts.

(** The primary cuts. *)
Definition rotated_block (r : relem) : Prop :=
  exists b, r = RBlock b /\ (wMode (b_pos b) <> 0%Z \/ rotation (b_pos b) <> 0%Z).
Definition differently_rotated (r s : relem) : Prop :=
  exists b c, r = RBlock b /\ s = RBlock c /\ (wMode (b_pos b) <> wMode (b_pos c) \/ rotation (b_pos b) <> rotation (b_pos c)).
(** A figure or shape higher than ten average characters that covers the height [mid]. *)
Definition vertical_separator (avgCharHeight mid : double) (r : relem) : Prop :=
  exists e, (r = RFigure e \/ r = RShape e) /\
    dlt (dmul (dZ 10) avgCharHeight) (dsub (lowerY (e_pos e)) (upperY (e_pos e))) = true /\
    dlt (upperY (e_pos e)) mid = true /\ dlt mid (lowerY (e_pos e)) = true.
Definition horizontal_separator (avgCharWidth mid : double) (r : relem) : Prop :=
  exists e, (r = RFigure e \/ r = RShape e) /\
    dlt (dmul (dZ 10) avgCharWidth) (dsub (rightX (e_pos e)) (leftX (e_pos e))) = true /\
    dlt (leftX (e_pos e)) mid = true /\ dlt mid (rightX (e_pos e)) = true.
Definition primary_x_cut (avgCharHeight mid : double) (before after : relem) : Prop :=
  rotated_block before \/ rotated_block after \/ differently_rotated before after \/
  vertical_separator avgCharHeight mid before \/ vertical_separator avgCharHeight mid after.
(** Exactly one of the two is a block of role [role]. *)
Definition with_role (role : nat) (r : relem) : Prop := exists b, r = RBlock b /\ b_role b = role.
Definition role_changes (role : nat) (r s : relem) : Prop :=
  (with_role role r /\ ~ with_role role s) \/ (~ with_role role r /\ with_role role s).
(** Title = 6, author info = 7, marginal = 2 (src/Types.h:69-84). *)
Definition primary_y_cut (avgCharWidth mid : double) (before after : relem) : Prop :=
  role_changes 6 before after \/ role_changes 7 before after \/ role_changes 2 before after \/
  horizontal_separator avgCharWidth mid before \/ horizontal_separator avgCharWidth mid after.

(** [m] is the least / greatest of the values. *)
Definition least_of (l : list double) (m : double) : Prop := In m l /\ forall x, In x l -> dle m x = true.
Definition greatest_of (l : list double) (m : double) : Prop := In m l /\ forall x, In x l -> dle x m = true.
(** The middle between [lo] and [hi] as the program computes it. *)
Definition middle (lo hi : double) : double := dadd lo (ddiv (dsub hi lo) (dZ 2)).
