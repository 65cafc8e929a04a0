(** PropsGeometry.v - property theorems C01-C07, C54 (numbers and geometry).
    Vocabulary: [dlt], [dle], [deq] are C++'s <, <=, == on doubles; [E x] is the real number a finite
    double denotes (infinities are put at +-2^1024, see DoubleFacts.v); [nn x] means "x is not NaN". *)
From Coq Require Import ZArith Reals.
From Flocq Require Import Core IEEE754.BinarySingleNaN.
From Verif Require Import Base Double DoubleFacts MathUtils MathUtilsProofs Sort Elements GeometrySpec ElementsProofs GridProofs ExactProofs.

(** ** C01 Tolerant comparisons form a consistent order *)
Theorem C01_tolerant_order : forall t, dle dzero t = true ->
  (forall a, larger a a t = false /\ smaller a a t = false) /\
  (forall a b, larger a b t = true -> larger b a t = false) /\
  (forall a b, smaller a b t = true -> smaller b a t = false) /\
  (forall a b c, larger a b t = true -> larger b c t = true -> larger a c t = true) /\
  (forall a b c, smaller a b t = true -> smaller b c t = true -> smaller a c t = true) /\
  (forall a b, ~ (larger a b t = true /\ smaller a b t = true)) /\
  (forall a b, larger a b t = true -> dlt b a = true) /\
  (forall a b, smaller a b t = true -> dlt a b = true) /\
  (forall a b, nn a -> nn b -> is_fin t = true ->
     equalOrSmaller a b t = negb (larger a b t) /\ equalOrLarger a b t = negb (smaller a b t)).
Proof.
  intros t Ht. repeat split; intros.
  - exact (larger_irrefl a t Ht).
  - exact (smaller_irrefl a t Ht).
  - exact (larger_asym a b t Ht H).
  - exact (smaller_asym a b t Ht H).
  - exact (larger_trans a b c t Ht H H0).
  - exact (smaller_trans a b c t Ht H H0).
  - intros [H1 H2]. pose proof (smaller_larger_excl a b t Ht H2) as H3; congruence.
  - exact (larger_gt a b t Ht H).
  - exact (smaller_lt a b t Ht H).
  - exact (equalOrSmaller_not_larger a b t H H0 H1).
  - exact (equalOrLarger_not_smaller a b t H H0 H1).
Qed.
Print Assumptions C01_tolerant_order.

(** The tolerance really counts: "larger" guarantees a distance of at least t between the denoted real
    numbers, and is equivalent to a > b + t whenever b + t is computed without rounding. *)
Theorem C01_meaning : forall a b t, is_fin a = true -> is_fin b = true -> is_fin t = true ->
  (larger a b t = true -> (E b + E t <= E a)%R) /\
  (smaller a b t = true -> (E a <= E b - E t)%R) /\
  (E (dadd b t) = (E b + E t)%R -> (larger a b t = true <-> (E b + E t < E a)%R)) /\
  (E (dsub b t) = (E b - E t)%R -> (smaller a b t = true <-> (E a < E b - E t)%R)) /\
  equal a b t = equal b a t.
Proof.
  intros a b t Fa Fb Ft. split; [|split; [|split; [|split]]].
  - exact (larger_real a b t Fa Fb Ft).
  - exact (smaller_real a b t Fa Fb Ft).
  - exact (larger_exact a b t Fa Fb Ft).
  - exact (smaller_exact a b t Fa Fb Ft).
  - exact (equal_sym a b t Fa Fb).
Qed.
Print Assumptions C01_meaning.

(** On coordinates as the parser stores them (rounded to one decimal) the three tolerant comparisons
    are an exact trichotomy: exactly one of equal / smaller / larger holds. *)
Theorem C01_trichotomy_on_rounded_coordinates : forall a b, rounded1 a -> rounded1 b ->
  (equal a b TOL = true /\ smaller a b TOL = false /\ larger a b TOL = false) \/
  (equal a b TOL = false /\ smaller a b TOL = true /\ larger a b TOL = false) \/
  (equal a b TOL = false /\ smaller a b TOL = false /\ larger a b TOL = true).
Proof.
  intros a b Ha Hb. destruct (rounded1_tenth a Ha) as [k K]. destruct (rounded1_tenth b Hb) as [l L].
  rewrite (equal_tenth k l a b K L), (smaller_tenth k l a b K L), (larger_tenth k l a b K L).
  destruct (Z.eqb_spec k l), (Z.ltb_spec k l), (Z.ltb_spec l k); try lia; auto.
Qed.
Print Assumptions C01_trichotomy_on_rounded_coordinates.

(** [equal] and [between] mean what they say: two numbers at most t apart are equal, and both relations
    are exactly the interval tests on real numbers whenever the difference/sum is computed without rounding. *)
Theorem C01_equal_between_meaning : forall a b lo up t,
  is_fin a = true -> is_fin b = true -> is_fin lo = true -> is_fin up = true -> is_fin t = true ->
  ((Rabs (E a - E b) <= E t)%R -> equal a b t = true) /\
  (E (dsub a b) = (E a - E b)%R -> (equal a b t = true <-> (Rabs (E a - E b) <= E t)%R)) /\
  (E (dsub lo t) = (E lo - E t)%R -> E (dadd up t) = (E up + E t)%R ->
     (between a lo up t = true <-> (E lo - E t <= E a <= E up + E t)%R)).
Proof.
  intros a b lo up t Fa Fb Fl Fu Ft. split; [|split].
  - exact (equal_close a b t Fa Fb Ft).
  - exact (equal_exact a b t Fa Fb Ft).
  - exact (between_exact a lo up t Fa Fl Fu Ft).
Qed.
Print Assumptions C01_equal_between_meaning.

(** On parsed coordinates the tolerance makes no difference: the tolerant comparisons are the plain ones. *)
Theorem C01_exact_on_rounded_coordinates : forall a b c, rounded1 a -> rounded1 b -> rounded1 c ->
  equal a b TOL = deq a b /\ smaller a b TOL = dlt a b /\ larger a b TOL = dlt b a /\
  equalOrSmaller a b TOL = dle a b /\ equalOrLarger a b TOL = dle b a /\
  between a b c TOL = dle b a && dle a c.
Proof.
  intros a b c A B C. pose proof (rounded_comparisons a b A B) as (H1 & H2 & H3 & H4 & H5).
  pose proof (rounded_between a b c A B C) as H6.
  split; [exact H1|]. split; [exact H2|]. split; [exact H3|]. split; [exact H4|]. split; [exact H5|exact H6].
Qed.
Print Assumptions C01_exact_on_rounded_coordinates.

(** In general it is not: two finite numbers that are neither equal, nor smaller, nor larger; and, with
    the font size tolerance 1.0, two that are both "equal" and "larger". *)
Theorem C01_trichotomy_refuted :
  (exists a b, is_fin a = true /\ is_fin b = true /\
     equal a b TOL = false /\ smaller a b TOL = false /\ larger a b TOL = false) /\
  (exists a b, is_fin a = true /\ is_fin b = true /\
     equal a b done = true /\ larger a b done = true).
Proof.
  split.
  - exists (ddiv (dZ 7968600100000001) (dZ (10 ^ 12))), (dec 79686 1). vm_compute. auto 10.
  - exists (dadd done (binary_normalize 53 1024 Hprec Hemax mode_NE 1 (-52) false)),
           (binary_normalize 53 1024 Hprec Hemax mode_NE 1 (-53) false). vm_compute. auto 10.
Qed.
Print Assumptions C01_trichotomy_refuted.

Example C01_nonvacuous :
  dle dzero TOL = true /\ larger (dec 75 1) (dec 74 1) TOL = true /\ smaller (dec 74 1) (dec 75 1) TOL = true /\
  equal (dec 74 1) (dec 7400005 6) TOL = true /\ rounded1 (dround (dec 12345 3) 1) /\
  E (dadd (dZ 3) (dZ 1)) = (E (dZ 3) + E (dZ 1))%R.
Proof.
  assert (E (dZ 3) = 3%R /\ E (dZ 1) = 1%R /\ E (dadd (dZ 3) (dZ 1)) = 4%R) as (H1 & H2 & H3).
  { destruct (dZ_exact 3) as [F3 E3]; [lia|]. destruct (dZ_exact 1) as [F1 E1]; [lia|].
    destruct (dadd_E (dZ 3) (dZ 1) F3 F1) as [_ H]. rewrite E3, E1 in *.
    replace (3 + 1)%R with (bpow radix2 2) in H by (cbn; Lra.lra). rewrite rd_bpow in H by lia.
    split; [auto|]. split; [auto|]. rewrite H. cbn [bpow]. change (IZR (Z.pow_pos radix2 2)) with 4%R.
    apply clamp_id. pose proof M_big. Lra.lra. }
  do 4 (split; [vm_compute; reflexivity|]). split.
  - exists (dec 12345 3). split; [vm_compute; reflexivity|reflexivity].
  - rewrite H1, H2, H3. Lra.lra.
Qed.

(** ** C02 minimum/maximum select a bounding argument *)
Theorem C02_min_max : forall a b c d, nn a -> nn b -> nn c -> nn d ->
  ((In (minimum a b) [a; b]) /\ Forall (fun x => dle (minimum a b) x = true) [a; b]) /\
  ((In (maximum a b) [a; b]) /\ Forall (fun x => dle x (maximum a b) = true) [a; b]) /\
  ((In (minimum3 a b c) [a; b; c]) /\ Forall (fun x => dle (minimum3 a b c) x = true) [a; b; c]) /\
  ((In (maximum3 a b c) [a; b; c]) /\ Forall (fun x => dle x (maximum3 a b c) = true) [a; b; c]) /\
  ((In (minimum4 a b c d) [a; b; c; d]) /\ Forall (fun x => dle (minimum4 a b c d) x = true) [a; b; c; d]) /\
  ((In (maximum4 a b c d) [a; b; c; d]) /\ Forall (fun x => dle x (maximum4 a b c d) = true) [a; b; c; d]).
Proof.
  intros a b c d Ha Hb Hc Hd.
  split; [|split; [|split; [|split; [|split]]]].
  - exact (minimum2_list a b Ha Hb).
  - exact (maximum2_list a b Ha Hb).
  - exact (minimum3_spec a b c Ha Hb Hc).
  - exact (maximum3_spec a b c Ha Hb Hc).
  - exact (minimum4_spec a b c d Ha Hb Hc Hd).
  - exact (maximum4_spec a b c d Ha Hb Hc Hd).
Qed.
Print Assumptions C02_min_max.
(** The non-NaN hypothesis is needed: with a NaN first argument the result is NaN. *)
Theorem C02_nan_refuted : exists a b, nn b /\ is_nan_d (minimum a b) = true.
Proof. exists dnan, dzero. split; reflexivity. Qed.
Print Assumptions C02_nan_refuted.
Example C02_nonvacuous : nn (dZ 3) /\ nn dinf /\ deq (minimum4 (dZ 3) (dZ 1) dinf (dZ 2)) (dZ 1) = true.
Proof. vm_compute. auto. Qed.

(** ** C03 Position comparators vs. the contract of std::sort *)
Theorem C03_comparators_are_partial_orders : forall lt, In lt comparators ->
  (forall p, lt p p = false) /\
  (forall p q, lt p q = true -> lt q p = false) /\
  (forall p q r, lt p q = true -> lt q r = true -> lt p r = true).
Proof.
  intros lt H. pose proof TOL_pos as T.
  repeat (destruct H as [<-|H];
    [repeat split; intros;
     first [ apply smaller_irrefl; exact T | apply larger_irrefl; exact T
           | apply smaller_asym; [exact T|assumption] | apply larger_asym; [exact T|assumption]
           | eapply smaller_trans; [exact T|eassumption|eassumption]
           | eapply larger_trans; [exact T|eassumption|eassumption]] |]).
  destruct H.
Qed.
Print Assumptions C03_comparators_are_partial_orders.

(** For elements with stored coordinates (rounded to one decimal, or infinite) every comparator is a strict weak order, so that std::sort is
    well-defined and returns the elements, each exactly once, in order. *)
Theorem C03_sort_well_defined : forall lt impl l, In lt comparators -> sort_ok impl ->
  (forall p, In p l -> stored_coordinates p) ->
  swo lt l /\
  exists l', std_sort impl lt l = Ok l' /\ Permutation l l' /\
    (forall l1 x l2 y l3, l' = l1 ++ x :: l2 ++ y :: l3 -> lt y x = false).
Proof. exact comparators_sort_well_defined. Qed.
Print Assumptions C03_sort_well_defined.

(** Each comparator orders parsed elements by exactly the edge, and in the direction, it is named after. *)
Theorem C03_comparators_meaning : forall p q, parsed_coordinates p -> parsed_coordinates q ->
  LeftXAsc p q = dlt (leftX p) (leftX q) /\
  RightXDesc p q = dlt (rightX q) (rightX p) /\
  UpperYAsc p q = dlt (upperY p) (upperY q) /\
  RotLeftXAsc p q = dlt (getRotLeftX p) (getRotLeftX q) /\
  RotLeftXDesc p q = dlt (getRotLeftX q) (getRotLeftX p) /\
  RotLowerYAsc p q = dlt (getRotLowerY p) (getRotLowerY q) /\
  RotLowerYDesc p q = dlt (getRotLowerY q) (getRotLowerY p).
Proof. exact comparators_meaning. Qed.
Print Assumptions C03_comparators_meaning.

(** Without the rounding the contract of std::sort is violated by three elements. *)
Theorem C03_contract_refuted : exists l : list position,
  (forall p, In p l -> is_fin (leftX p) = true) /\ length l = 3 /\
  (forall impl, exists why, std_sort impl LeftXAsc l = UB why).
Proof.
  exists [mkPos 1 dzero dzero done done 0 0; mkPos 1 (dec 8 5) dzero done done 0 0; mkPos 1 (dec 16 5) dzero done done 0 0].
  split; [|split; [reflexivity|]].
  - intros p [<-|[<-|[<-|[]]]]; vm_compute; reflexivity.
  - intros impl. eexists. unfold std_sort.
    assert (forall l, swo_b LeftXAsc l = false ->
      (if swo_b LeftXAsc l then Ok (impl LeftXAsc l)
       else UB "std::sort: comparator is not a strict weak order") = UB "std::sort: comparator is not a strict weak order") as H
      by (intros l ->; reflexivity).
    apply H. vm_compute. reflexivity.
Qed.
Print Assumptions C03_contract_refuted.
Example C03_nonvacuous : parsed_coordinates
  (mkPos 1 (dround (dec 10 2) 1) (dround (dec 123 1) 1) (dround (dec 4567 2) 1) (dround (dZ 99) 1) 0 0) /\
  sort_ok (@isort position) /\ In LeftXAsc comparators.
Proof.
  split; [|split; [exact isort_ok|left; reflexivity]].
  repeat split; eexists; (split; [|reflexivity]); vm_compute; reflexivity.
Qed.

(** ** C04 Overlap ratios *)
Theorem C04_overlap_ratios : forall s1 e1 s2 e2, finite_interval s1 e1 -> finite_interval s2 e2 ->
  let '(r1, r2) := computeOverlapRatios s1 e1 s2 e2 in
  (dle dzero r1 = true /\ dle r1 done = true) /\ (dle dzero r2 = true /\ dle r2 done = true) /\
  (let '(r1', r2') := computeOverlapRatios s2 e2 s1 e1 in deq r1 r2' = true /\ deq r2 r1' = true) /\
  (dle s1 e1 = true -> dle s2 e2 = true -> dle e1 s2 = true \/ dle e2 s1 = true ->
     deq r1 dzero = true /\ deq r2 dzero = true) /\
  (dle s2 s1 = true -> dlt s1 e1 = true -> dle e1 e2 = true -> dlt dzero (dsub e1 s1) = true ->
     deq r1 done = true).
Proof. exact overlap_ratios_all. Qed.
Print Assumptions C04_overlap_ratios.

Theorem C04_max_overlap_of_elements : forall p q,
  finite_interval (leftX p) (rightX p) -> finite_interval (leftX q) (rightX q) ->
  finite_interval (upperY p) (lowerY p) -> finite_interval (upperY q) (lowerY q) ->
  (dle dzero (computeMaxXOverlapRatio p q) = true /\ dle (computeMaxXOverlapRatio p q) done = true) /\
  (dle dzero (computeMaxYOverlapRatio p q) = true /\ dle (computeMaxYOverlapRatio p q) done = true) /\
  deq (computeMaxXOverlapRatio p q) (computeMaxXOverlapRatio q p) = true /\
  deq (computeMaxYOverlapRatio p q) (computeMaxYOverlapRatio q p) = true.
Proof. exact max_overlap_all. Qed.
Print Assumptions C04_max_overlap_of_elements.

(** The no-overflow hypothesis is needed: an interval longer than the largest double gives NaN. *)
Theorem C04_overflow_refuted : exists s1 e1 s2 e2,
  is_fin s1 = true /\ is_fin e1 = true /\ is_fin s2 = true /\ is_fin e2 = true /\
  is_nan_d (fst (computeOverlapRatios s1 e1 s2 e2)) = true.
Proof. exists (dopp DBL_MAX), DBL_MAX, (dopp DBL_MAX), DBL_MAX. vm_compute. auto 10. Qed.
Print Assumptions C04_overflow_refuted.
Example C04_nonvacuous : finite_interval (dZ 10) (dZ 30) /\ finite_interval (dZ 20) (dZ 60) /\
  (let '(r1, r2) := computeOverlapRatios (dZ 10) (dZ 30) (dZ 20) (dZ 60) in deq r1 (dec 5 1) && deq r2 (dec 25 2)) = true.
Proof. vm_compute. auto 10. Qed.

(** ** C05 Gaps between elements *)
Theorem C05_gaps : forall p q,
  (smaller (leftX p) (leftX q) TOL = true \/ smaller (leftX q) (leftX p) TOL = true ->
     computeHorizontalGap p q = computeHorizontalGap q p) /\
  (smaller (upperY p) (upperY q) TOL = true \/ smaller (upperY q) (upperY p) TOL = true ->
     computeVerticalGap p q = computeVerticalGap q p) /\
  (upright p -> upright q -> is_fin (leftX p) = true -> is_fin (rightX p) = true ->
   is_fin (leftX q) = true -> is_fin (rightX q) = true ->
   dgt (computeHorizontalGap p q) dzero = true ->
     dlt (rightX p) (leftX q) = true \/ dlt (rightX q) (leftX p) = true) /\
  (upright p -> upright q -> is_fin (upperY p) = true -> is_fin (lowerY p) = true ->
   is_fin (upperY q) = true -> is_fin (lowerY q) = true ->
   dgt (computeVerticalGap p q) dzero = true ->
     dlt (lowerY p) (upperY q) = true \/ dlt (lowerY q) (upperY p) = true) /\
  (upright p -> smaller (leftX p) (leftX q) TOL = true ->
     computeHorizontalGap p q = dsub (leftX q) (rightX p)) /\
  (upright p -> smaller (upperY p) (upperY q) TOL = true ->
     computeVerticalGap p q = dsub (upperY q) (lowerY p)).
Proof.
  intros p q. split; [|split; [|split; [|split; [|split]]]].
  - exact (hgap_sym p q).
  - exact (vgap_sym p q).
  - exact (hgap_pos_separated p q).
  - exact (vgap_pos_separated p q).
  - exact (hgap_upright p q).
  - exact (vgap_upright p q).
Qed.
Print Assumptions C05_gaps.

(** Neither guard can be dropped: elements with (almost) equal left edges can have an order-dependent
    gap, and for rotation 2 an overlapping pair has a positive "gap". *)
Theorem C05_guards_refuted :
  (exists p q, upright p /\ upright q /\ dlt (leftX p) (rightX p) = true /\ dlt (leftX q) (rightX q) = true /\
     deq (computeHorizontalGap p q) (computeHorizontalGap q p) = false) /\
  (exists p q, rotation p = 2%Z /\ rotation q = 2%Z /\ dlt (leftX q) (rightX p) = true /\ dlt (leftX p) (rightX q) = true /\
     dgt (computeHorizontalGap p q) dzero = true).
Proof.
  split.
  - exists (mkPos 1 dzero dzero (dZ 10) (dZ 10) 0 0), (mkPos 1 dzero dzero (dZ 20) (dZ 10) 0 0).
    unfold upright. cbn [rotation]. repeat split; try discriminate; vm_compute; reflexivity.
  - exists (mkPos 1 dzero dzero (dZ 10) (dZ 10) 2 0), (mkPos 1 (dZ 5) dzero (dZ 20) (dZ 10) 2 0).
    repeat split; vm_compute; reflexivity.
Qed.
Print Assumptions C05_guards_refuted.
Example C05_nonvacuous :
  let p := mkPos 1 dzero dzero (dZ 10) (dZ 10) 0 0 in let q := mkPos 1 (dZ 15) dzero (dZ 20) (dZ 10) 0 0 in
  upright p /\ upright q /\ smaller (leftX p) (leftX q) TOL = true /\ dgt (computeHorizontalGap p q) dzero = true.
Proof. unfold upright; cbn [rotation]. repeat split; try discriminate; vm_compute; reflexivity. Qed.

(** ** C06 Rotation-aware extents *)
Theorem C06_rotated_extents : forall p,
  getRotWidth p = (if (rotation p =? 1)%Z || (rotation p =? 3)%Z then getHeight p else getWidth p) /\
  getRotHeight p = (if (rotation p =? 1)%Z || (rotation p =? 3)%Z then getWidth p else getHeight p) /\
  Permutation [getRotLeftX p; getRotUpperY p; getRotRightX p; getRotLowerY p]
              [leftX p; upperY p; rightX p; lowerY p] /\
  (is_fin (leftX p) = true -> is_fin (rightX p) = true -> is_fin (upperY p) = true -> is_fin (lowerY p) = true ->
   dle (leftX p) (rightX p) = true -> dle (upperY p) (lowerY p) = true ->
   dle dzero (getRotWidth p) = true /\ dle dzero (getRotHeight p) = true).
Proof.
  intros p. split; [|split; [|split]].
  - exact (rot_width p).
  - exact (rot_height p).
  - exact (rot_sides_perm p).
  - exact (rot_extents_nonneg p).
Qed.
Print Assumptions C06_rotated_extents.
(** The four sides turn with the rotation: rotation r+1 moves each side one step on. *)
Theorem C06_rotation_is_cyclic : forall pn l u r o w,
  map (fun k => (getRotLeftX (mkPos pn l u r o k w), getRotUpperY (mkPos pn l u r o k w),
                 getRotRightX (mkPos pn l u r o k w), getRotLowerY (mkPos pn l u r o k w))) [0; 1; 2; 3]%Z
  = [(l, u, r, o); (u, r, o, l); (r, o, l, u); (o, l, u, r)].
Proof. intros. reflexivity. Qed.
Print Assumptions C06_rotation_is_cyclic.
Example C06_nonvacuous : let p := mkPos 1 dzero dzero (dZ 10) (dZ 4) 3 0 in
  deq (getRotWidth p) (dZ 4) = true /\ deq (getRotHeight p) (dZ 10) = true /\ dle (leftX p) (rightX p) = true.
Proof. vm_compute. auto. Qed.

(** ** C07 Bounding boxes cover their members *)
Theorem C07_bounding_box_covers : forall l, (forall q, In q l -> nn_pos q) ->
  (forall p, In p l ->
     dle (leftX (bbox l)) (leftX p) = true /\ dle (upperY (bbox l)) (upperY p) = true /\
     dle (rightX p) (rightX (bbox l)) = true /\ dle (lowerY p) (lowerY (bbox l)) = true) /\
  (forall p, In p l ->
     dle (leftX (bbox_norm l)) (leftX p) = true /\ dle (upperY (bbox_norm l)) (upperY p) = true /\
     dle (rightX p) (rightX (bbox_norm l)) = true /\ dle (lowerY p) (lowerY (bbox_norm l)) = true).
Proof.
  intros l Hl. split; intros p Hp.
  - exact (bbox_covers l p Hl Hp).
  - exact (proj1 (bbox_norm_covers l p Hl Hp)).
Qed.
Print Assumptions C07_bounding_box_covers.
Theorem C07_bounding_box_tight : forall l, l <> [] -> 
  (forall q, In q l -> is_fin (leftX q) = true /\ is_fin (upperY q) = true /\ is_fin (rightX q) = true /\ is_fin (lowerY q) = true) ->
  (exists p, In p l /\ dle DBL_MIN (rightX p) = true) -> (exists p, In p l /\ dle DBL_MIN (lowerY p) = true) ->
  (exists p, In p l /\ deq (leftX (bbox l)) (leftX p) = true) /\
  (exists p, In p l /\ deq (upperY (bbox l)) (upperY p) = true) /\
  (exists p, In p l /\ deq (rightX (bbox l)) (rightX p) = true) /\
  (exists p, In p l /\ deq (lowerY (bbox l)) (lowerY p) = true).
Proof. exact bbox_tight_fin. Qed.
Print Assumptions C07_bounding_box_tight.
(** The same for text lines and blocks, whose boxes also cover members with swapped edges (left > right). *)
Theorem C07_line_and_block_box : forall l, l <> [] ->
  (forall q, In q l -> is_fin (leftX q) = true /\ is_fin (upperY q) = true /\ is_fin (rightX q) = true /\ is_fin (lowerY q) = true) ->
  (forall p x, In p l -> In x [leftX p; rightX p] ->
     dle (leftX (bbox_norm l)) x = true /\ dle x (rightX (bbox_norm l)) = true) /\
  (forall p y, In p l -> In y [upperY p; lowerY p] ->
     dle (upperY (bbox_norm l)) y = true /\ dle y (lowerY (bbox_norm l)) = true) /\
  ((exists p, In p l /\ dle DBL_MIN (rightX p) = true) -> (exists p, In p l /\ dle DBL_MIN (lowerY p) = true) ->
   (exists p x, In p l /\ In x [leftX p; rightX p] /\ deq (leftX (bbox_norm l)) x = true) /\
   (exists p y, In p l /\ In y [upperY p; lowerY p] /\ deq (upperY (bbox_norm l)) y = true) /\
   (exists p x, In p l /\ In x [leftX p; rightX p] /\ deq (rightX (bbox_norm l)) x = true) /\
   (exists p y, In p l /\ In y [upperY p; lowerY p] /\ deq (lowerY (bbox_norm l)) y = true)).
Proof.
  intros l Hne Hf.
  assert (Hl : forall q, In q l -> nn_pos q).
  { intros q Hq. destruct (Hf q Hq) as (? & ? & ? & ?). repeat split; apply fin_nn; auto. }
  split; [|split].
  - intros p x Hp Hx. destruct (bbox_norm_covers l p Hl Hp) as ((C1 & C2 & C3 & C4) & D1 & D2 & D3 & D4).
    destruct Hx as [<-|[<-|[]]]; split; assumption.
  - intros p x Hp Hx. destruct (bbox_norm_covers l p Hl Hp) as ((C1 & C2 & C3 & C4) & D1 & D2 & D3 & D4).
    destruct Hx as [<-|[<-|[]]]; split; assumption.
  - exact (bbox_norm_tight_fin l Hne Hf).
Qed.
Print Assumptions C07_line_and_block_box.
(** Elements that lie entirely at non-positive coordinates get a box that is too large (its right
    edge is DBL_MIN = 2^-1022 although every member ends at -5). *)
Theorem C07_tight_refuted : exists l, l <> [] /\
  (forall q, In q l -> is_fin (leftX q) = true /\ is_fin (upperY q) = true /\ is_fin (rightX q) = true /\ is_fin (lowerY q) = true) /\
  ~ (exists p, In p l /\ deq (rightX (bbox l)) (rightX p) = true).
Proof.
  exists [mkPos 1 (dZ (-10)) (dZ 1) (dZ (-5)) (dZ 2) 0 0]. split; [discriminate|]. split.
  - intros q [<-|[]]. vm_compute. auto.
  - intros (p & [<-|[]] & H). vm_compute in H. discriminate.
Qed.
Print Assumptions C07_tight_refuted.
Example C07_nonvacuous :
  let l := [mkPos 1 (dZ 3) (dZ 1) (dZ 5) (dZ 2) 0 0; mkPos 1 (dZ 1) (dZ 2) (dZ 4) (dZ 9) 0 0] in
  (forall q, In q l -> nn_pos q) /\ (deq (leftX (bbox l)) (dZ 1) && deq (upperY (bbox l)) (dZ 1) && deq (rightX (bbox l)) (dZ 5) && deq (lowerY (bbox l)) (dZ 9)) = true /\
  (exists p, In p l /\ dle DBL_MIN (rightX p) = true).
Proof.
  split; [|split].
  - intros q [<-|[<-|[]]]; repeat split; reflexivity.
  - vm_compute. reflexivity.
  - eexists. split; [left; reflexivity|vm_compute; reflexivity].
Qed.

(** ** C54 Rounding never inverts a box *)
Theorem C54_rounding_is_monotone : forall n a b, (0 <= n <= 300)%Z -> dle a b = true ->
  dle (dround a n) (dround b n) = true.
Proof. exact dround_mono. Qed.
Print Assumptions C54_rounding_is_monotone.
(** ... and moves a coordinate by at most 0.05 (up to the error of the final division). *)
Theorem C54_rounding_error : forall x, dle (dabs x) (dZ 100000000) = true ->
  is_fin (dround x 1) = true /\ (Rabs (E (dround x 1) - E x) <= 50001 / 1000000)%R.
Proof. exact dround1_close. Qed.
Print Assumptions C54_rounding_error.
Example C54_nonvacuous : deq (dround (dec 12345 3) 1) (dec 123 1) = true /\ deq (dround (dec 12355 3) 1) (dec 124 1) = true /\
  dle (dec 12345 3) (dec 12355 3) = true.
Proof. vm_compute. auto. Qed.
