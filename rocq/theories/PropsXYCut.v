(** PropsXYCut.v - property theorems C28, C29 (the recursive XY-cut).
    Everywhere: [A] is the type of page elements, [pos] their positions, [impl] any implementation of std::sort and
    [topi] any implementation of the priority queue's top element (contracts [sort_ok] and [top_ok]); [choose...]
    are arbitrary strategies. [xyCut fuel ...] is [None] if the recursion is deeper than [fuel]. *)
From Coq Require Import ZArith NArith Reals.
From Verif Require Import Base Double DoubleFacts MathUtils Sort Elements GeometrySpec Counter XYCut XYCutSpec XYCutProofs ExactProofs CutPlaceProofs.

(** ** C28 XY-cut terminates and partitions *)

(** The recursion depth is at most the number of elements, and the result does not depend on the fuel. *)
Theorem C28_terminates : forall (A : Type) (pos : A -> position) impl topi, sort_ok impl -> top_ok topi ->
  forall minX minY maxOverlap (chooseX chooseY : chooser A) (elements : list A),
  exists r, forall fuel, length elements <= fuel ->
    xyCut pos impl topi fuel minX minY maxOverlap chooseX chooseY elements = Some r.
Proof.
  intros A pos impl topi Hi Ht mx my k cx cy elements.
  destruct (xyCut_terminates pos impl topi Hi Ht mx my k cx cy (length elements) elements (le_n _)) as [[r Hr] Hf].
  exists r. intros fuel Hl. rewrite <- Hr. apply Hf; auto.
Qed.
Print Assumptions C28_terminates.

(** Whatever the strategies choose: the groups are non-empty, contain every element exactly once, and none of them
    can be divided by a further y-cut. *)
Theorem C28_partition : forall (A : Type) (pos : A -> position) impl topi, sort_ok impl -> top_ok topi ->
  forall fuel minX minY maxOverlap (chooseX chooseY : chooser A) (elements : list A) groups cuts,
  xyCut pos impl topi fuel minX minY maxOverlap chooseX chooseY elements = Some (Ok (groups, cuts)) ->
  Permutation elements (concat groups) /\ (forall g, In g groups -> g <> []) /\
  (forall g, In g groups -> exists gs cs, yCut pos impl minY chooseY g = Ok (false, gs, cs)).
Proof.
  intros A pos impl topi Hi Ht fuel mx my k cx cy elements groups cuts H.
  destruct (xyCut_good pos impl topi Hi Ht mx my k cx cy fuel elements (groups, cuts) H) as [[H1 H2] H3]. auto.
Qed.
Print Assumptions C28_partition.

(** On elements with stored coordinates (invisible shapes included) and for strategies that return, no undefined behaviour is reached. *)
Theorem C28_defined : forall (A : Type) (pos : A -> position) impl topi, sort_ok impl -> top_ok topi ->
  forall minX minY maxOverlap (chooseX chooseY : chooser A) (elements : list A),
  (0 <= maxOverlap < 2 ^ 31)%Z ->
  (forall e, In e elements -> stored_coordinates (pos e)) ->
  (forall cands s, exists fl, chooseX cands s = Ok fl) -> (forall cands s, exists fl, chooseY cands s = Ok fl) ->
  exists r, xyCut pos impl topi (length elements) minX minY maxOverlap chooseX chooseY elements = Some (Ok r).
Proof.
  intros A pos impl topi Hi Ht mx my k cx cy elements Hk Hp Hcx Hcy.
  apply xyCut_ok; auto; try (intros ? ? _ _; auto). rewrite capacity_of by auto. lia.
Qed.
Print Assumptions C28_defined.

(** Test data: boxes of 10 x 10 at (x, y). *)
Definition box (x y : Z) : position := mkPos 1 (dZ x) (dZ y) (dZ (x + 10)) (dZ (y + 10)) 0 0.
Definition all_cuts {A} : chooser A := fun cands _ => Ok (map (fun _ => true) cands).
Definition first_cut {A} : chooser A := fun cands _ => Ok [true].
Definition boxes4 : list (nat * position) := [(0, box 0 0); (1, box 30 0); (2, box 0 40); (3, box 30 40)].
Example C28_example : option_map (fun r => match r with Ok (gs, cs) => (map (map fst) gs, length cs) | _ => ([], 0) end)
  (xyCut snd isort top_first 4 (dZ 5) (dZ 5) 0 all_cuts all_cuts boxes4) = Some ([[0]; [2]; [1]; [3]], 3).
Proof. vm_compute. reflexivity. Qed.
(** The recursion does not continue "until no group can be divided by further x-cuts or y-cuts" (src/utils/XYCut.h:72):
    a group that results from an x-cut and admits no y-cut is returned even if an x-cut would still be chosen. *)
Definition boxes3 : list (nat * position) := [(0, box 0 0); (1, box 30 0); (2, box 60 0)].
Theorem C28_exhaustive_refuted : exists (elements : list (nat * position)) groups cuts g,
  xyCut snd isort top_first (length elements) (dZ 5) (dZ 5) 0 first_cut all_cuts elements = Some (Ok (groups, cuts)) /\
  In g groups /\ match xCut snd isort top_first (dZ 5) 0 first_cut g with Ok (b, _, _) => b | _ => false end = true.
Proof.
  exists boxes3.
  assert (match xyCut snd isort top_first (length boxes3) (dZ 5) (dZ 5) 0 first_cut all_cuts boxes3 with
          | Some (Ok (gs, _)) => existsb (fun g => match xCut snd isort top_first (dZ 5) 0 first_cut g with
                                                   | Ok (b, _, _) => b | _ => false end) gs
          | _ => false end = true) as H by (vm_compute; reflexivity).
  destruct (xyCut snd isort top_first (length boxes3) (dZ 5) (dZ 5) 0 first_cut all_cuts boxes3) as [[[gs cs]|w|w]|];
    try discriminate H.
  apply existsb_exists in H as (g & Hg & H). exists gs, cs, g. split; [reflexivity|]. split; [exact Hg|exact H].
Qed.
Print Assumptions C28_exhaustive_refuted.

(** ** C29 Cuts split the sorted elements at the chosen positions *)

(** xCut on a non-empty list: with [s] the elements sorted by their left edges, the reported cuts lie at strictly
    increasing positions in 1..n-1, the groups are the pieces of [s] between the chosen positions, "true" is returned
    iff a cut was chosen. *)
Theorem C29_xcut_groups : forall (A : Type) (pos : A -> position) impl topi, sort_ok impl -> top_ok topi ->
  forall minGap maxOverlap (choose : chooser A) (elements : list A) b groups cuts, elements <> [] ->
  xCut pos impl topi minGap maxOverlap choose elements = Ok (b, groups, cuts) ->
  exists s, Permutation elements s /\
    ordered (fun x y => smaller (leftX (pos x)) (leftX (pos y)) TOL) s /\
    cut_positions (length elements) (map cut_pos cuts) /\
    cut_at (map cut_pos (filter cut_chosen cuts)) s groups /\ (forall g, In g groups -> g <> []) /\
    (b = true <-> exists c, In c cuts /\ cut_chosen c = true).
Proof.
  intros A pos impl topi Hi Ht mg k ch el b gs cs Hne H.
  apply (xCut_spec pos impl topi Hi Ht) in H as [(-> & _)|(s & cands & fl & _ & HO & (HP & [HC1 HC2] & HD & Hb & [_ Hnn]) & _)]; [congruence|].
  exists s. rewrite (Permutation_length HP). split; auto. split; [exact HO|]. split; [|split; [exact HD|split; auto]].
  - split; auto. intros p Hp. apply in_map_iff in Hp as (c & <- & Hc). auto.
  - rewrite Hb. rewrite <- exists_chosen_pos, existsb_exists. reflexivity.
Qed.
Print Assumptions C29_xcut_groups.

Theorem C29_ycut_groups : forall (A : Type) (pos : A -> position) impl, sort_ok impl ->
  forall minGap (choose : chooser A) (elements : list A) b groups cuts, elements <> [] ->
  yCut pos impl minGap choose elements = Ok (b, groups, cuts) ->
  exists s, Permutation elements s /\
    ordered (fun x y => smaller (upperY (pos x)) (upperY (pos y)) TOL) s /\
    cut_positions (length elements) (map cut_pos cuts) /\
    cut_at (map cut_pos (filter cut_chosen cuts)) s groups /\ (forall g, In g groups -> g <> []) /\
    (b = true <-> exists c, In c cuts /\ cut_chosen c = true).
Proof.
  intros A pos impl Hi mg ch el b gs cs Hne H.
  apply (yCut_spec pos impl Hi) in H as [(-> & _)|(s & cands & fl & _ & HO & (HP & [HC1 HC2] & HD & Hb & [_ Hnn]) & _)]; [congruence|].
  exists s. rewrite (Permutation_length HP). split; auto. split; [exact HO|]. split; [|split; [exact HD|split; auto]].
  - split; auto. intros p Hp. apply in_map_iff in Hp as (c & <- & Hc). auto.
  - rewrite Hb. rewrite <- exists_chosen_pos, existsb_exists. reflexivity.
Qed.
Print Assumptions C29_ycut_groups.

(** Which x-cuts are offered. For every reported cut: at most maxNumOverlappingElements elements are recorded as
    overlapped; apart from them no element in front of the cut extends (beyond the tolerance) farther to the right than
    elementBefore; no element behind the cut starts (beyond the tolerance) left of elementAfter; and the gap between
    elementBefore and elementAfter is at least minGap (within the tolerance). For maxNumOverlappingElements > 0 the
    right edges are required to be ordered by the tolerant comparison (true for stored coordinates, see C03). *)
Theorem C29_xcut_overlap : forall (A : Type) (pos : A -> position) impl topi, sort_ok impl -> top_ok topi ->
  forall minGap maxOverlap (choose : chooser A) (elements : list A) b groups cuts,
  (0 <= maxOverlap < 2 ^ 31)%Z ->
  (maxOverlap = 0%Z \/ forall e, In e elements -> stored_coordinates (pos e)) ->
  xCut pos impl topi minGap maxOverlap choose elements = Ok (b, groups, cuts) ->
  forall c, In c cuts ->
    (Z.of_nat (length (cut_overlap c)) <= maxOverlap)%Z /\
    reaches_farthest (fun e => rightX (pos e)) (cut_overlap c) (cut_before c) (firstn (cut_pos c) (concat groups)) /\
    nth_error (concat groups) (cut_pos c) = Some (cut_after c) /\
    (forall e, In e (skipn (S (cut_pos c)) (concat groups)) -> smaller (leftX (pos e)) (leftX (pos (cut_after c))) TOL = false) /\
    equalOrLarger (computeHorizontalGap (pos (cut_before c)) (pos (cut_after c))) minGap TOL = true /\
    cut_gapWidth c = computeHorizontalGap (pos (cut_before c)) (pos (cut_after c)).
Proof.
  intros A pos impl topi Hi Ht mg k ch el b gs cs Hk HU H c Hc.
  apply (xCut_spec pos impl topi Hi Ht) in H as [(_ & _ & _ & ->)|(s & cands & fl & _ & HO & (HP & _ & (HD & _) & _) & _ & Hcs & _ & _ & HX & _)]; [destruct Hc|].
  subst cs. apply apply_flags_in in Hc as (c0 & Hc0 & b0 & ->). cbn [set_chosen cut_overlap cut_before cut_after cut_pos cut_gapWidth].
  rewrite (capacity_of k Hk) in HX.
  destruct (HX c0) as (X1 & X2 & X3 & X4 & X5); auto.
  { destruct HU as [->|HU]; [left; reflexivity|right]. apply parsed_rxd; auto. }
  rewrite HD. split; [lia|]. split; auto. split; auto. split; auto.
  intros e He. apply in_split in He as (l1 & l2 & He).
  pose proof (nth_error_split s (cut_pos c0) X1) as (m1 & m2 & Hs & Hl).
  rewrite Hs in He. change (m1 ++ cut_after c0 :: m2) with (m1 ++ [cut_after c0] ++ m2) in He. rewrite app_assoc in He.
  rewrite skipn_app, skipn_all2 in He by (rewrite app_length; cbn; lia).
  assert (length (m1 ++ [cut_after c0]) = S (cut_pos c0)) as Hlen by (rewrite app_length; cbn [length]; lia).
  rewrite Hlen, Nat.sub_diag in He.
  cbn [skipn app] in He. subst m2.
  exact (HO m1 (cut_after c0) l1 e l2 Hs).
Qed.
Print Assumptions C29_xcut_overlap.

(** Which cuts are offered: for maxNumOverlappingElements = 0, and for y-cuts, a position is offered if and only if the
    gap between the element reaching farthest so far and the element at the position is at least minGap. *)
Theorem C29_xcut_candidates : forall (A : Type) (pos : A -> position) impl topi, sort_ok impl -> top_ok topi ->
  forall minGap (choose : chooser A) (elements : list A) b groups cuts,
  xCut pos impl topi minGap 0 choose elements = Ok (b, groups, cuts) ->
  forall i e, 1 <= i -> nth_error (concat groups) i = Some e ->
    exists m, reaches_farthest (fun a => rightX (pos a)) [] m (firstn i (concat groups)) /\
      (In i (map cut_pos cuts) <-> equalOrLarger (computeHorizontalGap (pos m) (pos e)) minGap TOL = true).
Proof.
  intros A pos impl topi Hi Ht mg ch el b gs cs H i e Hpos He.
  apply (xCut_spec pos impl topi Hi Ht) in H as [(_ & _ & -> & ->)|(s & cands & fl & _ & HO & (HP & _ & (HD & _) & _) & _ & Hcs & _ & _ & _ & HX)].
  { destruct i; discriminate. }
  rewrite HD in *. subst cs. rewrite apply_flags_pos. apply HX; auto.
Qed.
Print Assumptions C29_xcut_candidates.

Theorem C29_ycut_candidates : forall (A : Type) (pos : A -> position) impl, sort_ok impl ->
  forall minGap (choose : chooser A) (elements : list A) b groups cuts,
  yCut pos impl minGap choose elements = Ok (b, groups, cuts) ->
  forall i e, 1 <= i -> nth_error (concat groups) i = Some e ->
    exists m, reaches_farthest (fun a => lowerY (pos a)) [] m (firstn i (concat groups)) /\
      (In i (map cut_pos cuts) <-> equalOrLarger (computeVerticalGap (pos m) (pos e)) minGap TOL = true) /\
      (forall c, In c cuts -> cut_pos c = i -> cut_before c = m /\ cut_after c = e /\
         cut_gapHeight c = computeVerticalGap (pos m) (pos e) /\ cut_overlap c = []).
Proof.
  intros A pos impl Hi mg ch el b gs cs H i e Hpos He.
  apply (yCut_spec pos impl Hi) in H as [(_ & _ & -> & ->)|(s & cands & fl & _ & HO & (HP & _ & (HD & _) & _) & _ & Hcs & _ & HX)].
  { destruct i; discriminate. }
  rewrite HD in *. subst cs. rewrite apply_flags_pos.
  destruct (HX i e Hpos He) as (m & H1 & H2 & H3). exists m. split; auto. split; auto.
  intros c Hc Hci. apply apply_flags_in in Hc as (c0 & Hc0 & b0 & ->). cbn [set_chosen cut_overlap cut_before cut_after cut_pos cut_gapHeight] in *. apply H3; auto.
Qed.
Print Assumptions C29_ycut_candidates.

(** Where the cuts lie. An x-cut is a vertical line through the middle of the gap that spans the vertical extent of all
    elements; for proper boxes (and minGap at least the tolerance) it lies between elementBefore and elementAfter. *)
Theorem C29_xcut_place : forall (A : Type) (pos : A -> position) impl topi, sort_ok impl -> top_ok topi ->
  forall minGap maxOverlap (choose : chooser A) (elements : list A) b groups cuts,
  (0 <= maxOverlap < 2 ^ 31)%Z ->
  (forall e, In e elements -> proper_box (pos e)) -> is_fin minGap = true -> dle TOL minGap = true ->
  xCut pos impl topi minGap maxOverlap choose elements = Ok (b, groups, cuts) ->
  forall c, In c cuts ->
    let before := pos (cut_before c) in let after := pos (cut_after c) in
    cut_x2 c = cut_x1 c /\
    dle (rightX before) (cut_x1 c) = true /\ dle (cut_x1 c) (leftX after) = true /\
    (Rabs (E (cut_x1 c) - (E (rightX before) + E (leftX after)) / 2) <= / 1000000)%R /\
    (forall e, In e elements -> dle (cut_y1 c) (upperY (pos e)) = true /\ dle (lowerY (pos e)) (cut_y2 c) = true) /\
    cut_page c = pageNum after.
Proof.
  intros A pos impl topi Hi Ht mg k ch el b gs cs Hk HB F T H c Hc before after.
  assert (HN : forall e, In e el -> nn_pos (pos e)) by (intros e He; apply proper_nn; auto).
  destruct (xCut_place pos impl topi Hi mg k ch el b gs cs H HN c Hc) as (P1 & P2 & P3 & P4 & P5).
  apply (xCut_spec pos impl topi Hi Ht) in H as [(_ & _ & _ & ->)|(s & cands & fl & _ & HO & (HP & _ & (HD & _) & _) & _ & Hcs & _ & _ & HX & _)]; [destruct Hc|].
  subst cs. apply apply_flags_in in Hc as (c0 & Hc0 & b0 & ->). unfold before, after in *. clear before after.
  cbn [set_chosen cut_before cut_after cut_x1 cut_x2 cut_y1 cut_y2 cut_page] in *.
  destruct (HX c0) as (X1 & X3 & (r & X2 & _) & X4 & X5); auto.
  { right. apply parsed_rxd. intros e He. exact (GridProofs.parsed_stored _ (proj1 (HB e He))). }
  assert (IB : In (cut_before c0) (firstn (cut_pos c0) s)).
  { apply (Permutation_in _ (Permutation_sym X2)). apply in_or_app. right. left. reflexivity. }
  pose proof (nth_error_split s (cut_pos c0) X1) as (m1 & m2 & Hs & Hl).
  assert (S1 : smaller (leftX (pos (cut_after c0))) (leftX (pos (cut_before c0))) TOL = false).
  { rewrite Hs, firstn_app, <- Hl, Nat.sub_diag, firstn_all in IB. cbn [firstn] in IB. rewrite app_nil_r in IB.
    apply in_split in IB as (l1 & l2 & IB). rewrite IB, <- app_assoc in Hs. exact (HO l1 _ l2 _ m2 Hs). }
  assert (I1 : In (cut_before c0) el).
  { apply (Permutation_in _ (Permutation_sym HP)). rewrite <- (firstn_skipn (cut_pos c0) s). apply in_or_app. left. exact IB. }
  assert (I2 : In (cut_after c0) el).
  { apply (Permutation_in _ (Permutation_sym HP)). apply nth_error_In in X1. exact X1. }
  rewrite P1. destruct (hgap_middle _ _ mg (HB _ I1) (HB _ I2) S1 F T X4) as (Q1 & Q2 & Q3).
  split; [rewrite P2; exact P1|]. split; [exact Q1|]. split; [exact Q2|]. split; [exact Q3|]. split; [exact P5|exact P3].
Qed.
Print Assumptions C29_xcut_place.
Theorem C29_ycut_place : forall (A : Type) (pos : A -> position) impl, sort_ok impl ->
  forall minGap (choose : chooser A) (elements : list A) b groups cuts,
  (forall e, In e elements -> proper_box (pos e)) -> is_fin minGap = true -> dle TOL minGap = true ->
  yCut pos impl minGap choose elements = Ok (b, groups, cuts) ->
  forall c, In c cuts ->
    let before := pos (cut_before c) in let after := pos (cut_after c) in
    cut_y2 c = cut_y1 c /\
    dle (lowerY before) (cut_y1 c) = true /\ dle (cut_y1 c) (upperY after) = true /\
    (Rabs (E (cut_y1 c) - (E (lowerY before) + E (upperY after)) / 2) <= / 1000000)%R /\
    (forall e, In e elements -> dle (cut_x1 c) (leftX (pos e)) = true /\ dle (rightX (pos e)) (cut_x2 c) = true) /\
    cut_page c = pageNum after.
Proof.
  intros A pos impl Hi mg ch el b gs cs HB F T H c Hc before after.
  assert (HN : forall e, In e el -> nn_pos (pos e)) by (intros e He; apply proper_nn; auto).
  destruct (yCut_place pos impl Hi mg ch el b gs cs H HN c Hc) as (P1 & P2 & P3 & P4 & P5).
  apply (yCut_spec pos impl Hi) in H as [(_ & _ & _ & ->)|(s & cands & fl & _ & HO & (HP & _ & (HD & _) & _) & _ & Hcs & HC & HX)]; [destruct Hc|].
  subst cs. apply apply_flags_in in Hc as (c0 & Hc0 & b0 & ->). unfold before, after in *. clear before after.
  cbn [set_chosen cut_before cut_after cut_x1 cut_x2 cut_y1 cut_y2 cut_page] in *.
  pose proof (proj2 HC c0 Hc0) as Hr.
  destruct (nth_error s (cut_pos c0)) as [e|] eqn:X1; [|apply nth_error_None in X1; lia].
  destruct (HX (cut_pos c0) e ltac:(lia) X1) as (m & (r & X2 & _) & X3 & X4).
  destruct (X4 c0 Hc0 eq_refl) as (EB & EA & _). rewrite EB, EA in *.
  assert (X5 : equalOrLarger (computeVerticalGap (pos m) (pos e)) mg TOL = true) by (apply X3, in_map; exact Hc0).
  assert (IB : In m (firstn (cut_pos c0) s)).
  { apply (Permutation_in _ (Permutation_sym X2)). left. reflexivity. }
  pose proof (nth_error_split s (cut_pos c0) X1) as (m1 & m2 & Hs & Hl).
  assert (S1 : smaller (upperY (pos e)) (upperY (pos m)) TOL = false).
  { rewrite Hs, firstn_app, <- Hl, Nat.sub_diag, firstn_all in IB. cbn [firstn] in IB. rewrite app_nil_r in IB.
    apply in_split in IB as (l1 & l2 & IB). rewrite IB, <- app_assoc in Hs. exact (HO l1 _ l2 _ m2 Hs). }
  assert (I1 : In m el).
  { apply (Permutation_in _ (Permutation_sym HP)). rewrite <- (firstn_skipn (cut_pos c0) s). apply in_or_app. left. exact IB. }
  assert (I2 : In e el).
  { apply (Permutation_in _ (Permutation_sym HP)). apply nth_error_In in X1. exact X1. }
  rewrite P1. destruct (vgap_middle _ _ mg (HB _ I1) (HB _ I2) S1 F T X5) as (Q1 & Q2 & Q3).
  split; [rewrite P2; exact P1|]. split; [exact Q1|]. split; [exact Q2|]. split; [exact Q3|]. split; [exact P5|exact P3].
Qed.
Print Assumptions C29_ycut_place.
Example C29_place_nonvacuous : forallb (fun e => GridProofs.proper_b (snd e)) boxes4 = true /\ is_fin (dZ 5) = true /\ dle TOL (dZ 5) = true /\ 
  match xCut snd isort top_first (dZ 5) 1 all_cuts boxes4 with
  | Ok (_, _, c :: _) => deq (cut_x1 c) (dZ 20) && deq (cut_y1 c) (dZ 0) && deq (cut_y2 c) (dZ 50) | _ => false end = true.
Proof. vm_compute. auto. Qed.

(** For maxNumOverlappingElements > 0 the documented candidates ("all cuts with a wide enough gap that overlap at most
    maxNumOverlappingElements elements", src/utils/XYCut.h:123-125) are not all found: an element is only put into the
    queue if it extends beyond the queue's last element, even while the queue is not full. Here element 0 (0..50) is the
    only one overlapped by a cut between element 1 (10..20) and element 2 (40..50), yet no cut is offered. *)
Theorem C29_all_candidates_refuted : exists (elements : list (nat * position)) e0 e1 e2,
  elements = [e0; e1; e2] /\
  ordered (fun x y => smaller (leftX (snd x)) (leftX (snd y)) TOL) elements /\
  equalOrLarger (computeHorizontalGap (snd e1) (snd e2)) (dZ 5) TOL = true /\
  exists b groups, xCut snd isort top_first (dZ 5) 1 all_cuts elements = Ok (b, groups, []).
Proof.
  set (e0 := (0, mkPos 1 (dZ 0) (dZ 0) (dZ 50) (dZ 10) 0 0)).
  set (e1 := (1, mkPos 1 (dZ 10) (dZ 20) (dZ 20) (dZ 30) 0 0)).
  set (e2 := (2, mkPos 1 (dZ 40) (dZ 20) (dZ 50) (dZ 30) 0 0)).
  exists [e0; e1; e2], e0, e1, e2. split; [reflexivity|]. split; [|split; [vm_compute; reflexivity|]].
  - apply ord_ordered. constructor; [intros y [<-|[<-|[]]]; vm_compute; reflexivity|].
    constructor; [intros y [<-|[]]; vm_compute; reflexivity|]. constructor; [intros y []|constructor].
  - assert (match xCut snd isort top_first (dZ 5) 1 all_cuts [e0; e1; e2] with
            | Ok (_, _, []) => true | _ => false end = true) as H by (vm_compute; reflexivity).
    destruct (xCut snd isort top_first (dZ 5) 1 all_cuts [e0; e1; e2]) as [[[b gs] [|c cs]]|w|w]; try discriminate H.
    eauto.
Qed.
Print Assumptions C29_all_candidates_refuted.
(** A negative limit of -1 makes the queue's capacity 0, which is undefined behaviour for every non-empty input. *)
Theorem C29_negative_limit_refuted : exists (elements : list (nat * position)),
  (forall e, In e elements -> upright (snd e)) /\
  is_ub (xCut snd isort top_first (dZ 5) (-1) all_cuts elements) = true.
Proof. exists [(0, box 0 0)]. split; [intros e [<-|[]]; split; discriminate|]. vm_compute. reflexivity. Qed.
Print Assumptions C29_negative_limit_refuted.

Example C29_example : match xCut snd isort top_first (dZ 5) 1 all_cuts boxes4 with
  | Ok (b, gs, cs) => (b, map (map fst) gs, map cut_pos cs, map (fun c => map fst (cut_overlap c)) cs)
  | _ => (false, [], [], []) end = (true, [[0; 2]; [1]; [3]], [2; 3], [[]; [1]]).
Proof. vm_compute. reflexivity. Qed.
(** The hypotheses of the theorems above are met, e.g. by insertion sort and by [boxes4]. *)
Example C29_contracts : sort_ok (@isort (nat * position)) /\ top_ok (@top_first (nat * position)).
Proof. split; [exact isort_ok|exact top_first_ok]. Qed.
