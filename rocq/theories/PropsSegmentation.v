(** PropsSegmentation.v - property theorems C30-C32, C56, C57 (page segmentation and reading order).
    [impl] is any implementation of std::sort, [topi] any implementation of the priority queue's top element. *)
From Coq Require Import ZArith NArith.
From Verif Require Import Base Double DoubleFacts MathUtils Sort Elements GeometrySpec ElementsProofs GridProofs Counter XYCut XYCutSpec
  XYCutProofs Document PageSegmentation SegmentationSpec SegmentationProofs ReadingOrder ReadingOrderProofs ReadingOrderSpec ReadingOrderExact.
Local Opaque TOL dZ dadd dsub ddiv DBL_MAX DBL_MIN.

(** ** C30 Page segmentation partitions the page content *)

(** The segments contain every word, figure, graphic and shape of the page exactly once, no segment is empty, and a
    segment has the page number of its first element. *)
Theorem C30_partition : forall impl topi cfg, sort_ok impl -> top_ok topi ->
  forall (p : ppage) segments cuts, processPage impl topi cfg p = Some (Ok (segments, cuts)) ->
  Permutation (pp_words p ++ pp_figures p ++ pp_graphics p ++ pp_shapes p) (concat (map seg_elements segments)) /\
  forall s, In s segments -> exists e0 rest, seg_elements s = e0 :: rest /\ pageNum (seg_pos s) = pageNum (pe_pos e0).
Proof.
  intros impl topi cfg Hi Ht p segs cuts H. unfold processPage in H.
  match type of H with rbind ?m _ = _ => destruct m as [[[gs cs]|w|w]|] eqn:E; cbn [rbind] in H; try discriminate end.
  injection H as <- _. cbn [fst].
  destruct (xyCut_good pe_pos impl topi Hi Ht _ _ _ _ _ _ _ _ E) as [[HP HN] _]. cbn [fst] in *.
  rewrite map_map. cbn [createPageSegment seg_elements]. rewrite map_id. split; [exact HP|].
  intros s Hs. apply in_map_iff in Hs as (g & <- & Hg). specialize (HN g Hg). destruct g as [|e0 g]; [congruence|].
  exists e0, g. split; reflexivity.
Qed.
Print Assumptions C30_partition.

(** The bounding box of a segment covers all of its elements. *)
Theorem C30_bounding_box : forall impl topi cfg, sort_ok impl -> top_ok topi ->
  forall (p : ppage) segments cuts, processPage impl topi cfg p = Some (Ok (segments, cuts)) ->
  (forall e, In e (page_elements p) -> nn_pos (pe_pos e)) ->
  forall s e, In s segments -> In e (seg_elements s) -> covers (seg_pos s) (pe_pos e).
Proof.
  intros impl topi cfg Hi Ht p segs cuts H Hn s e Hs He. unfold processPage in H.
  match type of H with rbind ?m _ = _ => destruct m as [[[gs cs]|w|w]|] eqn:E; cbn [rbind] in H; try discriminate end.
  injection H as <- _. cbn [fst] in Hs.
  destruct (xyCut_good pe_pos impl topi Hi Ht _ _ _ _ _ _ _ _ E) as [[HP _] _]. cbn [fst] in *.
  apply in_map_iff in Hs as (g & <- & Hg). cbn [createPageSegment seg_elements seg_pos] in *.
  assert (covers (bbox (map pe_pos g)) (pe_pos e)) as Hc; [|exact Hc].
  apply bbox_covers; [|apply in_map; exact He]. intros q Hq. apply in_map_iff in Hq as (x & <- & Hx).
  apply Hn, (Permutation_in _ (Permutation_sym HP)), in_concat. exists g. split; [exact Hg|exact Hx].
Qed.
Print Assumptions C30_bounding_box.

(** Segmenting terminates for every page; on parsed coordinates it never reaches undefined behaviour. *)
Theorem C30_terminates : forall impl topi cfg, sort_ok impl -> top_ok topi ->
  forall p : ppage, exists r, processPage impl topi cfg p = Some r.
Proof.
  intros impl topi cfg Hi Ht p. unfold processPage.
  match goal with |- context [xyCut pe_pos impl topi ?f ?a ?b ?c ?d ?e ?l] =>
    destruct (xyCut_terminates pe_pos impl topi Hi Ht a b c d e f l (le_n _)) as [[[r|w|w] Hr] _]; rewrite Hr end;
  cbn [rbind]; eexists; reflexivity.
Qed.
Print Assumptions C30_terminates.
Theorem C30_defined : forall impl topi cfg, sort_ok impl -> top_ok topi ->
  (0 <= xCutMaxNumOverlappingElements cfg < 2 ^ 31)%Z ->
  forall p : ppage, (forall e, In e (page_elements p) -> stored_coordinates (pe_pos e)) ->
  exists segments cuts, processPage impl topi cfg p = Some (Ok (segments, cuts)).
Proof.
  intros impl topi cfg Hi Ht Hk p Hp.
  assert (0 < queue_capacity (xCutMaxNumOverlappingElements cfg))%N as Hq by (rewrite capacity_of by exact Hk; lia).
  unfold processPage.
  destruct (xyCut_ok pe_pos impl topi Hi Ht (xCutMinGapWidth cfg) (yCutMinGapHeight cfg) (xCutMaxNumOverlappingElements cfg)
     (chooseXCuts cfg) (chooseYCuts impl topi cfg) (length (page_elements p)) Hq (chooseXCuts_total cfg)
     (chooseYCuts_total impl topi cfg Hi Ht Hq) (page_elements p) Hp (le_n _)) as [r Hr].
  rewrite Hr. cbn [rbind]. eexists. eexists. reflexivity.
Qed.
Print Assumptions C30_defined.

(** Test data: two columns of two words each; the default configuration for average extents 5 x 10, word distance 3. *)
Definition wbox (u : nat) (r x y w : Z) : pelem := mkPE u (mkPos 1 (dZ x) (dZ y) (dZ (x + w)) (dZ (y + 10)) 0 0) (Some r).
Definition cfg1 : ps_config := default_config (mkPS (dZ 3) (dZ 5) (dZ 10)).
Definition page1 : ppage := mkPP [wbox 0 0 0 0 100; wbox 1 1 0 80 100; wbox 2 10 200 0 100; wbox 3 11 200 80 100] [] []
  [mkPE 4 (mkPos 1 (dZ 0) (dZ 40) (dZ 100) (dZ 60) 0 0) None].
Example C30_example : match processPage isort top_first cfg1 page1 with
  | Some (Ok (segs, cuts)) => map (fun s => map pe_uid (seg_elements s)) segs = [[0; 1; 4]; [2; 3]] /\ length cuts = 5
  | _ => False end.
Proof. vm_compute. split; reflexivity. Qed.
Example C30_hypotheses : (0 <= xCutMaxNumOverlappingElements cfg1 < 2 ^ 31)%Z /\
  (forall e, In e (page_elements page1) -> parsed_coordinates (pe_pos e)).
Proof.
  split; [cbn; lia|].
  assert (forallb (fun e => parsed_b (pe_pos e)) (page_elements page1) = true) as H by (vm_compute; reflexivity).
  intros e He. apply parsed_check. exact (proj1 (forallb_forall _ _) H e He).
Qed.

(** ** C31 Page segmentation's choice of cuts *)

(** An x-cut is chosen if and only if none of the four rules speaks against it, where the rule on slim groups looks at
    the last cut chosen before. *)
Theorem C31_x_cuts : forall cfg cuts elements flags, elements <> [] ->
  chooseXCuts cfg cuts elements = Ok flags ->
  length flags = length cuts /\
  forall i c, nth_error cuts i = Some c -> exists prev, previous_chosen cuts flags i prev /\
    (nth i flags false = true <->
     ~ (rule_overlapping cfg c elements \/ rule_small_gap cfg c \/ rule_contiguous_words cfg c elements \/
        rule_slim_groups cfg prev c elements)).
Proof. intros cfg cuts el fl Hne H. exact (chooseXCuts_spec cfg cuts el fl Hne H). Qed.
Print Assumptions C31_x_cuts.

(** The y-cuts: the boundaries (top of the page, the candidates, bottom of the page) are chosen as described by
    [stripe_choice], where a stripe is divisible iff x-cutting its elements succeeds. *)
Theorem C31_y_cuts : forall impl topi cfg cuts elements flags, cuts <> [] -> elements <> [] ->
  chooseYCuts impl topi cfg cuts elements = Ok flags ->
  length flags = length cuts /\ exists top bottom,
  stripe_choice (fun lo hi => exists groups xcuts,
      xCut pe_pos impl topi (xCutMinGapWidth cfg) (xCutMaxNumOverlappingElements cfg) (chooseXCuts cfg) (stripe elements lo hi)
        = Ok (true, groups, xcuts))
    (0 :: map cut_pos cuts ++ [length elements]) (top :: flags ++ [bottom]).
Proof. intros impl topi cfg cuts el fl Hc He H. exact (chooseYCuts_spec impl topi cfg cuts el fl Hc He H). Qed.
Print Assumptions C31_y_cuts.

(** In particular every chosen y-cut bounds a stripe that an x-cut divides: the other boundary [b] is the top of the
    page, the bottom of the page, or another chosen y-cut, and no y-cut in between is chosen. *)
Theorem C31_y_partner : forall impl topi cfg cuts elements flags, cuts <> [] -> elements <> [] ->
  chooseYCuts impl topi cfg cuts elements = Ok flags ->
  forall i c, nth_error cuts i = Some c -> nth i flags false = true ->
  exists lo hi, (lo = cut_pos c \/ hi = cut_pos c) /\
    (lo = 0 \/ exists j d, nth_error cuts j = Some d /\ cut_pos d = lo /\ nth j flags false = true) /\
    (hi = length elements \/ exists j d, nth_error cuts j = Some d /\ cut_pos d = hi /\ nth j flags false = true) /\
    (exists groups xcuts,
      xCut pe_pos impl topi (xCutMinGapWidth cfg) (xCutMaxNumOverlappingElements cfg) (chooseXCuts cfg) (stripe elements lo hi)
        = Ok (true, groups, xcuts)).
Proof.
  intros impl topi cfg cuts el fl Hc He H i c Hi Hf.
  destruct (chooseYCuts_spec impl topi cfg cuts el fl Hc He H) as (Hl & top & bottom & HS).
  assert (i < length cuts) as Hil by (apply nth_error_Some; congruence).
  assert (nth (S i) (top :: fl ++ [bottom]) false = true) as Hf'. { cbn [nth]. rewrite app_nth1 by lia. exact Hf. }
  assert (nth_error (0 :: map cut_pos cuts ++ [length el]) (S i) = Some (cut_pos c)) as Hn.
  { cbn [nth_error]. rewrite nth_error_app1 by (rewrite map_length; lia). apply map_nth_error. exact Hi. }
  destruct (stripe_choice_partner _ _ _ HS (S i) Hf') as (a & b & pa & pb & Hab & Hlt & Ha & Hb & Hd & Fa & Fb & _ & _).
  assert (b < length (0 :: map cut_pos cuts ++ [length el])) as Hbl by (apply nth_error_Some; congruence).
  cbn [length] in Hbl. rewrite app_length, map_length in Hbl. cbn [length] in Hbl.
  assert (forall j, j < length cuts -> exists d, nth_error cuts j = Some d /\
            nth_error (0 :: map cut_pos cuts ++ [length el]) (S j) = Some (cut_pos d) /\
            nth (S j) (top :: fl ++ [bottom]) false = nth j fl false) as Hreal.
  { intros j Hj. destruct (nth_error cuts j) as [d|] eqn:Ed; [|apply nth_error_None in Ed; lia]. exists d. split; [reflexivity|]. split.
    - cbn [nth_error]. rewrite nth_error_app1 by (rewrite map_length; lia). apply map_nth_error. exact Ed.
    - cbn [nth]. apply app_nth1. lia. }
  exists pa, pb. split; [|split; [|split; [|exact Hd]]].
  - destruct Hab as [<-|<-]; [left; rewrite Hn in Ha|right; rewrite Hn in Hb]; congruence.
  - destruct a as [|a]; [left; cbn in Ha; congruence|right]. destruct (Hreal a) as (d & Ed & Ep & Ef); [lia|].
    exists a, d. split; [exact Ed|]. split; [congruence|]. rewrite <- Ef. exact Fa.
  - destruct b as [|b]; [lia|]. destruct (lt_dec b (length cuts)) as [Hbb|Hbb].
    + right. destruct (Hreal b Hbb) as (d & Ed & Ep & Ef). exists b, d. split; [exact Ed|]. split; [congruence|]. rewrite <- Ef. exact Fb.
    + left. cbn [nth_error] in Hb. rewrite nth_error_app2 in Hb by (rewrite map_length; lia).
      rewrite map_length in Hb. replace (b - length cuts) with 0 in Hb by lia. cbn in Hb. congruence.
Qed.
Print Assumptions C31_y_partner.

(** A page with a headline above two columns: the y-cut below the headline is chosen, because what is below it can be
    divided by an x-cut. *)
Definition page2 : list pelem := [wbox 0 0 0 0 300; wbox 1 1 0 80 100; wbox 2 10 200 80 100; wbox 3 2 0 160 100; wbox 4 11 200 160 100].
Example C31_example : match yCut pe_pos isort (yCutMinGapHeight cfg1) (chooseYCuts isort top_first cfg1) page2 with
  | Ok (b, gs, cuts) => (b, map (map pe_uid) gs, map (fun c => (cut_pos c, cut_chosen c)) cuts) =
      (true, [[0]; [1; 2; 3; 4]], [(1, true); (3, false)])
  | _ => False end.
Proof. vm_compute. reflexivity. Qed.
Example C31_example_x : match xCut pe_pos isort top_first (xCutMinGapWidth cfg1) 1 (chooseXCuts cfg1) (page_elements page1) with
  | Ok (b, gs, cuts) => (b, map (fun c => (cut_pos c, cut_chosen c)) cuts) = (true, [(3, true); (4, false)])
  | _ => False end.
Proof. vm_compute. reflexivity. Qed.

(** ** C32 Reading order is a permutation *)

Theorem C32_permutation : forall impl topi cw ch, sort_ok impl -> top_ok topi ->
  forall p p', order_page impl topi cw ch p = Some (Ok p') ->
  Permutation (p_blocks p) (p_blocks p') /\ p_num p' = p_num p /\ p_width p' = p_width p /\ p_height p' = p_height p /\
  p_figures p' = p_figures p /\ p_shapes p' = p_shapes p.
Proof.
  intros impl topi cw ch Hi Ht p p' H. split; [exact (order_page_perm impl topi cw ch Hi Ht p p' H)|].
  apply order_page_spec in H as (r & _ & _ & H). exact H.
Qed.
Print Assumptions C32_permutation.

(** The pages of a document are treated one by one: page number i of the result is the reordered page number i. *)
Theorem C32_pagewise : forall impl topi cw ch, sort_ok impl -> top_ok topi ->
  forall pages pages', order_pages impl topi cw ch pages = Some (Ok pages') ->
  length pages' = length pages /\
  forall i p p', nth_error pages i = Some p -> nth_error pages' i = Some p' ->
    Permutation (p_blocks p) (p_blocks p') /\ p_num p' = p_num p.
Proof.
  intros impl topi cw ch Hi Ht. induction pages as [|p t IH]; intros pages' H; cbn [order_pages] in H.
  - injection H as <-. split; [reflexivity|]. intros [|i] p p' Hp; discriminate.
  - destruct (order_page impl topi cw ch p) as [[q|w|w]|] eqn:E; cbn [rbind] in H; try discriminate.
    destruct (order_pages impl topi cw ch t) as [[t'|w|w]|] eqn:Et; cbn [rbind] in H; try discriminate.
    injection H as <-. destruct (IH t' eq_refl) as [Hl Hn]. cbn [length]. split; [congruence|].
    intros [|i] a b Ha Hb; cbn [nth_error] in Ha, Hb.
    + injection Ha as <-. injection Hb as <-. destruct (C32_permutation impl topi cw ch Hi Ht p q E) as (H1 & H2 & _). split; [exact H1|exact H2].
    + exact (Hn i a b Ha Hb).
Qed.
Print Assumptions C32_pagewise.

Theorem C32_terminates : forall impl topi cw ch, sort_ok impl -> top_ok topi ->
  forall pages, exists r, order_pages impl topi cw ch pages = Some r.
Proof.
  intros impl topi cw ch Hi Ht. induction pages as [|p t [r IH]]; cbn [order_pages]; [eexists; reflexivity|].
  destruct (order_page_terminates impl topi cw ch Hi Ht p) as [[q|w|w] ->]; cbn [rbind]; [|eexists; reflexivity|eexists; reflexivity].
  rewrite IH. destruct r; cbn [rbind]; eexists; reflexivity.
Qed.
Print Assumptions C32_terminates.
Theorem C32_defined : forall impl topi cw ch, sort_ok impl -> top_ok topi ->
  forall pages, (forall p e, In p pages -> In e (ro_elements p) -> stored_coordinates (re_pos e)) ->
  exists pages', order_pages impl topi cw ch pages = Some (Ok pages').
Proof.
  intros impl topi cw ch Hi Ht. induction pages as [|p t IH]; intros Hp; cbn [order_pages]; [eexists; reflexivity|].
  destruct (order_page_ok impl topi cw ch Hi Ht p) as [q ->]. { intros e He. exact (Hp p e (or_introl eq_refl) He). }
  cbn [rbind]. destruct IH as [t' ->]. { intros p' e Hp'. apply Hp. right. exact Hp'. }
  cbn [rbind]. eexists; reflexivity.
Qed.
Print Assumptions C32_defined.

Definition tbox (u : Z) (role : nat) (x1 y1 x2 y2 : Z) : block :=
  mkBlock [] u (mkPos 1 (dZ x1) (dZ y1) (dZ x2) (dZ y2) 0 0) [] [] (dZ 10) role false [].
(** A two-column page below a title; the blocks are given in a wrong order. *)
Definition page3 : page := mkPage 1 (dZ 600) (dZ 800) [] []
  [tbox 3 0 320 100 580 400; tbox 2 0 20 420 280 700; tbox 0 6 100 20 500 60; tbox 4 0 320 420 580 700; tbox 1 0 20 100 280 400].
Example C32_example : match order_page isort top_first (dZ 5) (dZ 10) page3 with
  | Some (Ok p) => map b_rank (p_blocks p) = [0; 1; 2; 3; 4]%Z
  | _ => False end.
Proof. vm_compute. reflexivity. Qed.

(** ** C56 The reading order respects the geometry *)

(** On a page whose elements are proper boxes: if a block comes before another one, it is left of it (its right edge is
    not beyond the other's left edge) or it does not start lower. So a block never comes before a block that starts
    above it unless it is entirely left of it. *)
Theorem C56_order : forall impl topi cw ch, sort_ok impl -> top_ok topi ->
  forall p p', (forall e, In e (ro_elements p) -> proper_box (re_pos e)) ->
  order_page impl topi cw ch p = Some (Ok p') ->
  forall l1 b1 l2 b2 l3, p_blocks p' = l1 ++ b1 :: l2 ++ b2 :: l3 ->
  dle (rightX (b_pos b1)) (leftX (b_pos b2)) = true \/ dle (upperY (b_pos b1)) (upperY (b_pos b2)) = true.
Proof.
  intros impl topi cw ch Hi Ht p p' HQ H l1 b1 l2 b2 l3 Hb.
  exact (order_page_order impl topi cw ch Hi Ht p p' l1 b1 l2 b2 l3 HQ H Hb).
Qed.
Print Assumptions C56_order.
Example C56_hypotheses : forall e, In e (ro_elements page3) -> proper_box (re_pos e).
Proof.
  assert (forallb (fun e => proper_b (re_pos e)) (ro_elements page3) = true) as H by (vm_compute; reflexivity).
  intros e He. apply proper_check. exact (proj1 (forallb_forall _ _) H e He).
Qed.

(** ** C57 The y-cuts of the reading order *)

(** A y-cut (of the recursive part) is chosen only if the elements below it, the elements above it, or the elements
    between it and another chosen y-cut can be divided by an x-cut; and the topmost y-cut such that the elements below it
    can be divided is chosen. *)
Definition ro_divisible impl topi (elements : list relem) (lo hi : nat) : Prop :=
  exists groups xcuts, xCut re_pos impl topi dzero 0 ro_chooseXCuts (stripe elements lo hi) = Ok (true, groups, xcuts).
Theorem C57_y_cuts : forall impl topi cuts elements flags, cuts <> [] -> elements <> [] ->
  ro_chooseYCuts impl topi cuts elements = Ok flags ->
  length flags = length cuts /\
  (forall i c, nth_error cuts i = Some c -> nth i flags false = true ->
    ro_divisible impl topi elements (cut_pos c) (length elements) \/ ro_divisible impl topi elements 0 (cut_pos c) \/
    exists j d, nth_error cuts j = Some d /\ nth j flags false = true /\
      (i <= j /\ ro_divisible impl topi elements (cut_pos c) (cut_pos d) \/
       j <= i /\ ro_divisible impl topi elements (cut_pos d) (cut_pos c))) /\
  (forall i c, nth_error cuts i = Some c -> ro_divisible impl topi elements (cut_pos c) (length elements) ->
    (forall j d, j < i -> nth_error cuts j = Some d -> ~ ro_divisible impl topi elements (cut_pos d) (length elements)) ->
    nth i flags false = true).
Proof.
  intros impl topi cuts el fl Hc He H. unfold ro_chooseYCuts in H.
  destruct el as [|e es]; [congruence|]. destruct cuts as [|c0 cs]; [congruence|].
  set (el := e :: es) in *. set (cuts := c0 :: cs) in *.
  destruct (ro_chosen impl topi el (map cut_pos cuts)) as [l|w|w] eqn:E; cbn [obind] in H; try discriminate.
  clearbody el cuts. injection H as <-. rewrite map_length, seq_length. split; [reflexivity|].
  assert (forall i, i < length cuts -> nth i (map (fun i => existsb (Nat.eqb i) l) (seq 0 (length cuts))) false = existsb (Nat.eqb i) l) as Hnth.
  { intros i Hi. rewrite (nth_indep _ false (existsb (Nat.eqb 0) l)) by (rewrite map_length, seq_length; exact Hi).
    rewrite (map_nth (fun i => existsb (Nat.eqb i) l)), seq_nth by exact Hi. reflexivity. }
  assert (forall i, existsb (Nat.eqb i) l = true <-> In i l) as Hex.
  { intros i. rewrite existsb_exists. split.
    - intros (x & Hx & Ex). apply Nat.eqb_eq in Ex. subst. exact Hx.
    - intros Hi. exists i. split; [exact Hi|apply Nat.eqb_refl]. }
  split.
  - intros i c Hi Hf. assert (i < length cuts) as Hl by (apply nth_error_Some; congruence).
    rewrite Hnth in Hf by exact Hl. apply Hex in Hf. destruct (ro_chosen_spec impl topi el _ l E i Hf) as (p & Hp & Hr).
    rewrite (map_nth_error cut_pos i cuts Hi) in Hp. injection Hp as <-.
    destruct Hr as [Hr|[Hr|(j & q & Hj & Hq & Hr)]]; [left; exact Hr|right; left; exact Hr|right; right].
    assert (j < length cuts) as Hjl. { rewrite <- (map_length cut_pos). apply nth_error_Some. congruence. }
    destruct (nth_error cuts j) as [d|] eqn:Ed; [|apply nth_error_None in Ed; lia].
    rewrite (map_nth_error cut_pos j cuts Ed) in Hq. injection Hq as <-.
    exists j, d. split; [exact Ed|]. split; [rewrite Hnth by exact Hjl; apply Hex; exact Hj|exact Hr].
  - intros i c Hi Hd Hmin. assert (i < length cuts) as Hl by (apply nth_error_Some; congruence).
    rewrite Hnth by exact Hl. apply Hex. apply (ro_chosen_low impl topi el _ l E i (cut_pos c)).
    + apply map_nth_error. exact Hi.
    + exact Hd.
    + intros j q Hj Hq. assert (j < length cuts) as Hjl by lia.
      destruct (nth_error cuts j) as [d|] eqn:Ed; [|apply nth_error_None in Ed; lia].
      rewrite (map_nth_error cut_pos j cuts Ed) in Hq. injection Hq as <-. exact (Hmin j d Hj Ed).
Qed.
Print Assumptions C57_y_cuts.
(** Exactly which y-cuts are chosen (see [chosen_y_cuts] in ReadingOrderSpec.v): the topmost cut below which the elements
    can be divided, the bottommost cut not below it above which they can, and the greedy pairs in between. *)
Theorem C57_y_cuts_exact : forall impl topi cuts elements flags, cuts <> [] -> elements <> [] ->
  ro_chooseYCuts impl topi cuts elements = Ok flags ->
  exists chosen, chosen_y_cuts (ro_divisible impl topi elements) (map cut_pos cuts) (length elements) chosen /\
    length flags = length cuts /\ forall k, k < length cuts -> (nth k flags false = true <-> In k chosen).
Proof. exact ro_y_flags_exact. Qed.
Print Assumptions C57_y_cuts_exact.

(** The primary cuts: the first cuts reported for a page are the primary x-cuts, and each resulting group starts with its
    primary y-cuts. A primary x-cut is chosen iff it is next to a rotated block, separates differently rotated blocks or is
    next to a tall figure/shape covering the vertical middle of the page; a primary y-cut iff it separates a title, author
    information or marginal from something else, or is next to a wide figure/shape covering the horizontal middle. *)
Theorem C57_primary_cuts : forall impl topi avgCharWidth avgCharHeight elements groups cuts,
  (forall e, In e elements -> nn_pos (re_pos e)) ->
  ro_groups impl topi avgCharWidth avgCharHeight elements = Some (Ok (groups, cuts)) ->
  exists minX minY maxX maxY xcuts stripes,
    least_of (DBL_MAX :: map (fun e => leftX (re_pos e)) elements) minX /\
    least_of (DBL_MAX :: map (fun e => upperY (re_pos e)) elements) minY /\
    greatest_of (DBL_MIN :: map (fun e => rightX (re_pos e)) elements) maxX /\
    greatest_of (DBL_MIN :: map (fun e => lowerY (re_pos e)) elements) maxY /\
    cuts = xcuts ++ concat (map (fun s : list (cut relem) * list (cut relem) => fst s ++ snd s) stripes) /\
    (forall c, In c xcuts ->
       (cut_chosen c = true <-> primary_x_cut avgCharHeight (middle minY maxY) (cut_before c) (cut_after c))) /\
    (forall s c, In s stripes -> In c (fst s) ->
       (cut_chosen c = true <-> primary_y_cut avgCharWidth (middle minX maxX) (cut_before c) (cut_after c))).
Proof. exact ro_groups_primary. Qed.
Print Assumptions C57_primary_cuts.
(** A title above two columns: the cut below the title is chosen by the primary rule, the cut between the columns only later. *)
Example C57_primary_example : let els := map RBlock [tbox 0 6 20 20 580 60; tbox 1 0 20 100 280 400; tbox 2 0 320 100 580 400] in
  forallb (fun e => GridProofs.proper_b (re_pos e)) els = true /\
  match ro_groups isort top_first (dZ 5) (dZ 10) els with
  | Some (Ok (gs, cuts)) => (map (@length relem) gs, map (fun c => (cut_pos c, cut_chosen c)) cuts)
  | _ => ([], []) end = ([1; 1; 1], [(1, true); (1, true)]).
Proof. vm_compute. auto. Qed.
Example C57_example : match yCut re_pos isort dzero (ro_chooseYCuts isort top_first)
    (map RBlock [tbox 0 0 20 20 580 60; tbox 1 0 20 100 280 400; tbox 2 0 320 100 580 400; tbox 3 0 20 420 280 700; tbox 4 0 320 420 580 700]) with
  | Ok (b, gs, cuts) => (b, map (@length relem) gs, map (fun c => (cut_pos c, cut_chosen c)) cuts) = (true, [1; 4], [(1, true); (3, false)])
  | _ => False end.
Proof. vm_compute. reflexivity. Qed.
