(** ElementsProofs.v - lemmas about positions, gaps, overlap ratios and comparators. *)
From Coq Require Import ZArith Reals Lra.
From Coq Require Import Floats.SpecFloat.
From Flocq Require Import Core IEEE754.BinarySingleNaN.
From Verif Require Import Base Double DoubleFacts MathUtils MathUtilsProofs Sort Elements GeometrySpec.

Lemma TOL_pos : dle dzero TOL = true. Proof. vm_compute. reflexivity. Qed.
Lemma TOL_fin : is_fin TOL = true. Proof. vm_compute. reflexivity. Qed.

(** ** Overlap ratios *)
Lemma dsub_fin_mono a b c d :
  is_fin a = true -> is_fin b = true -> is_fin c = true -> is_fin d = true ->
  (E a - E b <= E c - E d)%R -> (E (dsub a b) <= E (dsub c d))%R.
Proof.
  intros. destruct (dsub_E a b) as [_ ->]; auto. destruct (dsub_E c d) as [_ ->]; auto.
  apply clamp_mono, rd_mono. assumption.
Qed.

Lemma clamp_0 : clamp 0 = 0%R.
Proof. apply clamp_id. pose proof M_pos. lra. Qed.

Lemma dsub_pos_fin_sign a b : is_fin a = true -> is_fin b = true -> (E b <= E a)%R -> (0 <= E (dsub a b))%R.
Proof.
  intros. destruct (dsub_E a b) as [_ ->]; auto. rewrite <- clamp_0. apply clamp_mono.
  rewrite <- rd_0. apply rd_mono. lra.
Qed.
Lemma dsub_neg_fin_sign a b : is_fin a = true -> is_fin b = true -> (E a <= E b)%R -> (E (dsub a b) <= 0)%R.
Proof.
  intros. destruct (dsub_E a b) as [_ ->]; auto. rewrite <- clamp_0. apply clamp_mono.
  rewrite <- rd_0. apply rd_mono. lra.
Qed.

Lemma min_fin a b : is_fin a = true -> is_fin b = true -> is_fin (minimum a b) = true.
Proof. destruct (minimum_cases a b) as [-> | ->]; auto. Qed.
Lemma max_fin a b : is_fin a = true -> is_fin b = true -> is_fin (maximum a b) = true.
Proof. destruct (maximum_cases a b) as [-> | ->]; auto. Qed.

Lemma one_E : E done = 1%R.
Proof.
  destruct (dZ_pos 1) as (_ & _ & H). split; [lia|]. apply Zpower_le with (r := radix2) (e1 := 0%Z); lia.
  change done with (dZ 1). rewrite H. apply rd_1.
Qed.

(** one ratio: 0 <= o/l <= 1 when 0 <= o <= l and l is finite *)
Lemma ratio_bound o l : is_fin o = true -> is_fin l = true -> (0 <= E o <= E l)%R ->
  let r := if dgt l dzero then ddiv o l else dzero in
  dle dzero r = true /\ dle r done = true.
Proof.
  intros Fo Fl Hol r. subst r. unfold dgt.
  assert (dle dzero dzero = true /\ dle dzero done = true) as H0 by (vm_compute; auto).
  destruct (dlt dzero l) eqn:Hl; [|exact H0].
  apply dlt_E in Hl; [|reflexivity|apply fin_nn; auto]. change (E dzero) with 0%R in Hl.
  destruct (ddiv_E o l Fo Fl Hl) as [Hn HE].
  assert (0 <= E o / E l <= 1)%R as Hq.
  { split. apply Rmult_le_pos; [lra|]. apply Rlt_le, Rinv_0_lt_compat; lra.
    apply Rmult_le_reg_r with (E l); auto. unfold Rdiv. rewrite Rmult_assoc, Rinv_l by lra. lra. }
  assert (0 <= rd (E o / E l) <= 1)%R as Hr.
  { split. rewrite <- rd_0. apply rd_mono; lra. rewrite <- rd_1. apply rd_mono; lra. }
  assert (1 < M)%R as HM. { rewrite <- M_eq. change 1%R with (bpow radix2 0). apply bpow_lt. lia. }
  rewrite clamp_id in HE by lra.
  split; apply dle_E; auto; try reflexivity.
  - change (E dzero) with 0%R. lra.
  - rewrite one_E. lra.
Qed.

(** If the length of the first interval does not overflow, the first ratio is in [0,1]. *)
Definition ratios_in_unit (r : double * double) : Prop :=
  dle dzero (fst r) = true /\ dle (fst r) done = true /\
  dle dzero (snd r) = true /\ dle (snd r) done = true.

Lemma overlap_le_length mn1 mx1 mn2 mx2 :
  is_fin mn1 = true -> is_fin mx1 = true -> is_fin mn2 = true -> is_fin mx2 = true ->
  (E mn1 <= E mx1)%R -> is_fin (dsub mx1 mn1) = true ->
  let o := maximum dzero (dsub (minimum mx1 mx2) (maximum mn1 mn2)) in
  is_fin o = true /\ (0 <= E o <= E (dsub mx1 mn1))%R.
Proof.
  intros F1 F2 F3 F4 Hle Fl o.
  assert (is_fin (minimum mx1 mx2) = true) as Fa by (apply min_fin; auto).
  assert (is_fin (maximum mn1 mn2) = true) as Fb by (apply max_fin; auto).
  assert (E (minimum mx1 mx2) <= E mx1)%R as Ha.
  { apply dle_E; try (apply fin_nn; auto; fail). apply minimum_le_l; apply fin_nn; auto. }
  assert (E mn1 <= E (maximum mn1 mn2))%R as Hb.
  { apply dle_E; try (apply fin_nn; auto; fail). apply maximum_ge_l; apply fin_nn; auto. }
  set (d := dsub (minimum mx1 mx2) (maximum mn1 mn2)) in *.
  assert (nn d) as Hd by (apply fin_dsub_nn; auto).
  assert (E d <= E (dsub mx1 mn1))%R as Hdl by (apply dsub_fin_mono; auto; lra).
  pose proof (dsub_pos_fin_sign mx1 mn1 F2 F1 Hle) as Hl0.
  assert (E o = Rmax 0 (E d)) as HEo.
  { unfold o. rewrite maximum_E by (auto; reflexivity). reflexivity. }
  assert (0 <= E o <= E (dsub mx1 mn1))%R as Ho.
  { rewrite HEo. unfold Rmax. destruct (Rle_dec _ _); lra. }
  split; [|exact Ho].
  apply E_fin_iff. unfold o. apply maximum_nn; auto; reflexivity.
  pose proof (E_fin_bound _ Fl). pose proof M_pos. lra.
Qed.

Lemma minimum_E_comm a b : nn a -> nn b -> E (minimum a b) = E (minimum b a).
Proof. intros. rewrite !minimum_E by auto. apply Rmin_comm. Qed.

Lemma maxsub_congr a b a' b' :
  is_fin a = true -> is_fin b = true -> is_fin a' = true -> is_fin b' = true ->
  E a = E a' -> E b = E b' ->
  E (maximum dzero (dsub a b)) = E (maximum dzero (dsub a' b')).
Proof.
  intros. rewrite !maximum_E by (try reflexivity; apply fin_dsub_nn; auto).
  destruct (dsub_E a b) as [_ ->]; auto. destruct (dsub_E a' b') as [_ ->]; auto. congruence.
Qed.

Lemma overlap_ratios_unit s1 e1 s2 e2 :
  is_fin s1 = true -> is_fin e1 = true -> is_fin s2 = true -> is_fin e2 = true ->
  is_fin (dsub (maximum s1 e1) (minimum s1 e1)) = true ->
  is_fin (dsub (maximum s2 e2) (minimum s2 e2)) = true ->
  ratios_in_unit (computeOverlapRatios s1 e1 s2 e2).
Proof.
  intros F1 F2 F3 F4 L1 L2.
  set (mn1 := minimum s1 e1) in *. set (mx1 := maximum s1 e1) in *.
  set (mn2 := minimum s2 e2) in *. set (mx2 := maximum s2 e2) in *.
  assert (is_fin mn1 = true) by (apply min_fin; auto).
  assert (is_fin mx1 = true) by (apply max_fin; auto).
  assert (is_fin mn2 = true) by (apply min_fin; auto).
  assert (is_fin mx2 = true) by (apply max_fin; auto).
  assert (E mn1 <= E mx1)%R as HL1.
  { unfold mn1, mx1. rewrite minimum_E, maximum_E by (apply fin_nn; auto).
    unfold Rmin, Rmax; repeat destruct (Rle_dec _ _); lra. }
  assert (E mn2 <= E mx2)%R as HL2.
  { unfold mn2, mx2. rewrite minimum_E, maximum_E by (apply fin_nn; auto).
    unfold Rmin, Rmax; repeat destruct (Rle_dec _ _); lra. }
  destruct (overlap_le_length mn1 mx1 mn2 mx2) as [Fo Ho]; auto.
  assert (0 <= E (maximum dzero (dsub (minimum mx1 mx2) (maximum mn1 mn2))) <= E (dsub mx2 mn2))%R as Ho2.
  { destruct (overlap_le_length mn2 mx2 mn1 mx1) as [_ Ho2]; auto.
    rewrite (maxsub_congr _ _ (minimum mx2 mx1) (maximum mn2 mn1)); auto using min_fin, max_fin.
    - rewrite !minimum_E by (apply fin_nn; auto). apply Rmin_comm.
    - rewrite !maximum_E by (apply fin_nn; auto). apply Rmax_comm. }
  unfold ratios_in_unit, computeOverlapRatios. fold mn1 mx1 mn2 mx2. cbn [fst snd].
  destruct (ratio_bound _ _ Fo L1 Ho) as [A B].
  destruct (ratio_bound _ _ Fo L2 Ho2) as [C D]. auto.
Qed.

(** Swapping the two intervals swaps the two ratios (as numbers). *)
Lemma ratio_congr o o' l : is_fin o = true -> is_fin o' = true -> E o = E o' -> is_fin l = true ->
  E (if dgt l dzero then ddiv o l else dzero) = E (if dgt l dzero then ddiv o' l else dzero).
Proof.
  intros Fo Fo' HE Fl. unfold dgt. destruct (dlt dzero l) eqn:Hl; [|reflexivity].
  apply dlt_E in Hl; [|reflexivity|apply fin_nn; auto]. change (E dzero) with 0%R in Hl.
  destruct (ddiv_E o l) as [_ ->]; auto. destruct (ddiv_E o' l) as [_ ->]; auto. congruence.
Qed.

Lemma overlap_ratios_swap s1 e1 s2 e2 :
  is_fin s1 = true -> is_fin e1 = true -> is_fin s2 = true -> is_fin e2 = true ->
  is_fin (dsub (maximum s1 e1) (minimum s1 e1)) = true ->
  is_fin (dsub (maximum s2 e2) (minimum s2 e2)) = true ->
  let r := computeOverlapRatios s1 e1 s2 e2 in
  let r' := computeOverlapRatios s2 e2 s1 e1 in
  deq (fst r) (snd r') = true /\ deq (snd r) (fst r') = true.
Proof.
  intros F1 F2 F3 F4 L1 L2 r r'.
  destruct (overlap_ratios_unit s1 e1 s2 e2) as (A1 & _ & A2 & _); auto.
  destruct (overlap_ratios_unit s2 e2 s1 e1) as (B1 & _ & B2 & _); auto.
  fold r in A1, A2. fold r' in B1, B2.
  assert (nn (fst r)) by (apply dle_nn in A1; tauto). assert (nn (snd r)) by (apply dle_nn in A2; tauto).
  assert (nn (fst r')) by (apply dle_nn in B1; tauto). assert (nn (snd r')) by (apply dle_nn in B2; tauto).
  clear A1 A2 B1 B2.
  set (mn1 := minimum s1 e1) in *. set (mx1 := maximum s1 e1) in *.
  set (mn2 := minimum s2 e2) in *. set (mx2 := maximum s2 e2) in *.
  assert (is_fin mn1 = true) by (apply min_fin; auto).
  assert (is_fin mx1 = true) by (apply max_fin; auto).
  assert (is_fin mn2 = true) by (apply min_fin; auto).
  assert (is_fin mx2 = true) by (apply max_fin; auto).
  assert (E mn1 <= E mx1)%R as H1'.
  { unfold mn1, mx1. rewrite minimum_E, maximum_E by (apply fin_nn; auto).
    unfold Rmin, Rmax; repeat destruct (Rle_dec _ _); lra. }
  assert (E mn2 <= E mx2)%R as H2'.
  { unfold mn2, mx2. rewrite minimum_E, maximum_E by (apply fin_nn; auto).
    unfold Rmin, Rmax; repeat destruct (Rle_dec _ _); lra. }
  destruct (overlap_le_length mn1 mx1 mn2 mx2) as [Fo Ho]; auto.
  destruct (overlap_le_length mn2 mx2 mn1 mx1) as [Fo' Ho']; auto.
  assert (E (maximum dzero (dsub (minimum mx1 mx2) (maximum mn1 mn2))) =
          E (maximum dzero (dsub (minimum mx2 mx1) (maximum mn2 mn1)))) as Heq.
  { apply maxsub_congr; auto using min_fin, max_fin.
    - rewrite !minimum_E by (apply fin_nn; auto). apply Rmin_comm.
    - rewrite !maximum_E by (apply fin_nn; auto). apply Rmax_comm. }
  split; apply deq_E; auto; unfold r, r', computeOverlapRatios; fold mn1 mx1 mn2 mx2; cbn [fst snd];
  apply ratio_congr; auto.
Qed.

(** Disjoint (or touching) intervals have ratios 0. *)
Lemma overlap_ratios_disjoint s1 e1 s2 e2 :
  is_fin s1 = true -> is_fin e1 = true -> is_fin s2 = true -> is_fin e2 = true ->
  is_fin (dsub (maximum s1 e1) (minimum s1 e1)) = true ->
  is_fin (dsub (maximum s2 e2) (minimum s2 e2)) = true ->
  dle (maximum s1 e1) (minimum s2 e2) = true ->
  let r := computeOverlapRatios s1 e1 s2 e2 in
  deq (fst r) dzero = true /\ deq (snd r) dzero = true.
Proof.
  intros F1 F2 F3 F4 L1 L2 Hdis r.
  set (mn1 := minimum s1 e1) in *. set (mx1 := maximum s1 e1) in *.
  set (mn2 := minimum s2 e2) in *. set (mx2 := maximum s2 e2) in *.
  assert (is_fin mn1 = true) by (apply min_fin; auto).
  assert (is_fin mx1 = true) by (apply max_fin; auto).
  assert (is_fin mn2 = true) by (apply min_fin; auto).
  assert (is_fin mx2 = true) by (apply max_fin; auto).
  apply dle_E in Hdis; try (apply fin_nn; auto).
  assert (E (minimum mx1 mx2) <= E mx1)%R as Ha.
  { apply dle_E; try (apply fin_nn; auto using min_fin). apply minimum_le_l; apply fin_nn; auto. }
  assert (E mn2 <= E (maximum mn1 mn2))%R as Hb.
  { apply dle_E; try (apply fin_nn; auto using max_fin). apply maximum_ge_r; apply fin_nn; auto. }
  assert (E (dsub (minimum mx1 mx2) (maximum mn1 mn2)) <= 0)%R as Hneg.
  { apply dsub_neg_fin_sign; auto using min_fin, max_fin. lra. }
  set (d := dsub (minimum mx1 mx2) (maximum mn1 mn2)) in *.
  assert (nn d) as Hd by (apply fin_dsub_nn; auto using min_fin, max_fin).
  assert (maximum dzero d = dzero) as Hm.
  { unfold maximum. assert (dlt dzero d = false) as ->; auto. apply dlt_Ef; auto. reflexivity. }
  assert (forall l, is_fin l = true -> deq (if dgt l dzero then ddiv dzero l else dzero) dzero = true) as Hq.
  { intros l Fl. unfold dgt. destruct (dlt dzero l) eqn:Hl; [|reflexivity].
    apply dlt_E in Hl; [|reflexivity|apply fin_nn; auto]. change (E dzero) with 0%R in Hl.
    destruct (ddiv_E dzero l) as [Hn HE]; auto. apply deq_E; auto; try reflexivity.
    rewrite HE. change (E dzero) with 0%R. unfold Rdiv. rewrite Rmult_0_l, rd_0. apply clamp_0. }
  unfold r, computeOverlapRatios. fold mn1 mx1 mn2 mx2 d. rewrite Hm. cbn [fst snd].
  split; apply Hq; auto.
Qed.

(** ** Gaps *)
Lemma hgap_sym p q : smaller (leftX p) (leftX q) TOL = true \/ smaller (leftX q) (leftX p) TOL = true ->
  computeHorizontalGap p q = computeHorizontalGap q p.
Proof.
  intros [H|H]; unfold computeHorizontalGap; rewrite H, (smaller_asym _ _ _ TOL_pos H); reflexivity.
Qed.
Lemma vgap_sym p q : smaller (upperY p) (upperY q) TOL = true \/ smaller (upperY q) (upperY p) TOL = true ->
  computeVerticalGap p q = computeVerticalGap q p.
Proof.
  intros [H|H]; unfold computeVerticalGap; rewrite H, (smaller_asym _ _ _ TOL_pos H); reflexivity.
Qed.


Lemma dsub_gt0_lt a b : dgt (dsub a b) dzero = true -> is_fin a = true -> is_fin b = true -> dlt b a = true.
Proof.
  unfold dgt. intros H Fa Fb. apply dlt_E in H; [|reflexivity|apply fin_dsub_nn; auto].
  apply dlt_E; try (apply fin_nn; auto).
  destruct (Rle_or_lt (E a) (E b)) as [Hle|]; auto.
  pose proof (dsub_neg_fin_sign a b Fa Fb Hle). change (E dzero) with 0%R in H. lra.
Qed.
Lemma hgap_pos_separated p q : upright p -> upright q ->
  is_fin (leftX p) = true -> is_fin (rightX p) = true -> is_fin (leftX q) = true -> is_fin (rightX q) = true ->
  dgt (computeHorizontalGap p q) dzero = true ->
  dlt (rightX p) (leftX q) = true \/ dlt (rightX q) (leftX p) = true.
Proof.
  intros [Hp2 Hp3] [Hq2 Hq3] F1 F2 F3 F4 H. unfold computeHorizontalGap in H.
  destruct (smaller (leftX p) (leftX q) TOL).
  - left. apply dsub_gt0_lt; auto.
    destruct (rotation p) as [|[[]|[]|]|]; try congruence; exact H.
  - right. apply dsub_gt0_lt; auto.
    destruct (rotation q) as [|[[]|[]|]|]; try congruence; exact H.
Qed.
Lemma vgap_pos_separated p q : upright p -> upright q ->
  is_fin (upperY p) = true -> is_fin (lowerY p) = true -> is_fin (upperY q) = true -> is_fin (lowerY q) = true ->
  dgt (computeVerticalGap p q) dzero = true ->
  dlt (lowerY p) (upperY q) = true \/ dlt (lowerY q) (upperY p) = true.
Proof.
  intros [Hp2 Hp3] [Hq2 Hq3] F1 F2 F3 F4 H. unfold computeVerticalGap in H.
  destruct (smaller (upperY p) (upperY q) TOL).
  - left. apply dsub_gt0_lt; auto.
    destruct (rotation p) as [|[[]|[]|]|]; try congruence; exact H.
  - right. apply dsub_gt0_lt; auto.
    destruct (rotation q) as [|[[]|[]|]|]; try congruence; exact H.
Qed.

(** ** Rotation *)
Lemma rot_width p : getRotWidth p =
  if (rotation p =? 1)%Z || (rotation p =? 3)%Z then getHeight p else getWidth p.
Proof.
  unfold getRotWidth, getRotLeftX, getRotRightX, getHeight, getWidth.
  destruct (rotation p) as [|[[]|[]|]|]; reflexivity.
Qed.
Lemma rot_height p : getRotHeight p =
  if (rotation p =? 1)%Z || (rotation p =? 3)%Z then getWidth p else getHeight p.
Proof.
  unfold getRotHeight, getRotLowerY, getRotUpperY, getHeight, getWidth.
  destruct (rotation p) as [|[[]|[]|]|]; reflexivity.
Qed.
Lemma rot_sides_perm p :
  Permutation [getRotLeftX p; getRotUpperY p; getRotRightX p; getRotLowerY p]
              [leftX p; upperY p; rightX p; lowerY p].
Proof.
  assert (forall (a b c d : double), Permutation [b; c; d; a] [a; b; c; d]) as R1.
  { intros. symmetry. apply (Permutation_cons_append [b; c; d] a). }
  unfold getRotLeftX, getRotUpperY, getRotRightX, getRotLowerY.
  destruct (rotation p) as [|[[]|[]|]|]; try reflexivity; try apply R1.
  - etransitivity; [apply R1|]. etransitivity; [apply R1|apply R1].
  - etransitivity; [apply R1|apply R1].
Qed.

(** ** More on overlap ratios: an interval contained in the other one has ratio 1. *)
Lemma overlap_ratios_contained s1 e1 s2 e2 :
  is_fin s1 = true -> is_fin e1 = true -> is_fin s2 = true -> is_fin e2 = true ->
  dle s2 s1 = true -> dlt s1 e1 = true -> dle e1 e2 = true ->
  is_fin (dsub e1 s1) = true -> dlt dzero (dsub e1 s1) = true ->
  deq (fst (computeOverlapRatios s1 e1 s2 e2)) done = true.
Proof.
  intros F1 F2 F3 F4 H1 H2 H3 FL HL.
  apply dle_E in H1; auto using fin_nn. apply dlt_E in H2; auto using fin_nn. apply dle_E in H3; auto using fin_nn.
  assert (minimum s1 e1 = s1) as Hmn1.
  { unfold minimum. assert (dlt e1 s1 = false) as ->; auto. apply dlt_Ef; auto using fin_nn. lra. }
  assert (maximum s1 e1 = e1) as Hmx1.
  { unfold maximum. assert (dlt s1 e1 = true) as ->; auto. apply dlt_E; auto using fin_nn. }
  assert (minimum s2 e2 = s2) as Hmn2.
  { unfold minimum. assert (dlt e2 s2 = false) as ->; auto. apply dlt_Ef; auto using fin_nn. lra. }
  assert (maximum s2 e2 = e2) as Hmx2.
  { unfold maximum. assert (dlt s2 e2 = true) as ->; auto. apply dlt_E; auto using fin_nn. lra. }
  unfold computeOverlapRatios. rewrite Hmn1, Hmx1, Hmn2, Hmx2. cbn [fst].
  unfold dgt at 1. rewrite HL.
  assert (minimum e1 e2 = e1) as ->.
  { unfold minimum. assert (dlt e2 e1 = false) as ->; auto. apply dlt_Ef; auto using fin_nn. }
  assert (maximum s1 s2 = s1) as ->.
  { unfold maximum. assert (dlt s1 s2 = false) as ->; auto. apply dlt_Ef; auto using fin_nn. }
  set (l := dsub e1 s1) in *.
  assert (maximum dzero l = l) as -> by (unfold maximum; rewrite HL; auto).
  apply dlt_E in HL; [|reflexivity|apply fin_nn; auto]. change (E dzero) with 0%R in HL.
  destruct (ddiv_E l l FL FL HL) as [Hn HE]. apply deq_E; auto; [reflexivity|].
  rewrite HE, one_E. replace (E l / E l)%R with 1%R by (field; lra). rewrite rd_1. apply clamp_id.
  pose proof M_pos. assert (1 < M)%R as HM. { rewrite <- M_eq. change 1%R with (bpow radix2 0). apply bpow_lt. lia. }
  lra.
Qed.

(** ** Converse of the gap lemmas *)
Lemma hgap_upright p q : upright p -> smaller (leftX p) (leftX q) TOL = true ->
  computeHorizontalGap p q = dsub (leftX q) (rightX p).
Proof.
  intros [Hp2 Hp3] H. unfold computeHorizontalGap. rewrite H.
  destruct (rotation p) as [|[[]|[]|]|]; try congruence; reflexivity.
Qed.
Lemma vgap_upright p q : upright p -> smaller (upperY p) (upperY q) TOL = true ->
  computeVerticalGap p q = dsub (upperY q) (lowerY p).
Proof.
  intros [Hp2 Hp3] H. unfold computeVerticalGap. rewrite H.
  destruct (rotation p) as [|[[]|[]|]|]; try congruence; reflexivity.
Qed.

(** ** Bounding boxes *)
Lemma nn_min_run (f : position -> double) l : forall a, nn a -> (forall p, In p l -> nn (f p)) ->
  let r := fold_left (fun x p => minimum x (f p)) l a in
  nn r /\ dle r a = true /\ (forall p, In p l -> dle r (f p) = true) /\
  (r = a \/ exists p, In p l /\ r = f p).
Proof.
  induction l as [|p l IH]; intros a Ha Hl; cbn [fold_left].
  - split; [auto|]. split; [apply dle_refl; auto|]. split; [intros ? []|left; reflexivity].
  - assert (nn (f p)) as Hp by (apply Hl; left; auto).
    destruct (IH (minimum a (f p))) as (R1 & R2 & R3 & R4).
    + apply minimum_nn; auto.
    + intros q Hq. apply Hl. right; auto.
    + split; [auto|]. split; [|split].
      * eapply dle_trans; [exact R2|]. apply minimum_le_l; auto.
      * intros q [<-|Hq]; auto. eapply dle_trans; [exact R2|]. apply minimum_le_r; auto.
      * destruct R4 as [R4|(q & Hq & R4)].
        -- destruct (minimum_cases a (f p)) as [Hc|Hc]; rewrite Hc in R4 at 2; auto.
           right. exists p. split; [left; auto|auto].
        -- right. exists q. split; [right; auto|auto].
Qed.
Lemma nn_max_run (f : position -> double) l : forall a, nn a -> (forall p, In p l -> nn (f p)) ->
  let r := fold_left (fun x p => maximum x (f p)) l a in
  nn r /\ dle a r = true /\ (forall p, In p l -> dle (f p) r = true) /\
  (r = a \/ exists p, In p l /\ r = f p).
Proof.
  induction l as [|p l IH]; intros a Ha Hl; cbn [fold_left].
  - split; [auto|]. split; [apply dle_refl; auto|]. split; [intros ? []|left; reflexivity].
  - assert (nn (f p)) as Hp by (apply Hl; left; auto).
    destruct (IH (maximum a (f p))) as (R1 & R2 & R3 & R4).
    + apply maximum_nn; auto.
    + intros q Hq. apply Hl. right; auto.
    + split; [auto|]. split; [|split].
      * eapply dle_trans; [|exact R2]. apply maximum_ge_l; auto.
      * intros q [<-|Hq]; auto. eapply dle_trans; [|exact R2]. apply maximum_ge_r; auto.
      * destruct R4 as [R4|(q & Hq & R4)].
        -- destruct (maximum_cases a (f p)) as [Hc|Hc]; rewrite Hc in R4 at 2; auto.
           right. exists p. split; [left; auto|auto].
        -- right. exists q. split; [right; auto|auto].
Qed.

Lemma bbox_fields l : forall b,
  leftX (fold_left bbox_add l b) = fold_left (fun x p => minimum x (leftX p)) l (leftX b) /\
  upperY (fold_left bbox_add l b) = fold_left (fun x p => minimum x (upperY p)) l (upperY b) /\
  rightX (fold_left bbox_add l b) = fold_left (fun x p => maximum x (rightX p)) l (rightX b) /\
  lowerY (fold_left bbox_add l b) = fold_left (fun x p => maximum x (lowerY p)) l (lowerY b).
Proof. induction l as [|p l IH]; intros b; cbn [fold_left]; auto. apply (IH (bbox_add b p)). Qed.
Lemma bbox_norm_fields l : forall b,
  leftX (fold_left bbox_add_norm l b) = fold_left (fun x p => minimum x (minimum (leftX p) (rightX p))) l (leftX b) /\
  upperY (fold_left bbox_add_norm l b) = fold_left (fun x p => minimum x (minimum (upperY p) (lowerY p))) l (upperY b) /\
  rightX (fold_left bbox_add_norm l b) = fold_left (fun x p => maximum x (maximum (leftX p) (rightX p))) l (rightX b) /\
  lowerY (fold_left bbox_add_norm l b) = fold_left (fun x p => maximum x (maximum (upperY p) (lowerY p))) l (lowerY b).
Proof. induction l as [|p l IH]; intros b; cbn [fold_left]; auto. apply (IH (bbox_add_norm b p)). Qed.

Lemma bbox_covers l p : (forall q, In q l -> nn_pos q) -> In p l -> covers (bbox l) p.
Proof.
  intros Hl Hp. destruct (bbox_fields l pos_default) as (A & B & C & D).
  unfold covers, bbox. rewrite A, B, C, D.
  split; [|split; [|split]].
  - apply (nn_min_run leftX l (leftX pos_default)); auto; [reflexivity|]. intros q Hq; apply Hl; auto.
  - apply (nn_min_run upperY l (upperY pos_default)); auto; [reflexivity|]. intros q Hq; apply Hl; auto.
  - apply (nn_max_run rightX l (rightX pos_default)); auto; [reflexivity|]. intros q Hq; apply Hl; auto.
  - apply (nn_max_run lowerY l (lowerY pos_default)); auto; [reflexivity|]. intros q Hq; apply Hl; auto.
Qed.
Lemma bbox_norm_covers l p : (forall q, In q l -> nn_pos q) -> In p l ->
  covers (bbox_norm l) p /\ dle (leftX (bbox_norm l)) (rightX p) = true /\ dle (upperY (bbox_norm l)) (lowerY p) = true /\
  dle (leftX p) (rightX (bbox_norm l)) = true /\ dle (upperY p) (lowerY (bbox_norm l)) = true.
Proof.
  intros Hl Hp. destruct (bbox_norm_fields l pos_default) as (A & B & C & D).
  destruct (nn_min_run (fun p => minimum (leftX p) (rightX p)) l (leftX pos_default)) as (_ & _ & R1 & _).
  { reflexivity. } { intros q Hq. destruct (Hl q Hq) as (? & ? & ? & ?). apply minimum_nn; auto. }
  destruct (nn_min_run (fun p => minimum (upperY p) (lowerY p)) l (upperY pos_default)) as (_ & _ & R2 & _).
  { reflexivity. } { intros q Hq. destruct (Hl q Hq) as (? & ? & ? & ?). apply minimum_nn; auto. }
  destruct (nn_max_run (fun p => maximum (leftX p) (rightX p)) l (rightX pos_default)) as (_ & _ & R3 & _).
  { reflexivity. } { intros q Hq. destruct (Hl q Hq) as (? & ? & ? & ?). apply maximum_nn; auto. }
  destruct (nn_max_run (fun p => maximum (upperY p) (lowerY p)) l (lowerY pos_default)) as (_ & _ & R4 & _).
  { reflexivity. } { intros q Hq. destruct (Hl q Hq) as (? & ? & ? & ?). apply maximum_nn; auto. }
  specialize (R1 p Hp). specialize (R2 p Hp). specialize (R3 p Hp). specialize (R4 p Hp).
  destruct (Hl p Hp) as (N1 & N2 & N3 & N4).
  unfold covers, bbox_norm. rewrite A, B, C, D.
  repeat split.
  - eapply dle_trans; [exact R1|]. apply minimum_le_l; auto.
  - eapply dle_trans; [exact R2|]. apply minimum_le_l; auto.
  - eapply dle_trans; [|exact R3]. apply maximum_ge_r; auto.
  - eapply dle_trans; [|exact R4]. apply maximum_ge_r; auto.
  - eapply dle_trans; [exact R1|]. apply minimum_le_r; auto.
  - eapply dle_trans; [exact R2|]. apply minimum_le_r; auto.
  - eapply dle_trans; [|exact R3]. apply maximum_ge_l; auto.
  - eapply dle_trans; [|exact R4]. apply maximum_ge_l; auto.
Qed.

(** Tightness: each side is a side of some member (as a number), if the member sides are in the
    range in which the initial values are neutral. *)
Lemma min_run_tight (f : position -> double) l a : nn a -> (forall p, In p l -> nn (f p)) ->
  (exists p, In p l /\ dle (f p) a = true) ->
  exists p, In p l /\ deq (fold_left (fun x p => minimum x (f p)) l a) (f p) = true.
Proof.
  intros Ha Hl (p & Hp & Hle). destruct (nn_min_run f l a Ha Hl) as (R1 & R2 & R3 & [R4|(q & Hq & R4)]).
  - exists p. split; auto. apply dle_antisym; auto. rewrite R4. exact Hle.
  - exists q. split; auto. rewrite R4. apply deq_refl. auto.
Qed.
Lemma max_run_tight (f : position -> double) l a : nn a -> (forall p, In p l -> nn (f p)) ->
  (exists p, In p l /\ dle a (f p) = true) ->
  exists p, In p l /\ deq (fold_left (fun x p => maximum x (f p)) l a) (f p) = true.
Proof.
  intros Ha Hl (p & Hp & Hle). destruct (nn_max_run f l a Ha Hl) as (R1 & R2 & R3 & [R4|(q & Hq & R4)]).
  - exists p. split; auto. apply dle_antisym; auto. rewrite R4. exact Hle.
  - exists q. split; auto. rewrite R4. apply deq_refl. auto.
Qed.
Lemma bbox_tight l : (forall q, In q l -> nn_pos q) ->
  (exists p, In p l /\ dle (leftX p) DBL_MAX = true) -> (exists p, In p l /\ dle (upperY p) DBL_MAX = true) ->
  (exists p, In p l /\ dle DBL_MIN (rightX p) = true) -> (exists p, In p l /\ dle DBL_MIN (lowerY p) = true) ->
  (exists p, In p l /\ deq (leftX (bbox l)) (leftX p) = true) /\
  (exists p, In p l /\ deq (upperY (bbox l)) (upperY p) = true) /\
  (exists p, In p l /\ deq (rightX (bbox l)) (rightX p) = true) /\
  (exists p, In p l /\ deq (lowerY (bbox l)) (lowerY p) = true).
Proof.
  intros Hl H1 H2 H3 H4. destruct (bbox_fields l pos_default) as (A & B & C & D).
  unfold bbox. rewrite A, B, C, D.
  split; [|split; [|split]].
  - apply min_run_tight; auto; [reflexivity|]. intros q Hq; apply Hl; auto.
  - apply min_run_tight; auto; [reflexivity|]. intros q Hq; apply Hl; auto.
  - apply max_run_tight; auto; [reflexivity|]. intros q Hq; apply Hl; auto.
  - apply max_run_tight; auto; [reflexivity|]. intros q Hq; apply Hl; auto.
Qed.

Lemma rot_extents_nonneg p :
  is_fin (leftX p) = true -> is_fin (rightX p) = true -> is_fin (upperY p) = true -> is_fin (lowerY p) = true ->
  dle (leftX p) (rightX p) = true -> dle (upperY p) (lowerY p) = true ->
  dle dzero (getRotWidth p) = true /\ dle dzero (getRotHeight p) = true.
Proof.
  intros F1 F2 F3 F4 H1 H2. apply dle_E in H1; auto using fin_nn. apply dle_E in H2; auto using fin_nn.
  assert (dle dzero (getWidth p) = true) as W.
  { apply dle_E; [reflexivity|apply fin_dsub_nn; auto|]. change (E dzero) with 0%R. apply dsub_pos_fin_sign; auto. }
  assert (dle dzero (getHeight p) = true) as H.
  { apply dle_E; [reflexivity|apply fin_dsub_nn; auto|]. change (E dzero) with 0%R. apply dsub_pos_fin_sign; auto. }
  rewrite rot_width, rot_height. destruct ((rotation p =? 1)%Z || (rotation p =? 3)%Z); auto.
Qed.

Lemma fin_le_max x : is_fin x = true -> dle x DBL_MAX = true.
Proof.
  intros F. apply dle_E; [apply fin_nn; auto|reflexivity|].
  assert (E DBL_MAX = bpow radix2 1024 - bpow radix2 (1024 - 53))%R as ->.
  { rewrite E_fin by (vm_compute; reflexivity).
    pose proof (binary_normalize_correct 53 1024 Hprec Hemax mode_NE (2 ^ 53 - 1) 971 false) as H. cbv zeta in H.
    change (binary_normalize 53 1024 Hprec Hemax mode_NE (2 ^ 53 - 1) 971 false) with DBL_MAX in H.
    assert (F2R (Float radix2 (2 ^ 53 - 1) 971) = bpow radix2 1024 - bpow radix2 (1024 - 53))%R as HF.
    { unfold F2R; cbn [Fnum Fexp]. rewrite minus_IZR. change (IZR (2 ^ 53)) with (IZR (Zpower radix2 53)). rewrite IZR_Zpower by lia.
      rewrite Rmult_minus_distr_r, <- bpow_plus, Rmult_1_l. reflexivity. }
    rewrite <- HF in *.
    assert (round radix2 (SpecFloat.fexp 53 1024) (round_mode mode_NE) (F2R (Float radix2 (2 ^ 53 - 1) 971)) = F2R (Float radix2 (2 ^ 53 - 1) 971)) as Hr.
    { apply round_generic; auto with typeclass_instances. apply generic_format_FLT.
      exists (Float radix2 (2 ^ 53 - 1) 971); auto. cbn. lia. cbn. lia. }
    rewrite Hr in H. rewrite Rlt_bool_true in H. apply H.
    rewrite HF. pose proof (bpow_gt_0 radix2 (1024 - 53)). assert (bpow radix2 (1024-53) < bpow radix2 1024)%R by (apply bpow_lt; lia).
    rewrite Rabs_pos_eq; lra. }
  rewrite E_fin by auto. eapply Rle_trans. apply Rle_abs.
  apply (abs_B2R_le_emax_minus_prec 53 1024 Hprec x).
Qed.
Lemma bbox_tight_fin l : l <> [] ->
  (forall q, In q l -> is_fin (leftX q) = true /\ is_fin (upperY q) = true /\ is_fin (rightX q) = true /\ is_fin (lowerY q) = true) ->
  (exists p, In p l /\ dle DBL_MIN (rightX p) = true) -> (exists p, In p l /\ dle DBL_MIN (lowerY p) = true) ->
  (exists p, In p l /\ deq (leftX (bbox l)) (leftX p) = true) /\
  (exists p, In p l /\ deq (upperY (bbox l)) (upperY p) = true) /\
  (exists p, In p l /\ deq (rightX (bbox l)) (rightX p) = true) /\
  (exists p, In p l /\ deq (lowerY (bbox l)) (lowerY p) = true).
Proof.
  intros Hne Hf H3 H4. destruct l as [|p l]; [congruence|].
  destruct (Hf p (or_introl eq_refl)) as (F1 & F2 & _).
  apply bbox_tight; auto.
  - intros q Hq. destruct (Hf q Hq) as (? & ? & ? & ?). repeat split; apply fin_nn; auto.
  - exists p. split; [left; auto|apply fin_le_max; auto].
  - exists p. split; [left; auto|apply fin_le_max; auto].
Qed.

Lemma overlap_ratios_all s1 e1 s2 e2 : finite_interval s1 e1 -> finite_interval s2 e2 ->
  let '(r1, r2) := computeOverlapRatios s1 e1 s2 e2 in
  (dle dzero r1 = true /\ dle r1 done = true) /\ (dle dzero r2 = true /\ dle r2 done = true) /\
  (let '(r1', r2') := computeOverlapRatios s2 e2 s1 e1 in deq r1 r2' = true /\ deq r2 r1' = true) /\
  (dle s1 e1 = true -> dle s2 e2 = true -> dle e1 s2 = true \/ dle e2 s1 = true ->
     deq r1 dzero = true /\ deq r2 dzero = true) /\
  (dle s2 s1 = true -> dlt s1 e1 = true -> dle e1 e2 = true -> dlt dzero (dsub e1 s1) = true ->
     deq r1 done = true).
Proof.
  intros (F1 & F2 & L1) (F3 & F4 & L2).
  pose proof (overlap_ratios_unit s1 e1 s2 e2 F1 F2 F3 F4 L1 L2) as (A & B & C & D).
  pose proof (overlap_ratios_swap s1 e1 s2 e2 F1 F2 F3 F4 L1 L2) as HS. cbv zeta in HS.
  assert (maximum s1 e1 = e1 -> dlt dzero (dsub e1 s1) = true -> True) as _ by auto.
  assert (dle s1 e1 = true -> minimum s1 e1 = s1) as MN1.
  { intros H. unfold minimum. destruct (dlt e1 s1) eqn:X; auto.
    pose proof (dlt_le_trans _ _ _ X H). rewrite dlt_irrefl in *. discriminate. }
  assert (dle s2 e2 = true -> minimum s2 e2 = s2) as MN2.
  { intros H. unfold minimum. destruct (dlt e2 s2) eqn:X; auto.
    pose proof (dlt_le_trans _ _ _ X H). rewrite dlt_irrefl in *. discriminate. }
  assert (forall s e, is_fin s = true -> is_fin e = true -> dle s e = true -> E (maximum s e) = E e) as MX.
  { intros s e Fs Fe H. rewrite maximum_E by auto using fin_nn. apply dle_E in H; auto using fin_nn. apply Rmax_right. lra. }
  pose proof (overlap_ratios_disjoint s1 e1 s2 e2 F1 F2 F3 F4 L1 L2) as HD1.
  pose proof (overlap_ratios_disjoint s2 e2 s1 e1 F3 F4 F1 F2 L2 L1) as HD2.
  pose proof (overlap_ratios_contained s1 e1 s2 e2 F1 F2 F3 F4) as HC.
  destruct (computeOverlapRatios s1 e1 s2 e2) as [r1 r2] eqn:ER.
  destruct (computeOverlapRatios s2 e2 s1 e1) as [r1' r2'] eqn:ER'.
  cbn [fst snd] in *. split; [auto|]. split; [auto|]. split; [auto|]. split.
  - intros H1 H2 Hd. destruct HS as [HS1 HS2].
    destruct Hd as [Hd|Hd].
    + apply HD1. rewrite (MN2 H2). apply dle_E; auto using fin_nn, max_fin.
      rewrite MX by auto. apply dle_E in Hd; auto using fin_nn.
    + assert (deq r1' dzero = true /\ deq r2' dzero = true) as [Z1 Z2].
      { apply HD2. rewrite (MN1 H1). apply dle_E; auto using fin_nn, max_fin.
        rewrite MX by auto. apply dle_E in Hd; auto using fin_nn. }
      split; eapply deq_trans; eauto.
  - intros H1 H2 H3 H4. apply HC; auto.
    assert (minimum s1 e1 = s1) as M1 by (apply MN1; apply dlt_dle; auto).
    assert (maximum s1 e1 = e1) as M2 by (unfold maximum; rewrite H2; auto).
    rewrite M1, M2 in L1. exact L1.
Qed.

Lemma max_overlap_all p q :
  finite_interval (leftX p) (rightX p) -> finite_interval (leftX q) (rightX q) ->
  finite_interval (upperY p) (lowerY p) -> finite_interval (upperY q) (lowerY q) ->
  (dle dzero (computeMaxXOverlapRatio p q) = true /\ dle (computeMaxXOverlapRatio p q) done = true) /\
  (dle dzero (computeMaxYOverlapRatio p q) = true /\ dle (computeMaxYOverlapRatio p q) done = true) /\
  deq (computeMaxXOverlapRatio p q) (computeMaxXOverlapRatio q p) = true /\
  deq (computeMaxYOverlapRatio p q) (computeMaxYOverlapRatio q p) = true.
Proof.
  assert (forall a b c d, finite_interval a b -> finite_interval c d ->
    let m := maximum (fst (computeOverlapRatios a b c d)) (snd (computeOverlapRatios a b c d)) in
    let m' := maximum (fst (computeOverlapRatios c d a b)) (snd (computeOverlapRatios c d a b)) in
    (dle dzero m = true /\ dle m done = true) /\ deq m m' = true) as K.
  { intros a b c d H1 H2 m m'. subst m m'. pose proof (overlap_ratios_all a b c d H1 H2) as HA.
    pose proof (overlap_ratios_all c d a b H2 H1) as HB.
    destruct (computeOverlapRatios a b c d) as [r1 r2]. destruct (computeOverlapRatios c d a b) as [r1' r2'].
    cbn [fst snd]. destruct HA as ((A1 & A2) & (A3 & A4) & (S1 & S2) & _).
    destruct HB as ((B1 & B2) & (B3 & B4) & _).
    assert (nn r1 /\ nn r2 /\ nn r1' /\ nn r2') as (N1 & N2 & N3 & N4).
    { apply dle_nn in A1, A3, B1, B3. tauto. }
    split; [split|].
    - destruct (maximum_cases r1 r2) as [-> | ->]; auto.
    - apply maximum_lub; auto.
    - apply deq_E; auto using maximum_nn. rewrite !maximum_E by auto.
      apply deq_E in S1, S2; auto. rewrite S1, S2. apply Rmax_comm. }
  intros H1 H2 H3 H4. destruct (K _ _ _ _ H1 H2) as [X1 X2]. destruct (K _ _ _ _ H3 H4) as [Y1 Y2].
  split; [exact X1|]. split; [exact Y1|]. split; [exact X2|exact Y2].
Qed.
