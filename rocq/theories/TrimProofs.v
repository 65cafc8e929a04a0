(** TrimProofs.v - proofs about trim boxes. *)
From Coq Require Import ZArith NArith Reals Lra.
From Flocq Require Import Core.
From Verif Require Import Base Double DoubleFacts MathUtils MathUtilsProofs Sort Elements ElementsProofs GeometrySpec GridProofs
  Counter CounterProofs UtilsSpec Document Lines LinesSpec WordsProofs LinesProofs LineMergeProofs LinesDefined.
Local Open Scope nat_scope.
Local Opaque TOL dZ dadd dsub ddiv dmul dec DBL_MAX DBL_MIN.

Lemma half_E : is_fin (dec 5 1) = true /\ E (dec 5 1) = (1 / 2)%R.
Proof.
  split; [vm_compute; reflexivity|].
  destruct (dZ_exact 5) as (F1 & E1); [lia|]. destruct (dZ_exact 10) as (F4 & E4); [lia|].
  destruct (ddiv_E (dZ 5) (dZ 10) F1 F4) as [N4 HE]; [rewrite E4; apply IZR_lt; lia|].
  change (ddiv (dZ 5) (dZ 10)) with (dec 5 1) in HE. rewrite E1, E4 in HE.
  replace (5 / 10)%R with (bpow radix2 (-1)) in HE by (cbn; lra). rewrite rd_bpow in HE by lia.
  pose proof M_big. rewrite clamp_id in HE by (cbn; lra). rewrite HE. cbn. lra.
Qed.
Lemma half_TOL : nn (dsub (dec 5 1) TOL) /\ (4998 / 10000 <= E (dsub (dec 5 1) TOL) <= 1 / 2)%R.
Proof.
  destruct half_E as [F H]. destruct (dsub_E (dec 5 1) TOL F ElementsProofs.TOL_fin) as [N HE]. split; [exact N|].
  pose proof TOL_E. pose proof TOL_low. pose proof M_big. rewrite H in HE.
  assert (rd (1 / 2 - E TOL) <= 1 / 2)%R as U.
  { assert (R : rd (1 / 2) = (1 / 2)%R) by (replace (1 / 2)%R with (bpow radix2 (-1)) by (cbn; lra); apply rd_bpow; lia).
    rewrite <- R. apply rd_mono. rewrite R. lra. }
  assert (Rabs (rd (1 / 2 - E TOL) - (1 / 2 - E TOL)) <= / 4194304)%R as He.
  { rewrite <- e22. apply rd_err. rewrite e30. apply Rabs_le. lra. }
  apply Rabs_le_inv in He. rewrite clamp_id in HE by lra. lra.
Qed.
Lemma share_half c n : (0 < c)%Z -> (c <= n)%Z -> (n < 2 ^ 31)%Z ->
  ((n <= 2 * c)%Z -> equalOrLarger (ddiv (dZ c) (dZ n)) (dec 5 1) TOL = true) /\
  ((2 * c < n)%Z -> (n <= 2000)%Z -> equalOrLarger (ddiv (dZ c) (dZ n)) (dec 5 1) TOL = false).
Proof.
  intros C0 CN N31. destruct (dZ_exact c) as (Fc & Ec); [lia|]. destruct (dZ_exact n) as (Fn & En); [lia|].
  assert (Pn : (0 < IZR n)%R) by (apply IZR_lt; lia).
  destruct (ddiv_E (dZ c) (dZ n) Fc Fn) as [Nd HE]; [rewrite En; exact Pn|]. rewrite Ec, En in HE.
  destruct half_TOL as [Nh [H1 H2]]. pose proof M_big.
  assert (B : (0 <= IZR c / IZR n <= 1)%R).
  { split; [apply Rmult_le_pos; [apply IZR_le; lia|left; apply Rinv_0_lt_compat, Pn]|].
    apply (Rmult_le_reg_r (IZR n)); [exact Pn|]. unfold Rdiv. rewrite Rmult_assoc, Rinv_l by lra. rewrite Rmult_1_r, Rmult_1_l. apply IZR_le, CN. }
  assert (Rabs (rd (IZR c / IZR n) - IZR c / IZR n) <= / 4194304)%R as He.
  { rewrite <- e22. apply rd_err. rewrite e30. apply Rabs_le. lra. }
  apply Rabs_le_inv in He. rewrite clamp_id in HE by lra.
  unfold equalOrLarger, dge. split.
  - intros L. apply dle_E; [exact Nh|exact Nd|]. rewrite HE.
    assert (R : rd (1 / 2) = (1 / 2)%R) by (replace (1 / 2)%R with (bpow radix2 (-1)) by (cbn; lra); apply rd_bpow; lia).
    assert (1 / 2 <= rd (IZR c / IZR n))%R; [|lra]. rewrite <- R at 1. apply rd_mono.
    apply (Rmult_le_reg_r (IZR n)); [exact Pn|]. unfold Rdiv at 2. rewrite Rmult_assoc, Rinv_l by lra. apply IZR_le in L. rewrite mult_IZR in L. lra.
  - intros L S. apply dle_Ef; [exact Nh|exact Nd|]. rewrite HE.
    assert (IZR c / IZR n <= 49979 / 100000)%R; [|lra].
    apply (Rmult_le_reg_r (IZR n)); [exact Pn|]. unfold Rdiv at 1. rewrite Rmult_assoc, Rinv_l by lra.
    assert (2 * IZR c + 1 <= IZR n)%R by (rewrite <- (mult_IZR 2 c), <- plus_IZR; apply IZR_le; lia). assert (IZR n <= 2000)%R by (apply IZR_le, S). 
    lra.
Qed.

Lemma occ_le {K} (eqb : K -> K -> bool) x l : occ eqb x l <= length l.
Proof. unfold occ. induction l as [|y l IH]; cbn; [lia|]. destruct (eqb x y); cbn; lia. Qed.

(** the trim box of a segment *)
Lemma trim_box_ok ordD seg ls lx uy rx ly : (forall m, Permutation m (ordD m)) ->
  (forall l, In l ls -> is_nan_d (dround (getRotRightX (l_pos l)) 0) = false) -> (Z.of_nat (length ls) < 2 ^ 31)%Z -> ls <> [] ->
  computeTrimBox ordD seg ls = Ok (lx, uy, rx, ly) ->
  lx = leftX seg /\ uy = upperY seg /\ ly = lowerY seg /\
  let rights := map (fun l => dround (getRotRightX (l_pos l)) 0) ls in
  exists x, most_frequent deq x rights /\
    (length ls <= 2 * occ deq x rights -> rx = x) /\
    (2 * occ deq x rights < length ls -> length ls <= 2000 -> rx = rightX seg) /\
    (rx = x \/ rx = rightX seg).
Proof.
  intros HD NN L31 NE. unfold computeTrimBox. cbv zeta. set (rs := map (fun l => dround (getRotRightX (l_pos l)) 0) ls).
  assert (LR : length rs = length ls) by apply map_length.
  assert (NR : forall x, In x rs -> deq x x = true) by (intros x Hx; apply in_map_iff in Hx as (l & <- & Hl); apply deq_refl, NN, Hl).
  assert (LL : (N.of_nat (length rs) < 2 ^ 32)%N) by lia.
  rewrite (sumCounts_counted deq rs (ordD (count_all deq rs)) LL (HD _)).
  assert (LP : 0 < length rs) by (rewrite LR; destruct ls; [congruence|cbn; lia]).
  destruct (N.ltb_spec 0 (N.of_nat (length rs))) as [_|X]; [|lia].
  destruct (mostFreq_counted deq (fun a b Q => eq_trans (deq_sym b a) Q) deq_trans rs dzero (ordD (count_all deq rs)) NR LL (HD _)) as [_ R].
  destruct R as (x & E1 & E2 & E3); [destruct rs; [cbn in LP; lia|discriminate]|]. rewrite E1. cbn [obind].
  assert (O0 : 0 < occ deq x rs).
  { unfold occ. assert (I : In x (filter (deq x) rs)) by (apply filter_In; split; [exact E2|apply NR, E2]). destruct (filter (deq x) rs); [destruct I|cbn; lia]. }
  pose proof (occ_le deq x rs) as OL.
  assert (G : dgt (dZ (Z.of_nat (length ls))) dzero = true).
  { destruct (dZ_exact (Z.of_nat (length ls))) as (F & EE); [lia|]. unfold dgt. apply dlt_E; [reflexivity|apply fin_nn, F|]. rewrite EE. change (E dzero) with 0%R. apply IZR_lt. lia. }
  rewrite G. intros H. destruct (share_half (Z.of_N (N.of_nat (occ deq x rs))) (Z.of_nat (length ls))) as [A B]; [lia|lia|lia|].
  set (b := equalOrLarger _ _ _) in *. clearbody b. injection H as <- <- <- <-. split; [reflexivity|]. split; [reflexivity|]. split; [reflexivity|].
  exists x. split; [split; assumption|]. split; [intros Q; rewrite A by lia; reflexivity|].
  split; [intros Q Q2; rewrite B by lia; reflexivity|]. destruct b; [left; reflexivity|right; reflexivity].
Qed.
