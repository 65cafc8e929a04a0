(** GridProofs.v - coordinates rounded to one decimal ("tenths"): on them the tolerant comparisons
    are exact, hence the position comparators are strict weak orders. *)
From Coq Require Import ZArith Reals Lra.
From Flocq Require Import Core IEEE754.BinarySingleNaN.
From Verif Require Import Base Double DoubleFacts MathUtils MathUtilsProofs Sort Elements GeometrySpec ElementsProofs.

Lemma fx_mono : forall x y, (x <= y)%Z -> (fx x <= fx y)%Z.
Proof. intros. unfold fx, SpecFloat.fexp, SpecFloat.emin. lia. Qed.
Global Instance fx_monotone : Monotone_exp fx. Proof. exact fx_mono. Qed.

(** |rd x - x| <= 2^-22 for |x| <= 2^30. *)
Lemma rd_err x : (Rabs x <= bpow radix2 30)%R -> (Rabs (rd x - x) <= bpow radix2 (-22))%R.
Proof.
  intros H. eapply Rle_trans. apply error_le_half_ulp; auto with typeclass_instances.
  assert (ulp radix2 fx x <= ulp radix2 fx (bpow radix2 30))%R as Hu.
  { apply ulp_le; auto with typeclass_instances. rewrite (Rabs_pos_eq (bpow radix2 30)); auto. apply bpow_ge_0. }
  rewrite ulp_bpow in Hu. change (fx (30 + 1)) with (-22)%Z in Hu.
  pose proof (bpow_gt_0 radix2 (-22)). pose proof (ulp_ge_0 radix2 fx x). lra.
Qed.
Lemma e22 : (bpow radix2 (-22) = / 4194304)%R. Proof. cbn. reflexivity. Qed.
Lemma e30 : (bpow radix2 30 = 1073741824)%R. Proof. cbn. reflexivity. Qed.
Lemma M_big : (4294967296 < M)%R.
Proof. replace 4294967296%R with (bpow radix2 32) by (cbn; reflexivity). rewrite <- M_eq. apply bpow_lt. lia. Qed.

(** [d] is the double nearest to k/10. *)
Definition tenth (k : Z) (d : double) : Prop :=
  (Z.abs k <= 1000000001)%Z /\ is_fin d = true /\ E d = rd (IZR k / 10).

Lemma tenth_err k d : tenth k d -> (Rabs (E d - IZR k / 10) <= / 4194304)%R /\ (Rabs (E d) <= 100000001)%R.
Proof.
  intros (Hk & _ & ->).
  assert (Rabs (IZR k / 10) <= 1000000001 / 10)%R as Ha.
  { unfold Rdiv. rewrite Rabs_mult, (Rabs_pos_eq (/10)) by lra. apply Rmult_le_compat_r; [lra|].
    rewrite <- abs_IZR. apply IZR_le. assumption. }
  assert (Rabs (rd (IZR k / 10) - IZR k / 10) <= / 4194304)%R as He.
  { rewrite <- e22. apply rd_err. rewrite e30. lra. }
  split; auto. apply Rabs_le_inv in Ha. apply Rabs_le_inv in He. apply Rabs_le. lra.
Qed.

Lemma TOL_E : (0 <= E TOL <= 11 / 100000)%R.
Proof.
  destruct (dZ_pos 1) as (F1 & _ & _). { split; [lia|]. apply Zpower_le with (r := radix2) (e1 := 0%Z); lia. }
  destruct (dZ_pos (10 ^ 4)) as (F4 & P4 & E4). { split; [lia|]. transitivity (2 ^ 20)%Z. lia. apply Z.pow_le_mono_r; lia. }
  pose proof one_E as H1. unfold done in H1.
  assert (rd (IZR (10 ^ 4)) = 10000)%R as R4.
  { assert (rd (IZR (10^4)) = IZR (10^4)) as ->; [|reflexivity]. apply round_generic; auto with typeclass_instances.
    apply generic_format_FLT. exists (Float radix2 (10^4) 0). unfold F2R; cbn [Fnum Fexp]. cbn [bpow]. ring. 
    cbn. lia. cbn. lia. }
  destruct (ddiv_E (dZ 1) (dZ (10 ^ 4)) F1 F4) as [_ HE]; [lra|].
  change (ddiv (dZ 1) (dZ (10 ^ 4))) with TOL in HE. rewrite E4, R4, H1 in HE.
  assert (Rabs (rd (1 / 10000) - 1 / 10000) <= / 4194304)%R as He.
  { rewrite <- e22. apply rd_err. rewrite e30. rewrite Rabs_pos_eq; lra. }
  apply Rabs_le_inv in He. pose proof M_big. rewrite clamp_id in HE; lra.
Qed.

Lemma smaller_tenth k l a b : tenth k a -> tenth l b -> smaller a b TOL = (k <? l)%Z.
Proof.
  intros Ha Hb. pose proof (tenth_err _ _ Ha) as [A1 A2]. pose proof (tenth_err _ _ Hb) as [B1 B2].
  destruct (Z.ltb_spec k l) as [Hkl|Hlk].
  - unfold smaller. destruct Ha as (_ & Fa & _), Hb as (_ & Fb & _).
    destruct (dsub_E b TOL Fb TOL_fin) as [Hn HE]. apply dlt_E; auto using fin_nn.
    pose proof TOL_E as HT. apply Rabs_le_inv in A1, A2, B1, B2.
    assert (Rabs (rd (E b - E TOL) - (E b - E TOL)) <= / 4194304)%R as He.
    { rewrite <- e22. apply rd_err. rewrite e30. apply Rabs_le. lra. }
    apply Rabs_le_inv in He. pose proof M_big. rewrite HE, clamp_id by lra.
    assert (IZR k + 1 <= IZR l)%R as Hi. { rewrite <- plus_IZR. apply IZR_le. lia. }
    lra.
  - destruct (smaller a b TOL) eqn:Hs; auto. apply smaller_lt in Hs; [|apply TOL_pos].
    destruct Ha as (_ & Fa & Ea), Hb as (_ & Fb & Eb).
    apply dlt_E in Hs; try (apply fin_nn; auto; fail). rewrite Ea, Eb in Hs.
    assert (rd (IZR l / 10) <= rd (IZR k / 10))%R; [|lra]. apply rd_mono.
    apply IZR_le in Hlk. lra.
Qed.
Lemma larger_tenth k l a b : tenth k a -> tenth l b -> larger a b TOL = (l <? k)%Z.
Proof.
  intros Ha Hb. pose proof (tenth_err _ _ Ha) as [A1 A2]. pose proof (tenth_err _ _ Hb) as [B1 B2].
  destruct (Z.ltb_spec l k) as [Hkl|Hlk].
  - unfold larger, dgt. destruct Ha as (_ & Fa & _), Hb as (_ & Fb & _).
    destruct (dadd_E b TOL Fb TOL_fin) as [Hn HE]. apply dlt_E; auto using fin_nn.
    pose proof TOL_E as HT. apply Rabs_le_inv in A1, A2, B1, B2.
    assert (Rabs (rd (E b + E TOL) - (E b + E TOL)) <= / 4194304)%R as He.
    { rewrite <- e22. apply rd_err. rewrite e30. apply Rabs_le. lra. }
    apply Rabs_le_inv in He. pose proof M_big. rewrite HE, clamp_id by lra.
    assert (IZR l + 1 <= IZR k)%R as Hi. { rewrite <- plus_IZR. apply IZR_le. lia. }
    lra.
  - destruct (larger a b TOL) eqn:Hs; auto. apply larger_gt in Hs; [|apply TOL_pos].
    destruct Ha as (_ & Fa & Ea), Hb as (_ & Fb & Eb).
    apply dlt_E in Hs; try (apply fin_nn; auto; fail). rewrite Ea, Eb in Hs.
    assert (rd (IZR k / 10) <= rd (IZR l / 10))%R; [|lra]. apply rd_mono.
    apply IZR_le in Hlk. lra.
Qed.
Lemma dabs_E x : nn x -> nn (dabs x) /\ E (dabs x) = Rabs (E x).
Proof.
  intros H. split. { unfold nn, dabs, is_nan_d in *. rewrite is_nan_Babs. exact H. }
  pose proof M_pos.
  destruct x as [s|s| |s m e Hm]; cbn [dabs Babs E]. 
  - cbn [B2R]. rewrite Rabs_R0. reflexivity.
  - destruct s; [rewrite Rabs_Ropp|]; rewrite Rabs_pos_eq; lra.
  - discriminate H.
  - change (B754_finite false m e Hm) with (Babs (B754_finite s m e Hm)). rewrite B2R_Babs. reflexivity.
Qed.
Lemma equal_tenth k l a b : tenth k a -> tenth l b -> equal a b TOL = (k =? l)%Z.
Proof.
  intros Ha Hb. pose proof (tenth_err _ _ Ha) as [A1 A2]. pose proof (tenth_err _ _ Hb) as [B1 B2].
  pose proof TOL_E as HT. pose proof M_big as HM.
  unfold equal. destruct Ha as (_ & Fa & Ea), Hb as (_ & Fb & Eb).
  destruct (dsub_E a b Fa Fb) as [Hn HE]. destruct (dabs_E _ Hn) as [Hn2 HE2].
  apply Rabs_le_inv in A1, A2, B1, B2.
  assert (Rabs (rd (E a - E b) - (E a - E b)) <= / 4194304)%R as He.
  { rewrite <- e22. apply rd_err. rewrite e30. apply Rabs_le. lra. }
  apply Rabs_le_inv in He.
  destruct (Z.eqb_spec k l) as [->|Hne].
  - apply dle_E; auto using fin_nn, TOL_fin. rewrite HE2, HE, Ea, Eb.
    rewrite Rminus_diag_eq by reflexivity. rewrite rd_0, clamp_0, Rabs_R0. lra.
  - apply dle_Ef; auto using fin_nn, TOL_fin. rewrite HE2, HE. rewrite clamp_id by lra.
    destruct (Z_lt_le_dec k l) as [H|H].
    + assert (IZR k + 1 <= IZR l)%R as Hi. { rewrite <- plus_IZR. apply IZR_le. lia. }
      rewrite Rabs_left1; lra.
    + assert (IZR l + 1 <= IZR k)%R as Hi. { rewrite <- plus_IZR. apply IZR_le. lia. }
      rewrite Rabs_pos_eq; lra.
Qed.

(** Rounding any value of magnitude at most 10^8 to one decimal gives a tenth. *)
Lemma dZ_exact z : (1 <= z < 2 ^ 53)%Z -> is_fin (dZ z) = true /\ E (dZ z) = IZR z.
Proof.
  intros Hz. destruct (dZ_pos z) as (F & _ & HE).
  { split; [lia|]. transitivity (2 ^ 53)%Z; [lia|]. apply Z.pow_le_mono_r; lia. }
  split; auto. rewrite HE. apply round_generic; auto with typeclass_instances.
  apply generic_format_FLT. exists (Float radix2 z 0). unfold F2R; cbn [Fnum Fexp]. cbn [bpow]. ring.
  cbn [Fnum]. change (radix2 ^ 53)%Z with (2 ^ 53)%Z. lia. cbn. lia.
Qed.
Lemma dround1_tenth x : dle (dabs x) (dZ 100000000) = true -> exists k, tenth k (dround x 1).
Proof.
  intros H. destruct (dle_nn _ _ H) as [Hn1 _].
  assert (nn x) as Hn. { unfold nn, is_nan_d, dabs in *. rewrite is_nan_Babs in Hn1. exact Hn1. }
  destruct (dabs_E x Hn) as [_ HA]. apply dle_E in H; auto; [|reflexivity].
  destruct (dZ_exact 100000000) as [_ E8]; [lia|]. rewrite HA, E8 in H. apply Rabs_le_inv in H.
  pose proof M_big as HM.
  assert (is_fin x = true) as Fx by (apply E_fin_iff; auto; lra).
  destruct (dZ_exact 10) as [F10 E10]; [lia|].
  unfold dround. cbn [Z.eqb]. change (10 ^ 1)%Z with 10%Z.
  destruct (dmul_E x (dZ 10) Fx F10) as [Hmn HmE]; [lra|]. rewrite E10 in HmE.
  assert (Rabs (rd (E x * 10) - E x * 10) <= / 4194304)%R as He.
  { rewrite <- e22. apply rd_err. rewrite e30. apply Rabs_le. lra. }
  apply Rabs_le_inv in He. rewrite clamp_id in HmE by lra.
  set (m := dmul x (dZ 10)) in *.
  assert (is_fin m = true) as Fm by (apply E_fin_iff; auto; lra).
  destruct (std_round_fin m Fm) as [Fr Er]. rewrite round_FIX_IZR in Er.
  set (k := ZnearestA (E m)) in *.
  assert (Rabs (E m - IZR k) <= / 2)%R as Hk by apply Znearest_half. apply Rabs_le_inv in Hk.
  exists k. assert (IZR (Z.abs k) <= IZR 1000000001)%R as HkZ. { rewrite abs_IZR. apply Rabs_le. lra. }
  apply le_IZR in HkZ.
  destruct (ddiv_E (std_round m) (dZ 10) Fr F10) as [Hdn HdE]; [lra|]. rewrite E10, Er in HdE.
  assert (Rabs (rd (IZR k / 10) - IZR k / 10) <= / 4194304)%R as Hee.
  { rewrite <- e22. apply rd_err. rewrite e30. apply Rabs_le. lra. }
  apply Rabs_le_inv in Hee. rewrite clamp_id in HdE by lra.
  split; [exact HkZ|]. split; [|exact HdE]. apply E_fin_iff; auto; lra.
Qed.

Lemma rounded1_tenth d : rounded1 d -> exists k, tenth k d.
Proof. intros (x & Hx & ->). apply dround1_tenth; auto. Qed.

(** Orders given by an integer key are strict weak orders. *)
Lemma key_swo {A} (lt : A -> A -> bool) (key : A -> Z -> Prop) (l : list A) :
  (forall x, In x l -> exists k, key x k) ->
  (forall x y k j, In x l -> In y l -> key x k -> key y j -> lt x y = (k <? j)%Z) -> swo lt l.
Proof.
  intros Hk Hlt. split; [|split].
  - intros x Hx. destruct (Hk x Hx) as [k K]. rewrite (Hlt x x k k) by auto. apply Z.ltb_irrefl.
  - intros x y z Hx Hy Hz. destruct (Hk x Hx) as [k K], (Hk y Hy) as [j J], (Hk z Hz) as [i I].
    rewrite (Hlt x y k j), (Hlt y z j i), (Hlt x z k i) by auto. rewrite !Z.ltb_lt. lia.
  - intros x y z Hx Hy Hz. destruct (Hk x Hx) as [k K], (Hk y Hy) as [j J], (Hk z Hz) as [i I].
    unfold incomp. rewrite (Hlt x y k j), (Hlt y x j k), (Hlt y z j i), (Hlt z y i j), (Hlt x z k i), (Hlt z x i k) by auto.
    rewrite !andb_true_iff, !negb_true_iff, !Z.ltb_ge. lia.
Qed.
(** An infinite coordinate behaves like a very large tenth. *)
Definition skey (k : Z) (d : double) : Prop := tenth k d \/ (d = dinf /\ k = 2000000000%Z).
Lemma stored_key d : stored1 d -> exists k, skey k d.
Proof. intros [R|I]; [destruct (rounded1_tenth d R) as [k K]; exists k; left; exact K|exists 2000000000%Z; right; split; [exact I|reflexivity]]. Qed.
Lemma smaller_inf_l y : smaller dinf y TOL = false.
Proof. unfold smaller. destruct (dsub y TOL) as [|[]| |[]]; reflexivity. Qed.
Lemma smaller_inf_r x : is_fin x = true -> smaller x dinf TOL = true.
Proof. unfold smaller. replace (dsub dinf TOL) with dinf by (vm_compute; reflexivity). destruct x as [[]|[]| |[]]; intros F; try discriminate F; reflexivity. Qed.
Lemma smaller_key k j x y : skey k x -> skey j y -> smaller x y TOL = (k <? j)%Z.
Proof.
  intros [K|[-> ->]] [J|[-> ->]].
  - apply smaller_tenth; assumption.
  - destruct K as (B & F & _). rewrite (smaller_inf_r x F). symmetry. apply Z.ltb_lt. lia.
  - rewrite smaller_inf_l. destruct J as (B & _). symmetry. apply Z.ltb_ge. lia.
  - rewrite smaller_inf_l, Z.ltb_irrefl. reflexivity.
Qed.
Lemma larger_inf_r x : larger x dinf TOL = false.
Proof. unfold larger. replace (dadd dinf TOL) with dinf by (vm_compute; reflexivity). destruct x as [[]|[]| |[]]; reflexivity. Qed.
Lemma larger_inf_l j y : tenth j y -> larger dinf y TOL = true.
Proof.
  intros K. pose proof (tenth_err j y K) as [_ A]. destruct K as (_ & F & _). destruct (dadd_E y TOL F TOL_fin) as [N HE]. pose proof TOL_E as HT. pose proof M_big.
  apply Rabs_le_inv in A. assert (Rabs (rd (E y + E TOL) - (E y + E TOL)) <= / 4194304)%R as He. { rewrite <- e22. apply rd_err. rewrite e30. apply Rabs_le. lra. }
  apply Rabs_le_inv in He. rewrite clamp_id in HE by lra. assert (FA : is_fin (dadd y TOL) = true) by (apply E_fin_iff; [exact N|]; lra).
  unfold larger, dgt. destruct (dadd y TOL) as [[]|[]| |[]]; try discriminate FA; reflexivity.
Qed.
Lemma larger_key k j x y : skey k x -> skey j y -> larger x y TOL = (j <? k)%Z.
Proof.
  intros [K|[-> ->]] [J|[-> ->]].
  - apply larger_tenth; assumption.
  - rewrite larger_inf_r. destruct K as (B & _). symmetry. apply Z.ltb_ge. lia.
  - rewrite (larger_inf_l j y J). destruct J as (B & _). symmetry. apply Z.ltb_lt. lia.
  - rewrite larger_inf_r, Z.ltb_irrefl. reflexivity.
Qed.
Lemma smaller_swo {A} (f : A -> double) l : (forall x, In x l -> stored1 (f x)) ->
  swo (fun a b => smaller (f a) (f b) TOL) l.
Proof.
  intros H. apply key_swo with (key := fun x k => skey k (f x)).
  - intros x Hx. apply stored_key; auto.
  - intros. apply smaller_key; auto.
Qed.
Lemma larger_swo {A} (f : A -> double) l : (forall x, In x l -> stored1 (f x)) ->
  swo (fun a b => larger (f a) (f b) TOL) l.
Proof.
  intros H. apply key_swo with (key := fun x k => skey (- k) (f x)).
  - intros x Hx. destruct (stored_key _ (H x Hx)) as [k K]. exists (- k)%Z. rewrite Z.opp_involutive. exact K.
  - intros x y k j _ _ K J. rewrite (larger_key _ _ _ _ K J). destruct (Z.ltb_spec (- j) (- k)), (Z.ltb_spec k j); auto; lia.
Qed.
Lemma parsed_stored p : parsed_coordinates p -> stored_coordinates p.
Proof. intros (A & B & C & D). repeat split; left; assumption. Qed.
Lemma rot_stored p : stored_coordinates p -> stored1 (getRotLeftX p) /\ stored1 (getRotLowerY p).
Proof.
  intros (A & B & C & D). unfold getRotLeftX, getRotLowerY.
  destruct (rotation p) as [|[[]|[]|]|]; auto.
Qed.

Lemma rot_rounded p : parsed_coordinates p ->
  rounded1 (getRotLeftX p) /\ rounded1 (getRotUpperY p) /\ rounded1 (getRotRightX p) /\ rounded1 (getRotLowerY p).
Proof.
  intros (A & B & C & D). unfold getRotLeftX, getRotUpperY, getRotRightX, getRotLowerY.
  destruct (rotation p) as [|[[]|[]|]|]; auto.
Qed.
Lemma comparators_swo lt l : In lt comparators -> (forall p, In p l -> stored_coordinates p) -> swo lt l.
Proof.
  intros H Hl.
  repeat (destruct H as [<-|H];
    [first [apply (smaller_swo (fun p => leftX p)) | apply (larger_swo (fun p => rightX p)) | apply (smaller_swo (fun p => upperY p))
           | apply (smaller_swo getRotLeftX) | apply (larger_swo getRotLeftX)
           | apply (smaller_swo getRotLowerY) | apply (larger_swo getRotLowerY)];
     intros p Hp; pose proof (rot_stored p (Hl p Hp)); destruct (Hl p Hp) as (? & ? & ? & ?); tauto |]).
  destruct H.
Qed.
Lemma comparators_sort_well_defined lt impl l : In lt comparators -> sort_ok impl ->
  (forall p, In p l -> stored_coordinates p) ->
  swo lt l /\
  exists l', std_sort impl lt l = Ok l' /\ Permutation l l' /\
    (forall l1 x l2 y l3, l' = l1 ++ x :: l2 ++ y :: l3 -> lt y x = false).
Proof.
  intros Hlt Hok Hl. pose proof (comparators_swo lt l Hlt Hl) as Hs. split; auto.
  destruct (Hok lt l Hs) as [Hp Ho]. exists (impl lt l). split; [|split; auto].
  unfold std_sort. apply swo_b_spec in Hs. rewrite Hs. reflexivity.
Qed.
Lemma dround1_close x : dle (dabs x) (dZ 100000000) = true ->
  is_fin (dround x 1) = true /\ (Rabs (E (dround x 1) - E x) <= 50001 / 1000000)%R.
Proof.
  intros H. destruct (dle_nn _ _ H) as [Hn1 _].
  assert (nn x) as Hn. { unfold nn, is_nan_d, dabs in *. rewrite is_nan_Babs in Hn1. exact Hn1. }
  destruct (dabs_E x Hn) as [_ HA]. apply dle_E in H; auto; [|reflexivity].
  destruct (dZ_exact 100000000) as [_ E8]; [lia|]. rewrite HA, E8 in H. apply Rabs_le_inv in H.
  pose proof M_big as HM.
  assert (is_fin x = true) as Fx by (apply E_fin_iff; auto; lra).
  destruct (dZ_exact 10) as [F10 E10]; [lia|].
  unfold dround. cbn [Z.eqb]. change (10 ^ 1)%Z with 10%Z.
  destruct (dmul_E x (dZ 10) Fx F10) as [Hmn HmE]; [lra|]. rewrite E10 in HmE.
  assert (Rabs (rd (E x * 10) - E x * 10) <= / 4194304)%R as He.
  { rewrite <- e22. apply rd_err. rewrite e30. apply Rabs_le. lra. }
  apply Rabs_le_inv in He. rewrite clamp_id in HmE by lra.
  set (m := dmul x (dZ 10)) in *.
  assert (is_fin m = true) as Fm by (apply E_fin_iff; auto; lra).
  destruct (std_round_fin m Fm) as [Fr Er]. rewrite round_FIX_IZR in Er.
  set (k := ZnearestA (E m)) in *.
  assert (Rabs (E m - IZR k) <= / 2)%R as Hk by apply Znearest_half. apply Rabs_le_inv in Hk.
  destruct (ddiv_E (std_round m) (dZ 10) Fr F10) as [Hdn HdE]; [lra|]. rewrite E10, Er in HdE.
  assert (Rabs (rd (IZR k / 10) - IZR k / 10) <= / 4194304)%R as Hee.
  { rewrite <- e22. apply rd_err. rewrite e30. apply Rabs_le. lra. }
  apply Rabs_le_inv in Hee. rewrite clamp_id in HdE by lra.
  split. apply E_fin_iff; auto; lra. apply Rabs_le. lra.
Qed.

(** A way to check by computation that a double is a parsed coordinate. *)
Definition rounded1_b (d : double) : bool :=
  dle (dabs d) (dZ 100000000) && is_fin (dround d 1) && is_fin d && deq (dround d 1) d && Bool.eqb (Bsign (dround d 1)) (Bsign d).
Lemma rounded1_check d : rounded1_b d = true -> rounded1 d.
Proof.
  unfold rounded1_b. rewrite !andb_true_iff. intros [[[[H1 H2] H3] H4] H5].
  exists d. split; [exact H1|]. symmetry. apply B2R_Bsign_inj; [exact H2|exact H3| |apply Bool.eqb_prop; exact H5].
  apply deq_E in H4; [|apply fin_nn; exact H2|apply fin_nn; exact H3]. rewrite !E_fin in H4 by assumption. exact H4.
Qed.
Definition parsed_b (p : position) : bool :=
  rounded1_b (leftX p) && rounded1_b (upperY p) && rounded1_b (rightX p) && rounded1_b (lowerY p).
Lemma parsed_check p : parsed_b p = true -> parsed_coordinates p.
Proof. unfold parsed_b. rewrite !andb_true_iff. intros [[[H1 H2] H3] H4]. repeat split; apply rounded1_check; assumption. Qed.
Definition proper_b (p : position) : bool :=
  parsed_b p && negb (rotation p =? 2)%Z && negb (rotation p =? 3)%Z && dlt (leftX p) (rightX p) && dlt (upperY p) (lowerY p).
Lemma proper_check p : proper_b p = true -> proper_box p.
Proof.
  unfold proper_b. rewrite !andb_true_iff, !negb_true_iff, !Z.eqb_neq. intros [[[[H1 H2] H3] H4] H5].
  split; [apply parsed_check; exact H1|]. split; [split; assumption|]. split; assumption.
Qed.
