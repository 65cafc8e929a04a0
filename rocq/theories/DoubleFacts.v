(** DoubleFacts.v - order and rounding lemmas for the binary64 model.
    [E] embeds the non-NaN doubles into R (infinities at +-2^1024), so that order
    reasoning becomes linear arithmetic. *)
From Coq Require Import ZArith Reals Lra.
From Coq Require Import Floats.SpecFloat.
From Flocq Require Import Core IEEE754.BinarySingleNaN.
From Verif Require Import Base Double.

Definition M : R := bpow radix2 1024.
Lemma M_eq : bpow radix2 1024 = M. Proof. reflexivity. Qed.
Lemma M_pos : (0 < M)%R.
Proof. apply bpow_gt_0. Qed.
Global Opaque M.
Definition nn (x : double) : Prop := is_nan_d x = false.

Definition E (x : double) : R :=
  match x with
  | B754_infinity true => Ropp M
  | B754_infinity false => M
  | _ => B2R x
  end.

Lemma fin_nn x : is_fin x = true -> nn x.
Proof. destruct x; cbn; intros; unfold nn; cbn; congruence. Qed.

Lemma E_fin x : is_fin x = true -> E x = B2R x.
Proof. destruct x as [s|s| |s m e H]; cbn; intros; try reflexivity; discriminate. Qed.

Lemma E_bound x : (- M <= E x <= M)%R.
Proof.
  pose proof M_pos.
  destruct x as [s|[|]| |s m e H0]; cbn [E]; try (cbn [B2R]; lra).
  pose proof (abs_B2R_lt_emax 53 1024 (B754_finite s m e H0)) as Hb.
  rewrite M_eq in Hb. apply Rabs_lt_inv in Hb. lra.
Qed.

Lemma E_fin_bound x : is_fin x = true -> (- M < E x < M)%R.
Proof.
  intros H. rewrite E_fin by assumption.
  pose proof (abs_B2R_lt_emax 53 1024 x) as Hb.
  rewrite M_eq in Hb. apply Rabs_lt_inv in Hb. exact Hb.
Qed.

Lemma E_fin_iff x : nn x -> ((- M < E x < M)%R <-> is_fin x = true).
Proof.
  intros Hn; split; [|apply E_fin_bound].
  destruct x as [s|[|]| |s m e H0]; cbn; intros; try reflexivity; try lra.
  discriminate Hn.
Qed.

Lemma compare_E x y : nn x -> nn y -> Bcompare x y = Some (Rcompare (E x) (E y)).
Proof.
  intros Hx Hy. pose proof M_pos as HM.
  destruct (is_fin x) eqn:Fx; destruct (is_fin y) eqn:Fy.
  - rewrite !E_fin by assumption. apply Bcompare_correct; assumption.
  - pose proof (E_fin_bound x Fx) as Hb.
    destruct y as [s|[|]| |s m e H0]; try discriminate.
    + cbn [E]. rewrite Rcompare_Gt by lra. destruct x as [s|[|]| |[|] m e H0]; try discriminate; reflexivity.
    + cbn [E]. rewrite Rcompare_Lt by lra. destruct x as [s|[|]| |[|] m e H0]; try discriminate; reflexivity.
  - pose proof (E_fin_bound y Fy) as Hb.
    destruct x as [s|[|]| |s m e H0]; try discriminate.
    + cbn [E]. rewrite Rcompare_Lt by lra. destruct y as [s|[|]| |[|] m e H0]; try discriminate; reflexivity.
    + cbn [E]. rewrite Rcompare_Gt by lra. destruct y as [s|[|]| |[|] m e H0]; try discriminate; reflexivity.
  - destruct x as [s|[|]| |s m e H0]; try discriminate;
    destruct y as [s'|[|]| |s' m' e' H0']; try discriminate; cbn [E].
    + rewrite Rcompare_Eq by reflexivity; reflexivity.
    + rewrite Rcompare_Lt by lra; reflexivity.
    + rewrite Rcompare_Gt by lra; reflexivity.
    + rewrite Rcompare_Eq by reflexivity; reflexivity.
Qed.

Lemma dlt_nan_l x y : is_nan_d x = true -> dlt x y = false.
Proof. destruct x; cbn; intros; try discriminate. reflexivity. Qed.
Lemma dlt_nan_r x y : is_nan_d y = true -> dlt x y = false.
Proof. destruct y; cbn; intros; try discriminate. destruct x as [s|[|]| |[|] ? ? ?]; reflexivity. Qed.
Lemma dle_nan_l x y : is_nan_d x = true -> dle x y = false.
Proof. destruct x; cbn; intros; try discriminate. reflexivity. Qed.
Lemma dle_nan_r x y : is_nan_d y = true -> dle x y = false.
Proof. destruct y; cbn; intros; try discriminate. destruct x as [s|[|]| |[|] ? ? ?]; reflexivity. Qed.
Lemma deq_nan_l x y : is_nan_d x = true -> deq x y = false.
Proof. destruct x; cbn; intros; try discriminate. reflexivity. Qed.
Lemma deq_nan_r x y : is_nan_d y = true -> deq x y = false.
Proof. destruct y; cbn; intros; try discriminate. destruct x as [s|[|]| |[|] ? ? ?]; reflexivity. Qed.

Lemma dlt_E x y : nn x -> nn y -> (dlt x y = true <-> (E x < E y)%R).
Proof.
  intros Hx Hy. pose proof (compare_E x y Hx Hy) as H. unfold Bcompare in H.
  unfold dlt, Bltb, SFltb. rewrite H.
  destruct (Rcompare_spec (E x) (E y)); split; intros; try lra; try discriminate; reflexivity.
Qed.
Lemma dle_E x y : nn x -> nn y -> (dle x y = true <-> (E x <= E y)%R).
Proof.
  intros Hx Hy. pose proof (compare_E x y Hx Hy) as H. unfold Bcompare in H.
  unfold dle, Bleb, SFleb. rewrite H.
  destruct (Rcompare_spec (E x) (E y)); split; intros; try lra; try discriminate; reflexivity.
Qed.
Lemma deq_E x y : nn x -> nn y -> (deq x y = true <-> (E x = E y)%R).
Proof.
  intros Hx Hy. pose proof (compare_E x y Hx Hy) as H. unfold Bcompare in H.
  unfold deq, Beqb, SFeqb. rewrite H.
  destruct (Rcompare_spec (E x) (E y)); split; intros; try lra; try discriminate; reflexivity.
Qed.
Lemma dlt_Ef x y : nn x -> nn y -> (dlt x y = false <-> (E y <= E x)%R).
Proof. intros Hx Hy. destruct (dlt x y) eqn:H; split; intros; try reflexivity; try discriminate.
  - apply dlt_E in H; auto; lra.
  - destruct (Rle_or_lt (E y) (E x)); auto. apply dlt_E in H1; auto. congruence.
Qed.
Lemma dle_Ef x y : nn x -> nn y -> (dle x y = false <-> (E y < E x)%R).
Proof. intros Hx Hy. destruct (dle x y) eqn:H; split; intros; try reflexivity; try discriminate.
  - apply dle_E in H; auto; lra.
  - destruct (Rlt_or_le (E y) (E x)); auto. apply dle_E in H1; auto. congruence.
Qed.

(** From a comparison that came out true, both sides are numbers. *)
Lemma dlt_nn x y : dlt x y = true -> nn x /\ nn y.
Proof. intros H. split; unfold nn; destruct (is_nan_d _) eqn:Hn; auto.
  rewrite dlt_nan_l in H; auto. rewrite dlt_nan_r in H; auto. Qed.
Lemma dle_nn x y : dle x y = true -> nn x /\ nn y.
Proof. intros H. split; unfold nn; destruct (is_nan_d _) eqn:Hn; auto.
  rewrite dle_nan_l in H; auto. rewrite dle_nan_r in H; auto. Qed.
Lemma deq_nn x y : deq x y = true -> nn x /\ nn y.
Proof. intros H. split; unfold nn; destruct (is_nan_d _) eqn:Hn; auto.
  rewrite deq_nan_l in H; auto. rewrite deq_nan_r in H; auto. Qed.

Lemma dlt_irrefl x : dlt x x = false.
Proof. destruct (dlt x x) eqn:H; auto. destruct (dlt_nn _ _ H) as [A _]. apply dlt_E in H; auto. lra. Qed.
Lemma dlt_trans x y z : dlt x y = true -> dlt y z = true -> dlt x z = true.
Proof. intros H1 H2. destruct (dlt_nn _ _ H1), (dlt_nn _ _ H2).
  apply dlt_E in H1, H2; auto. apply dlt_E; auto. lra. Qed.
Lemma dlt_asym x y : dlt x y = true -> dlt y x = false.
Proof. intros H1. destruct (dlt_nn _ _ H1). apply dlt_E in H1; auto. apply dlt_Ef; auto. lra. Qed.
Lemma dle_refl x : nn x -> dle x x = true.
Proof. intros; apply dle_E; auto; lra. Qed.
Lemma dle_trans x y z : dle x y = true -> dle y z = true -> dle x z = true.
Proof. intros H1 H2. destruct (dle_nn _ _ H1), (dle_nn _ _ H2).
  apply dle_E in H1, H2; auto. apply dle_E; auto. lra. Qed.
Lemma dlt_le_trans x y z : dlt x y = true -> dle y z = true -> dlt x z = true.
Proof. intros H1 H2. destruct (dlt_nn _ _ H1), (dle_nn _ _ H2).
  apply dlt_E in H1; auto. apply dle_E in H2; auto. apply dlt_E; auto. lra. Qed.
Lemma dle_lt_trans x y z : dle x y = true -> dlt y z = true -> dlt x z = true.
Proof. intros H1 H2. destruct (dle_nn _ _ H1), (dlt_nn _ _ H2).
  apply dle_E in H1; auto. apply dlt_E in H2; auto. apply dlt_E; auto. lra. Qed.
Lemma dlt_dle x y : dlt x y = true -> dle x y = true.
Proof. intros H1. destruct (dlt_nn _ _ H1). apply dlt_E in H1; auto. apply dle_E; auto. lra. Qed.
Lemma dle_total x y : nn x -> nn y -> dle x y = true \/ dle y x = true.
Proof. intros. destruct (Rle_or_lt (E x) (E y)); [left|right]; apply dle_E; auto; lra. Qed.
Lemma dle_negb_dlt x y : nn x -> nn y -> dle x y = negb (dlt y x).
Proof. intros. destruct (dlt y x) eqn:H1; cbn.
  - apply dlt_E in H1; auto. apply dle_Ef; auto.
  - apply dlt_Ef in H1; auto. apply dle_E; auto. Qed.
Lemma dlt_negb_dle x y : nn x -> nn y -> dlt x y = negb (dle y x).
Proof. intros. rewrite dle_negb_dlt by auto. now rewrite negb_involutive. Qed.
Lemma deq_refl x : nn x -> deq x x = true.
Proof. intros; apply deq_E; auto. Qed.
Lemma deq_sym x y : deq x y = deq y x.
Proof.
  destruct (deq y x) eqn:H.
  - destruct (deq_nn _ _ H). apply deq_E in H; auto. apply deq_E; auto.
  - destruct (deq x y) eqn:H2; auto. destruct (deq_nn _ _ H2).
    apply deq_E in H2; auto. symmetry in H2. apply deq_E in H2; auto. congruence.
Qed.
Lemma deq_trans x y z : deq x y = true -> deq y z = true -> deq x z = true.
Proof. intros H1 H2. destruct (deq_nn _ _ H1), (deq_nn _ _ H2).
  apply deq_E in H1, H2; auto. apply deq_E; auto. lra. Qed.
Lemma dle_antisym x y : dle x y = true -> dle y x = true -> deq x y = true.
Proof. intros H1 H2. destruct (dle_nn _ _ H1). apply dle_E in H1, H2; auto. apply deq_E; auto. lra. Qed.
Lemma deq_dle x y : deq x y = true -> dle x y = true.
Proof. intros H1. destruct (deq_nn _ _ H1). apply deq_E in H1; auto. apply dle_E; auto. lra. Qed.

(** Rounding *)
Definition fx := SpecFloat.fexp 53 1024.
Definition rd (r : R) : R := round radix2 fx ZnearestE r.
Definition clamp (r : R) : R := Rmax (- M) (Rmin M r).

Global Instance fx_valid : Valid_exp fx.
Proof. apply fexp_correct. apply Hprec. Qed.

Lemma rd_mono a b : (a <= b)%R -> (rd a <= rd b)%R.
Proof. intros. apply round_le; auto with typeclass_instances. Qed.
Lemma rd_0 : rd 0 = 0%R.
Proof. apply round_0; auto with typeclass_instances. Qed.
Lemma rd_opp a : rd (- a) = (- rd a)%R.
Proof. apply round_NE_opp. Qed.
Lemma rd_B2R (x : double) : rd (B2R x) = B2R x.
Proof. apply round_generic; auto with typeclass_instances. apply (generic_format_B2R 53 1024 x). Qed.
Lemma clamp_mono a b : (a <= b)%R -> (clamp a <= clamp b)%R.
Proof. intros. unfold clamp. pose proof M_pos.
  unfold Rmax, Rmin; repeat destruct (Rle_dec _ _); lra. Qed.
Lemma clamp_id a : (- M <= a <= M)%R -> clamp a = a.
Proof. intros. unfold clamp, Rmax, Rmin; repeat destruct (Rle_dec _ _); lra. Qed.

Lemma Bsign_fin_pos (x : double) : is_fin x = true -> Bsign x = false -> (0 <= B2R x)%R.
Proof. destruct x as [s|s| |s m e H]; intros H1 H2; try discriminate; cbn [B2R]; try lra. cbn in H2; subst.
  apply F2R_ge_0. cbn. lia. Qed.
Lemma Bsign_fin_neg (x : double) : is_fin x = true -> Bsign x = true -> (B2R x <= 0)%R.
Proof. destruct x as [s|s| |s m e H]; intros H1 H2; try discriminate; cbn [B2R]; try lra. cbn in H2; subst.
  apply F2R_le_0. cbn. lia. Qed.

Lemma inf_of_SF (x : double) s : B2SF x = S754_infinity s -> x = B754_infinity s.
Proof. destruct x; cbn; intros H; inversion H; reflexivity. Qed.

Lemma dadd_E x y : is_fin x = true -> is_fin y = true ->
  nn (dadd x y) /\ E (dadd x y) = clamp (rd (E x + E y)).
Proof.
  intros Fx Fy. rewrite (E_fin x), (E_fin y) by assumption.
  pose proof (Bplus_correct 53 1024 Hprec Hemax mode_NE x y Fx Fy) as H.
  change (round radix2 (SpecFloat.fexp 53 1024) (round_mode mode_NE) (B2R x + B2R y)) with (rd (B2R x + B2R y)) in H.
  rewrite M_eq in H. change (Bplus mode_NE x y) with (dadd x y) in H.
  destruct (Rlt_bool_spec (Rabs (rd (B2R x + B2R y))) M) as [Hlt|Hge].
  - destruct H as (Hr & Hf & _). split; [apply fin_nn; exact Hf|].
    rewrite E_fin by exact Hf. rewrite Hr. apply Rabs_lt_inv in Hlt.
    rewrite clamp_id; lra.
  - destruct H as (Hs & Hsg). unfold binary_overflow in Hs. cbn in Hs. apply inf_of_SF in Hs.
    rewrite Hs. split; [reflexivity|].
    pose proof M_pos.
    destruct (Bsign x) eqn:Sx; cbn [E].
    + pose proof (Bsign_fin_neg x Fx Sx). pose proof (Bsign_fin_neg y Fy (eq_sym Hsg)).
      assert (rd (B2R x + B2R y) <= 0)%R by (rewrite <- rd_0; apply rd_mono; lra).
      rewrite Rabs_left1 in Hge by assumption.
      unfold clamp, Rmax, Rmin; repeat destruct (Rle_dec _ _); lra.
    + pose proof (Bsign_fin_pos x Fx Sx). pose proof (Bsign_fin_pos y Fy (eq_sym Hsg)).
      assert (0 <= rd (B2R x + B2R y))%R by (rewrite <- rd_0; apply rd_mono; lra).
      rewrite Rabs_pos_eq in Hge by assumption.
      unfold clamp, Rmax, Rmin; repeat destruct (Rle_dec _ _); lra.
Qed.

Lemma dsub_E x y : is_fin x = true -> is_fin y = true ->
  nn (dsub x y) /\ E (dsub x y) = clamp (rd (E x - E y)).
Proof.
  intros Fx Fy. rewrite (E_fin x), (E_fin y) by assumption.
  pose proof (Bminus_correct 53 1024 Hprec Hemax mode_NE x y Fx Fy) as H.
  change (round radix2 (SpecFloat.fexp 53 1024) (round_mode mode_NE) (B2R x - B2R y)) with (rd (B2R x - B2R y)) in H.
  rewrite M_eq in H. change (Bminus mode_NE x y) with (dsub x y) in H.
  destruct (Rlt_bool_spec (Rabs (rd (B2R x - B2R y))) M) as [Hlt|Hge].
  - destruct H as (Hr & Hf & _). split; [apply fin_nn; exact Hf|].
    rewrite E_fin by exact Hf. rewrite Hr. apply Rabs_lt_inv in Hlt.
    rewrite clamp_id; lra.
  - destruct H as (Hs & Hsg). unfold binary_overflow in Hs. cbn in Hs. apply inf_of_SF in Hs.
    rewrite Hs. split; [reflexivity|].
    pose proof M_pos.
    destruct (Bsign x) eqn:Sx; cbn [E].
    + assert (Bsign y = false) as Sy by (destruct (Bsign y); auto; discriminate).
      pose proof (Bsign_fin_neg x Fx Sx). pose proof (Bsign_fin_pos y Fy Sy).
      assert (rd (B2R x - B2R y) <= 0)%R by (rewrite <- rd_0; apply rd_mono; lra).
      rewrite Rabs_left1 in Hge by assumption.
      unfold clamp, Rmax, Rmin; repeat destruct (Rle_dec _ _); lra.
    + assert (Bsign y = true) as Sy by (destruct (Bsign y); auto; discriminate).
      pose proof (Bsign_fin_pos x Fx Sx). pose proof (Bsign_fin_neg y Fy Sy).
      assert (0 <= rd (B2R x - B2R y))%R by (rewrite <- rd_0; apply rd_mono; lra).
      rewrite Rabs_pos_eq in Hge by assumption.
      unfold clamp, Rmax, Rmin; repeat destruct (Rle_dec _ _); lra.
Qed.

(** Division of finite numbers by a positive finite number. *)
Lemma ddiv_E x y : is_fin x = true -> is_fin y = true -> (0 < E y)%R ->
  nn (ddiv x y) /\ E (ddiv x y) = clamp (rd (E x / E y)).
Proof.
  intros Fx Fy Hy. rewrite (E_fin x) by assumption. rewrite (E_fin y) in * by assumption.
  pose proof (Bdiv_correct 53 1024 Hprec Hemax mode_NE x y) as H.
  assert (B2R y <> 0)%R as Hy0 by lra. specialize (H Hy0).
  change (round radix2 (SpecFloat.fexp 53 1024) (round_mode mode_NE) (B2R x / B2R y)) with (rd (B2R x / B2R y)) in H.
  rewrite M_eq in H. change (Bdiv mode_NE x y) with (ddiv x y) in H.
  destruct (Rlt_bool_spec (Rabs (rd (B2R x / B2R y))) M) as [Hlt|Hge].
  - destruct H as (Hr & Hf & _). unfold is_fin in Fx. rewrite Fx in Hf. split; [apply fin_nn; exact Hf|].
    rewrite E_fin by exact Hf. rewrite Hr. apply Rabs_lt_inv in Hlt.
    rewrite clamp_id; lra.
  - unfold binary_overflow in H. cbn in H. apply inf_of_SF in H.
    rewrite H. split; [reflexivity|].
    pose proof M_pos.
    assert (Bsign y = false) as Sy.
    { destruct (Bsign y) eqn:Sy; auto. pose proof (Bsign_fin_neg y Fy Sy). lra. }
    rewrite Sy, xorb_false_r.
    destruct (Bsign x) eqn:Sx; cbn [E].
    + pose proof (Bsign_fin_neg x Fx Sx).
      assert (B2R x / B2R y <= 0)%R.
      { apply Rmult_le_reg_r with (B2R y); auto. unfold Rdiv. rewrite Rmult_assoc, Rinv_l by lra. lra. }
      assert (rd (B2R x / B2R y) <= 0)%R by (rewrite <- rd_0; apply rd_mono; lra).
      rewrite Rabs_left1 in Hge by assumption.
      unfold clamp, Rmax, Rmin; repeat destruct (Rle_dec _ _); lra.
    + pose proof (Bsign_fin_pos x Fx Sx).
      assert (0 <= B2R x / B2R y)%R.
      { apply Rmult_le_reg_r with (B2R y); auto. unfold Rdiv. rewrite Rmult_assoc, Rinv_l by lra. lra. }
      assert (0 <= rd (B2R x / B2R y))%R by (rewrite <- rd_0; apply rd_mono; lra).
      rewrite Rabs_pos_eq in Hge by assumption.
      unfold clamp, Rmax, Rmin; repeat destruct (Rle_dec _ _); lra.
Qed.

(** [b <= b + t] and [b - t <= b] for [t >= 0] whenever the results are numbers. *)
Lemma dle_dadd_r b t : dle dzero t = true -> nn (dadd b t) -> dle b (dadd b t) = true.
Proof.
  intros Ht Hn. destruct (dle_nn _ _ Ht) as [_ Hnt]. apply dle_E in Ht; auto; [|reflexivity].
  change (E dzero) with 0%R in Ht. pose proof M_pos.
  assert (nn b) as Hnb. { destruct b; try reflexivity. change (true = false) in Hn. discriminate Hn. }
  destruct (is_fin b) eqn:Fb; destruct (is_fin t) eqn:Ft.
  - destruct (dadd_E b t Fb Ft) as [_ HE]. apply dle_E; auto. rewrite HE.
    apply Rle_trans with (clamp (rd (E b))).
    + rewrite (E_fin b Fb), rd_B2R, clamp_id. lra. pose proof (E_fin_bound b Fb) as Hb. rewrite E_fin in Hb by auto. lra.
    + apply clamp_mono, rd_mono. lra.
  - destruct t as [s|[|]| |s m e H0]; try discriminate; cbn in Ht; [lra|].
    apply dle_E; auto. 
    assert (dadd b (B754_infinity false) = B754_infinity false) as -> by (destruct b; try discriminate; reflexivity).
    cbn [E]. apply E_bound.
  - destruct b as [s|[|]| |s m e H0]; try discriminate;
    destruct t as [s'|[|]| |s' m' e' H0']; try discriminate; apply dle_refl; exact Hnb.
  - destruct b as [s|[|]| |s m e H0]; try discriminate;
    destruct t as [s'|[|]| |s' m' e' H0']; try discriminate; apply dle_refl; exact Hnb.
Qed.

Lemma dle_dsub_l b t : dle dzero t = true -> nn (dsub b t) -> dle (dsub b t) b = true.
Proof.
  intros Ht Hn. destruct (dle_nn _ _ Ht) as [_ Hnt]. apply dle_E in Ht; auto; [|reflexivity].
  change (E dzero) with 0%R in Ht. pose proof M_pos.
  assert (nn b) as Hnb. { destruct b; try reflexivity. change (true = false) in Hn. discriminate Hn. }
  destruct (is_fin b) eqn:Fb; destruct (is_fin t) eqn:Ft.
  - destruct (dsub_E b t Fb Ft) as [_ HE]. apply dle_E; auto. rewrite HE.
    apply Rle_trans with (clamp (rd (E b))).
    + apply clamp_mono, rd_mono. lra.
    + rewrite (E_fin b Fb), rd_B2R, clamp_id. lra. pose proof (E_fin_bound b Fb) as Hb. rewrite E_fin in Hb by auto. lra.
  - destruct t as [s|[|]| |s m e H0]; try discriminate; cbn in Ht; [lra|].
    apply dle_E; auto.
    assert (dsub b (B754_infinity false) = B754_infinity true) as -> by (destruct b; try discriminate; reflexivity).
    cbn [E]. apply E_bound.
  - destruct b as [s|[|]| |s m e H0]; try discriminate;
    destruct t as [s'|[|]| |s' m' e' H0']; try discriminate; apply dle_refl; exact Hnb.
  - destruct b as [s|[|]| |s m e H0]; try discriminate;
    destruct t as [s'|[|]| |s' m' e' H0']; try discriminate; apply dle_refl; exact Hnb.
Qed.
