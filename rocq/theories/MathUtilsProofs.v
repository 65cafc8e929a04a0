(** MathUtilsProofs.v - lemmas about MathUtils.v. *)
From Coq Require Import ZArith Reals Lra.
From Coq Require Import Floats.SpecFloat.
From Flocq Require Import Core IEEE754.BinarySingleNaN.
From Verif Require Import Base Double DoubleFacts MathUtils.

Lemma larger_gt a b t : dle dzero t = true -> larger a b t = true -> dlt b a = true.
Proof.
  unfold larger, dgt. intros Ht H. destruct (dlt_nn _ _ H) as [Hn _].
  eapply dle_lt_trans; [apply dle_dadd_r; eassumption|exact H].
Qed.
Lemma smaller_lt a b t : dle dzero t = true -> smaller a b t = true -> dlt a b = true.
Proof.
  unfold smaller. intros Ht H. destruct (dlt_nn _ _ H) as [_ Hn].
  eapply dlt_le_trans; [exact H|apply dle_dsub_l; eassumption].
Qed.
Lemma larger_irrefl a t : dle dzero t = true -> larger a a t = false.
Proof. intros Ht. destruct (larger a a t) eqn:H; auto. apply larger_gt in H; auto.
  rewrite dlt_irrefl in H. discriminate. Qed.
Lemma smaller_irrefl a t : dle dzero t = true -> smaller a a t = false.
Proof. intros Ht. destruct (smaller a a t) eqn:H; auto. apply smaller_lt in H; auto.
  rewrite dlt_irrefl in H. discriminate. Qed.
Lemma larger_asym a b t : dle dzero t = true -> larger a b t = true -> larger b a t = false.
Proof. intros Ht H. destruct (larger b a t) eqn:H2; auto. apply larger_gt in H, H2; auto.
  apply dlt_asym in H. congruence. Qed.
Lemma smaller_asym a b t : dle dzero t = true -> smaller a b t = true -> smaller b a t = false.
Proof. intros Ht H. destruct (smaller b a t) eqn:H2; auto. apply smaller_lt in H, H2; auto.
  apply dlt_asym in H. congruence. Qed.
Lemma larger_trans a b c t : dle dzero t = true ->
  larger a b t = true -> larger b c t = true -> larger a c t = true.
Proof. intros Ht H1 H2. apply larger_gt in H1; auto. unfold larger, dgt in *.
  eapply dlt_trans; eassumption. Qed.
Lemma smaller_trans a b c t : dle dzero t = true ->
  smaller a b t = true -> smaller b c t = true -> smaller a c t = true.
Proof. intros Ht H1 H2. apply smaller_lt in H1; auto. unfold smaller in *.
  eapply dlt_trans; eassumption. Qed.
Lemma smaller_larger_excl a b t : dle dzero t = true ->
  smaller a b t = true -> larger a b t = false.
Proof. intros Ht H1. destruct (larger a b t) eqn:H2; auto.
  apply larger_gt in H2; auto. apply smaller_lt in H1; auto. apply dlt_asym in H1. congruence. Qed.

Lemma fin_dadd_nn x y : is_fin x = true -> is_fin y = true -> nn (dadd x y).
Proof. intros; apply dadd_E; auto. Qed.
Lemma fin_dsub_nn x y : is_fin x = true -> is_fin y = true -> nn (dsub x y).
Proof. intros; apply dsub_E; auto. Qed.
(** With a finite tolerance, only NaN operands make the result of [+]/[-] NaN. *)
Lemma dadd_fin_r_nn x y : nn x -> is_fin y = true -> nn (dadd x y).
Proof. intros Hx Hy. destruct (is_fin x) eqn:F; [apply fin_dadd_nn; auto|].
  destruct x; try discriminate; destruct y; try discriminate; reflexivity. Qed.
Lemma dsub_fin_r_nn x y : nn x -> is_fin y = true -> nn (dsub x y).
Proof. intros Hx Hy. destruct (is_fin x) eqn:F; [apply fin_dsub_nn; auto|].
  destruct x; try discriminate; destruct y; try discriminate; reflexivity. Qed.

Lemma equalOrSmaller_not_larger a b t : nn a -> nn b -> is_fin t = true ->
  equalOrSmaller a b t = negb (larger a b t).
Proof. intros. unfold equalOrSmaller, larger, dgt. apply dle_negb_dlt; auto. apply dadd_fin_r_nn; auto. Qed.
Lemma equalOrLarger_not_smaller a b t : nn a -> nn b -> is_fin t = true ->
  equalOrLarger a b t = negb (smaller a b t).
Proof. intros. unfold equalOrLarger, smaller, dge. apply dle_negb_dlt; auto. apply dsub_fin_r_nn; auto. Qed.

(** minimum / maximum *)
Lemma minimum_cases a b : minimum a b = a \/ minimum a b = b.
Proof. unfold minimum. destruct (dlt b a); auto. Qed.
Lemma maximum_cases a b : maximum a b = a \/ maximum a b = b.
Proof. unfold maximum. destruct (dlt a b); auto. Qed.
Lemma minimum_nn a b : nn a -> nn b -> nn (minimum a b).
Proof. unfold minimum. destruct (dlt b a); auto. Qed.
Lemma maximum_nn a b : nn a -> nn b -> nn (maximum a b).
Proof. unfold maximum. destruct (dlt a b); auto. Qed.
Lemma minimum_le_l a b : nn a -> nn b -> dle (minimum a b) a = true.
Proof. intros. unfold minimum. destruct (dlt b a) eqn:H1. apply dlt_dle; auto. apply dle_refl; auto. Qed.
Lemma minimum_le_r a b : nn a -> nn b -> dle (minimum a b) b = true.
Proof. intros. unfold minimum. destruct (dlt b a) eqn:H1. apply dle_refl; auto.
  apply dlt_Ef in H1; auto. apply dle_E; auto. Qed.
Lemma maximum_ge_l a b : nn a -> nn b -> dle a (maximum a b) = true.
Proof. intros. unfold maximum. destruct (dlt a b) eqn:H1. apply dlt_dle; auto. apply dle_refl; auto. Qed.
Lemma maximum_ge_r a b : nn a -> nn b -> dle b (maximum a b) = true.
Proof. intros. unfold maximum. destruct (dlt a b) eqn:H1. apply dle_refl; auto.
  apply dlt_Ef in H1; auto. apply dle_E; auto. Qed.
Lemma minimum_E a b : nn a -> nn b -> E (minimum a b) = Rmin (E a) (E b).
Proof. intros. unfold minimum. destruct (dlt b a) eqn:H1.
  - apply dlt_E in H1; auto. unfold Rmin; destruct (Rle_dec _ _); lra.
  - apply dlt_Ef in H1; auto. unfold Rmin; destruct (Rle_dec _ _); lra. Qed.
Lemma maximum_E a b : nn a -> nn b -> E (maximum a b) = Rmax (E a) (E b).
Proof. intros. unfold maximum. destruct (dlt a b) eqn:H1.
  - apply dlt_E in H1; auto. unfold Rmax; destruct (Rle_dec _ _); lra.
  - apply dlt_Ef in H1; auto. unfold Rmax; destruct (Rle_dec _ _); lra. Qed.
Lemma minimum_glb a b c : dle c a = true -> dle c b = true -> dle c (minimum a b) = true.
Proof. intros. unfold minimum. destruct (dlt b a); auto. Qed.
Lemma maximum_lub a b c : dle a c = true -> dle b c = true -> dle (maximum a b) c = true.
Proof. intros. unfold maximum. destruct (dlt a b); auto. Qed.

Lemma minimum3_spec a b c : nn a -> nn b -> nn c ->
  In (minimum3 a b c) [a; b; c] /\ Forall (fun x => dle (minimum3 a b c) x = true) [a; b; c].
Proof.
  intros Ha Hb Hc. unfold minimum3.
  pose proof (minimum_nn a b Ha Hb) as Hab.
  split.
  - destruct (minimum_cases (minimum a b) c) as [->| ->]; [|cbn; auto].
    destruct (minimum_cases a b) as [->| ->]; cbn; auto.
  - pose proof (minimum_le_l (minimum a b) c Hab Hc) as H1.
    repeat constructor.
    + eapply dle_trans; [exact H1|apply minimum_le_l; auto].
    + eapply dle_trans; [exact H1|apply minimum_le_r; auto].
    + apply minimum_le_r; auto.
Qed.
Lemma maximum3_spec a b c : nn a -> nn b -> nn c ->
  In (maximum3 a b c) [a; b; c] /\ Forall (fun x => dle x (maximum3 a b c) = true) [a; b; c].
Proof.
  intros Ha Hb Hc. unfold maximum3.
  pose proof (maximum_nn a b Ha Hb) as Hab.
  split.
  - destruct (maximum_cases (maximum a b) c) as [->| ->]; [|cbn; auto].
    destruct (maximum_cases a b) as [->| ->]; cbn; auto.
  - pose proof (maximum_ge_l (maximum a b) c Hab Hc) as H1.
    repeat constructor.
    + eapply dle_trans; [|exact H1]. apply maximum_ge_l; auto.
    + eapply dle_trans; [|exact H1]. apply maximum_ge_r; auto.
    + apply maximum_ge_r; auto.
Qed.
Lemma minimum4_spec a b c d : nn a -> nn b -> nn c -> nn d ->
  In (minimum4 a b c d) [a; b; c; d] /\ Forall (fun x => dle (minimum4 a b c d) x = true) [a; b; c; d].
Proof.
  intros Ha Hb Hc Hd. unfold minimum4.
  pose proof (minimum_nn a b Ha Hb) as Hab. pose proof (minimum_nn c d Hc Hd) as Hcd.
  split.
  - destruct (minimum_cases (minimum a b) (minimum c d)) as [->| ->].
    + destruct (minimum_cases a b) as [->| ->]; cbn; auto.
    + destruct (minimum_cases c d) as [->| ->]; cbn; auto.
  - pose proof (minimum_le_l _ _ Hab Hcd) as H1. pose proof (minimum_le_r _ _ Hab Hcd) as H2.
    repeat constructor.
    + eapply dle_trans; [exact H1|apply minimum_le_l; auto].
    + eapply dle_trans; [exact H1|apply minimum_le_r; auto].
    + eapply dle_trans; [exact H2|apply minimum_le_l; auto].
    + eapply dle_trans; [exact H2|apply minimum_le_r; auto].
Qed.
Lemma maximum4_spec a b c d : nn a -> nn b -> nn c -> nn d ->
  In (maximum4 a b c d) [a; b; c; d] /\ Forall (fun x => dle x (maximum4 a b c d) = true) [a; b; c; d].
Proof.
  intros Ha Hb Hc Hd. unfold maximum4.
  pose proof (maximum_nn a b Ha Hb) as Hab. pose proof (maximum_nn c d Hc Hd) as Hcd.
  split.
  - destruct (maximum_cases (maximum a b) (maximum c d)) as [->| ->].
    + destruct (maximum_cases a b) as [->| ->]; cbn; auto.
    + destruct (maximum_cases c d) as [->| ->]; cbn; auto.
  - pose proof (maximum_ge_l _ _ Hab Hcd) as H1. pose proof (maximum_ge_r _ _ Hab Hcd) as H2.
    repeat constructor.
    + eapply dle_trans; [|exact H1]. apply maximum_ge_l; auto.
    + eapply dle_trans; [|exact H1]. apply maximum_ge_r; auto.
    + eapply dle_trans; [|exact H2]. apply maximum_ge_l; auto.
    + eapply dle_trans; [|exact H2]. apply maximum_ge_r; auto.
Qed.

(** Rounding to decimals is monotone. *)
Lemma dmul_E x y : is_fin x = true -> is_fin y = true -> (0 < E y)%R ->
  nn (dmul x y) /\ E (dmul x y) = clamp (rd (E x * E y)).
Proof.
  intros Fx Fy Hy. rewrite (E_fin x) by assumption. rewrite (E_fin y) in * by assumption.
  pose proof (Bmult_correct 53 1024 Hprec Hemax mode_NE x y) as H.
  change (round radix2 (SpecFloat.fexp 53 1024) (round_mode mode_NE) (B2R x * B2R y)) with (rd (B2R x * B2R y)) in H.
  rewrite M_eq in H. change (Bmult mode_NE x y) with (dmul x y) in H.
  destruct (Rlt_bool_spec (Rabs (rd (B2R x * B2R y))) M) as [Hlt|Hge].
  - destruct H as (Hr & Hf & _). unfold is_fin in Fx, Fy. rewrite Fx, Fy in Hf. split; [apply fin_nn; exact Hf|].
    rewrite E_fin by exact Hf. rewrite Hr. apply Rabs_lt_inv in Hlt.
    rewrite clamp_id; lra.
  - unfold binary_overflow in H. cbn in H. apply inf_of_SF in H.
    rewrite H. split; [reflexivity|].
    pose proof M_pos.
    assert (Bsign y = false) as Sy.
    { destruct (Bsign y) eqn:Sy; auto. pose proof (Bsign_fin_neg y Fy Sy). lra. }
    rewrite Sy, xorb_false_r.
    destruct (Bsign x) eqn:Sx; cbn [E].
    + pose proof (Bsign_fin_neg x Fx Sx).
      assert (rd (B2R x * B2R y) <= 0)%R by (rewrite <- rd_0; apply rd_mono; nra).
      rewrite Rabs_left1 in Hge by assumption.
      unfold clamp, Rmax, Rmin; repeat destruct (Rle_dec _ _); lra.
    + pose proof (Bsign_fin_pos x Fx Sx).
      assert (0 <= rd (B2R x * B2R y))%R by (rewrite <- rd_0; apply rd_mono; nra).
      rewrite Rabs_pos_eq in Hge by assumption.
      unfold clamp, Rmax, Rmin; repeat destruct (Rle_dec _ _); lra.
Qed.

Lemma inf_nn_cases x : nn x -> is_fin x = false -> x = B754_infinity true \/ x = B754_infinity false.
Proof. destruct x as [s|[|]| |s m e H]; cbn; intros; try discriminate; auto. Qed.

Lemma pos_sign_form y : is_fin y = true -> (0 < E y)%R ->
  exists m e H, y = B754_finite false m e H.
Proof.
  intros Fy Hy. destruct y as [s|s| |s m e H]; try discriminate.
  - cbn in Hy. lra.
  - destruct s.
    + pose proof (Bsign_fin_neg (B754_finite true m e H) eq_refl eq_refl) as Hn. cbn [E] in Hy. lra.
    + eauto.
Qed.
Lemma dmul_inf y s : is_fin y = true -> (0 < E y)%R -> dmul (B754_infinity s) y = B754_infinity s.
Proof. intros Fy Hy. destruct (pos_sign_form y Fy Hy) as (m & e & H & ->). destruct s; reflexivity. Qed.
Lemma ddiv_inf y s : is_fin y = true -> (0 < E y)%R -> ddiv (B754_infinity s) y = B754_infinity s.
Proof. intros Fy Hy. destruct (pos_sign_form y Fy Hy) as (m & e & H & ->). destruct s; reflexivity. Qed.

Lemma dmul_mono a b y : is_fin y = true -> (0 < E y)%R -> dle a b = true ->
  dle (dmul a y) (dmul b y) = true.
Proof.
  intros Fy Hy H. destruct (dle_nn _ _ H) as [Ha Hb].
  destruct (is_fin a) eqn:Fa; destruct (is_fin b) eqn:Fb.
  - destruct (dmul_E a y Fa Fy Hy) as [N1 E1]. destruct (dmul_E b y Fb Fy Hy) as [N2 E2].
    apply dle_E; auto. rewrite E1, E2. apply clamp_mono, rd_mono.
    apply dle_E in H; auto. nra.
  - destruct (dmul_E a y Fa Fy Hy) as [N1 E1].
    destruct (inf_nn_cases b Hb Fb) as [-> | ->].
    + apply dle_E in H; auto. pose proof (E_fin_bound a Fa). cbn [E] in H. lra.
    + rewrite dmul_inf by auto. apply dle_E; auto; try reflexivity. cbn [E]. apply E_bound.
  - destruct (dmul_E b y Fb Fy Hy) as [N1 E1].
    destruct (inf_nn_cases a Ha Fa) as [-> | ->].
    + rewrite dmul_inf by auto. apply dle_E; auto; try reflexivity. cbn [E]. apply E_bound.
    + apply dle_E in H; auto. pose proof (E_fin_bound b Fb). cbn [E] in H. lra.
  - destruct (inf_nn_cases a Ha Fa) as [-> | ->]; destruct (inf_nn_cases b Hb Fb) as [-> | ->];
    rewrite !dmul_inf by auto; exact H.
Qed.
Lemma ddiv_mono a b y : is_fin y = true -> (0 < E y)%R -> dle a b = true ->
  dle (ddiv a y) (ddiv b y) = true.
Proof.
  intros Fy Hy H. destruct (dle_nn _ _ H) as [Ha Hb].
  destruct (is_fin a) eqn:Fa; destruct (is_fin b) eqn:Fb.
  - destruct (ddiv_E a y Fa Fy Hy) as [N1 E1]. destruct (ddiv_E b y Fb Fy Hy) as [N2 E2].
    apply dle_E; auto. rewrite E1, E2. apply clamp_mono, rd_mono.
    apply dle_E in H; auto. apply Rmult_le_compat_r; [|assumption].
    apply Rlt_le, Rinv_0_lt_compat; assumption.
  - destruct (ddiv_E a y Fa Fy Hy) as [N1 E1].
    destruct (inf_nn_cases b Hb Fb) as [-> | ->].
    + apply dle_E in H; auto. pose proof (E_fin_bound a Fa). cbn [E] in H. lra.
    + rewrite ddiv_inf by auto. apply dle_E; auto; try reflexivity. cbn [E]. apply E_bound.
  - destruct (ddiv_E b y Fb Fy Hy) as [N1 E1].
    destruct (inf_nn_cases a Ha Fa) as [-> | ->].
    + rewrite ddiv_inf by auto. apply dle_E; auto; try reflexivity. cbn [E]. apply E_bound.
    + apply dle_E in H; auto. pose proof (E_fin_bound b Fb). cbn [E] in H. lra.
  - destruct (inf_nn_cases a Ha Fa) as [-> | ->]; destruct (inf_nn_cases b Hb Fb) as [-> | ->];
    rewrite !ddiv_inf by auto; exact H.
Qed.

Lemma std_round_fin x : is_fin x = true ->
  is_fin (std_round x) = true /\ E (std_round x) = round radix2 (FIX_exp 0) ZnearestA (E x).
Proof.
  intros Fx. destruct (Bnearbyint_correct 53 1024 Hemax mode_NA x) as (H1 & H2 & _).
  change (Bnearbyint mode_NA x) with (std_round x) in *.
  assert (is_fin (std_round x) = true) as F by (unfold is_fin in *; congruence).
  split; auto. rewrite (E_fin _ F), (E_fin _ Fx). exact H1.
Qed.
Lemma std_round_mono a b : dle a b = true -> dle (std_round a) (std_round b) = true.
Proof.
  intros H. destruct (dle_nn _ _ H) as [Ha Hb].
  destruct (is_fin a) eqn:Fa; destruct (is_fin b) eqn:Fb.
  - destruct (std_round_fin a Fa) as [F1 E1]. destruct (std_round_fin b Fb) as [F2 E2].
    apply dle_E; try apply fin_nn; auto. rewrite E1, E2. apply round_le; auto with typeclass_instances.
    apply dle_E in H; auto.
  - destruct (std_round_fin a Fa) as [F1 E1].
    destruct (inf_nn_cases b Hb Fb) as [-> | ->].
    + apply dle_E in H; auto. pose proof (E_fin_bound a Fa). cbn [E] in H. lra.
    + apply dle_E; [try reflexivity; apply fin_nn; auto|try reflexivity; apply fin_nn; auto|]. change (std_round (B754_infinity false)) with (B754_infinity false : double).
      cbn [E]. apply E_bound.
  - destruct (std_round_fin b Fb) as [F1 E1].
    destruct (inf_nn_cases a Ha Fa) as [-> | ->].
    + apply dle_E; [try reflexivity; apply fin_nn; auto|try reflexivity; apply fin_nn; auto|]. change (std_round (B754_infinity true)) with (B754_infinity true : double).
      cbn [E]. apply E_bound.
    + apply dle_E in H; auto. pose proof (E_fin_bound b Fb). cbn [E] in H. lra.
  - destruct (inf_nn_cases a Ha Fa) as [-> | ->]; destruct (inf_nn_cases b Hb Fb) as [-> | ->]; exact H.
Qed.

Lemma rd_1 : rd 1 = 1%R.
Proof. change 1%R with (bpow radix2 0). apply round_generic; auto with typeclass_instances.
  apply generic_format_bpow. vm_compute. discriminate. Qed.

Lemma rd_bpow e : (-1022 <= e)%Z -> rd (bpow radix2 e) = bpow radix2 e.
Proof.
  intros. apply round_generic; auto with typeclass_instances. apply generic_format_bpow.
  unfold fx, SpecFloat.fexp, SpecFloat.emin. lia.
Qed.
Lemma dZ_pos z : (1 <= z <= 2 ^ 1000)%Z -> is_fin (dZ z) = true /\ (1 <= E (dZ z))%R /\ E (dZ z) = rd (IZR z).
Proof.
  intros Hz. pose proof (binary_normalize_correct 53 1024 Hprec Hemax mode_NE z 0 false) as H. cbv zeta in H.
  change (binary_normalize 53 1024 Hprec Hemax mode_NE z 0 false) with (dZ z) in H.
  assert (F2R (Float radix2 z 0) = IZR z) as HF.
  { unfold F2R; cbn [Fnum Fexp bpow]. lra. }
  rewrite HF in H.
  change (round radix2 (SpecFloat.fexp 53 1024) (round_mode mode_NE) (IZR z)) with (rd (IZR z)) in H.
  assert (1 <= rd (IZR z))%R as H1.
  { rewrite <- rd_1. apply rd_mono. apply IZR_le. lia. }
  assert (rd (IZR z) <= bpow radix2 1000)%R as H2.
  { rewrite <- (rd_bpow 1000) by lia. apply rd_mono.
    rewrite <- (IZR_Zpower radix2 1000) by lia. apply IZR_le. exact (proj2 Hz). }
  assert (bpow radix2 1000 < bpow radix2 1024)%R as H3 by (apply bpow_lt; lia).
  rewrite Rlt_bool_true in H.
  - destruct H as (Hr & Hf & _). change (is_finite (dZ z)) with (is_fin (dZ z)) in Hf.
    rewrite (E_fin _ Hf), Hr. auto.
  - rewrite Rabs_pos_eq by lra. lra.
Qed.

Lemma dround_mono n a b : (0 <= n <= 300)%Z -> dle a b = true -> dle (dround a n) (dround b n) = true.
Proof.
  intros Hn H. unfold dround. destruct (Z.eqb_spec n 0) as [->|Hn0].
  - apply std_round_mono; auto.
  - assert (1 <= 10 ^ n <= 2 ^ 1000)%Z as Hz.
    { split. apply (Z.pow_le_mono_r 10 0 n); lia.
      transitivity (10 ^ 300)%Z. apply Z.pow_le_mono_r; lia. vm_compute. discriminate. }
    destruct (dZ_pos _ Hz) as (F & Hp & _).
    apply ddiv_mono; auto; [lra|]. apply std_round_mono. apply dmul_mono; auto. lra.
Qed.

(** ** What the tolerant comparisons mean for the denoted real numbers *)
Lemma rd_E x : is_fin x = true -> rd (E x) = E x.
Proof. intros H. rewrite E_fin by auto. apply rd_B2R. Qed.
Lemma larger_real a b t : is_fin a = true -> is_fin b = true -> is_fin t = true ->
  larger a b t = true -> (E b + E t <= E a)%R.
Proof.
  intros Fa Fb Ft H. unfold larger, dgt in H. destruct (dadd_E b t Fb Ft) as [Hn HE].
  apply dlt_E in H; auto using fin_nn. rewrite HE in H.
  destruct (Rle_or_lt (E b + E t) (E a)) as [|Hlt]; auto. exfalso.
  assert (rd (E a) <= rd (E b + E t))%R as Hr by (apply rd_mono; lra). rewrite rd_E in Hr by auto.
  apply clamp_mono in Hr. rewrite (clamp_id (E a)) in Hr by apply E_bound. lra.
Qed.
Lemma smaller_real a b t : is_fin a = true -> is_fin b = true -> is_fin t = true ->
  smaller a b t = true -> (E a <= E b - E t)%R.
Proof.
  intros Fa Fb Ft H. unfold smaller in H. destruct (dsub_E b t Fb Ft) as [Hn HE].
  apply dlt_E in H; auto using fin_nn. rewrite HE in H.
  destruct (Rle_or_lt (E a) (E b - E t)) as [|Hlt]; auto. exfalso.
  assert (rd (E b - E t) <= rd (E a))%R as Hr by (apply rd_mono; lra). rewrite rd_E in Hr by auto.
  apply clamp_mono in Hr. rewrite (clamp_id (E a)) in Hr by apply E_bound. lra.
Qed.
Lemma larger_exact a b t : is_fin a = true -> is_fin b = true -> is_fin t = true ->
  E (dadd b t) = (E b + E t)%R -> (larger a b t = true <-> (E b + E t < E a)%R).
Proof.
  intros Fa Fb Ft H. unfold larger, dgt. destruct (dadd_E b t Fb Ft) as [Hn _].
  rewrite dlt_E by auto using fin_nn. rewrite H. reflexivity.
Qed.
Lemma smaller_exact a b t : is_fin a = true -> is_fin b = true -> is_fin t = true ->
  E (dsub b t) = (E b - E t)%R -> (smaller a b t = true <-> (E a < E b - E t)%R).
Proof.
  intros Fa Fb Ft H. unfold smaller. destruct (dsub_E b t Fb Ft) as [Hn _].
  rewrite dlt_E by auto using fin_nn. rewrite H. reflexivity.
Qed.
Lemma clamp_opp r : clamp (- r) = (- clamp r)%R.
Proof. pose proof M_pos. unfold clamp, Rmax, Rmin; repeat destruct (Rle_dec _ _); lra. Qed.
Lemma equal_sym a b t : is_fin a = true -> is_fin b = true -> equal a b t = equal b a t.
Proof.
  intros Fa Fb. unfold equal. destruct (is_nan_d t) eqn:Ht; [unfold dle; rewrite !dle_nan_r; auto|].
  assert (E (dabs (dsub a b)) = E (dabs (dsub b a))) as H.
  { destruct (dsub_E a b Fa Fb) as [N1 H1]. destruct (dsub_E b a Fb Fa) as [N2 H2].
    assert (forall x, nn x -> E (dabs x) = Rabs (E x)) as HA.
    { intros x Hx. pose proof M_pos. destruct x as [s|s| |s m e Hm]; cbn [dabs Babs E].
      - cbn [B2R]. rewrite Rabs_R0. reflexivity.
      - destruct s; [rewrite Rabs_Ropp|]; rewrite Rabs_pos_eq; lra.
      - discriminate Hx.
      - change (B754_finite false m e Hm) with (Babs (B754_finite s m e Hm)). rewrite B2R_Babs. reflexivity. }
    rewrite !HA by auto. rewrite H1, H2. replace (E b - E a)%R with (- (E a - E b))%R by ring.
    rewrite rd_opp, clamp_opp, Rabs_Ropp. reflexivity. }
  assert (nn (dabs (dsub a b))) as N1. { unfold nn, is_nan_d, dabs. rewrite is_nan_Babs. apply fin_dsub_nn; auto. }
  assert (nn (dabs (dsub b a))) as N2. { unfold nn, is_nan_d, dabs. rewrite is_nan_Babs. apply fin_dsub_nn; auto. }
  destruct (dle (dabs (dsub b a)) t) eqn:D.
  - apply dle_E; auto. apply dle_E in D; auto. lra.
  - apply dle_Ef; auto. apply dle_Ef in D; auto. lra.
Qed.

(** ** minimum / maximum as "an element of the list, bounding all of it" *)
Lemma minimum2_list a b : nn a -> nn b ->
  In (minimum a b) [a; b] /\ Forall (fun x => dle (minimum a b) x = true) [a; b].
Proof.
  intros Ha Hb. split.
  - destruct (minimum_cases a b) as [-> | ->]; cbn; auto.
  - repeat apply Forall_cons; try apply Forall_nil; [apply minimum_le_l|apply minimum_le_r]; auto.
Qed.
Lemma maximum2_list a b : nn a -> nn b ->
  In (maximum a b) [a; b] /\ Forall (fun x => dle x (maximum a b) = true) [a; b].
Proof.
  intros Ha Hb. split.
  - destruct (maximum_cases a b) as [-> | ->]; cbn; auto.
  - repeat apply Forall_cons; try apply Forall_nil; [apply maximum_ge_l|apply maximum_ge_r]; auto.
Qed.
