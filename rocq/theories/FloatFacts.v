(** FloatFacts.v - rounding facts about binary32 and the conversions between float and double. *)
From Coq Require Import ZArith Reals Lra Lia.
From Flocq Require Import Core IEEE754.BinarySingleNaN Relative.
From Verif Require Import Base Double DoubleFacts Float.

Definition fe := SpecFloat.fexp 24 128.
Definition rf (x : R) : R := round radix2 fe ZnearestE x.
Global Instance fe_valid : Valid_exp fe. Proof. apply fexp_correct. apply Fprec. Qed.
Local Notation u24 := (bpow radix2 (-24)).
Local Notation t150 := (bpow radix2 (-150)).

Lemma rf_err x : (Rabs (rf x - x) <= bpow radix2 (-24) * Rabs x + bpow radix2 (-150))%R.
Proof.
  destruct (error_N_FLT radix2 (-149) 24 eq_refl (fun x => negb (Z.even x)) x) as (eps & eta & A & B & _ & E).
  change (round radix2 (FLT_exp (-149) 24) (Znearest (fun x0 => negb (Z.even x0))) x) with (rf x) in E.
  rewrite E. replace (x * (1 + eps) + eta - x)%R with (x * eps + eta)%R by ring.
  eapply Rle_trans; [apply Rabs_triang|]. rewrite Rabs_mult.
  assert (H1 : (/ 2 * bpow radix2 (-24 + 1) = bpow radix2 (-24))%R) by (rewrite bpow_plus; change (bpow radix2 1) with 2%R; field).
  assert (H2 : (/ 2 * bpow radix2 (-149) = bpow radix2 (-150))%R) by (change (-150)%Z with (-149 + -1)%Z; rewrite bpow_plus; change (bpow radix2 (-1)) with (/ 2)%R; ring).
  change (- (24) + 1)%Z with (-24 + 1)%Z in A. rewrite H1 in A. rewrite H2 in B. apply Rplus_le_compat; [|exact B]. rewrite Rmult_comm. apply Rmult_le_compat_r; [apply Rabs_pos|exact A].
Qed.
Lemma rd_rel x : (Rabs (rd x - x) <= bpow radix2 (-53) * Rabs x + bpow radix2 (-1075))%R.
Proof.
  destruct (error_N_FLT radix2 (-1074) 53 eq_refl (fun x => negb (Z.even x)) x) as (eps & eta & A & B & _ & E).
  change (round radix2 (FLT_exp (-1074) 53) (Znearest (fun x0 => negb (Z.even x0))) x) with (rd x) in E.
  rewrite E. replace (x * (1 + eps) + eta - x)%R with (x * eps + eta)%R by ring.
  eapply Rle_trans; [apply Rabs_triang|]. rewrite Rabs_mult.
  assert (H1 : (/ 2 * bpow radix2 (-53 + 1) = bpow radix2 (-53))%R) by (rewrite bpow_plus; change (bpow radix2 1) with 2%R; field).
  assert (H2 : (/ 2 * bpow radix2 (-1074) = bpow radix2 (-1075))%R) by (change (-1075)%Z with (-1074 + -1)%Z; rewrite bpow_plus; change (bpow radix2 (-1)) with (/ 2)%R; ring).
  change (- (53) + 1)%Z with (-53 + 1)%Z in A. rewrite H1 in A. rewrite H2 in B. apply Rplus_le_compat; [|exact B]. rewrite Rmult_comm. apply Rmult_le_compat_r; [apply Rabs_pos|exact A].
Qed.
Lemma rf_mono a b : (a <= b)%R -> (rf a <= rf b)%R.
Proof. intros. apply round_le; auto with typeclass_instances. Qed.
(** No overflow below 2^100. *)
Lemma rf_small x : (Rabs x <= bpow radix2 100)%R -> Rlt_bool (Rabs (rf x)) (bpow radix2 128) = true.
Proof.
  intros H. apply Rlt_bool_true. pose proof (rf_err x) as E.
  assert (H1 : (bpow radix2 (-24) <= 1)%R) by (change 1%R with (bpow radix2 0); apply bpow_le; lia).
  assert (H2 : (bpow radix2 (-150) <= 1)%R) by (change 1%R with (bpow radix2 0); apply bpow_le; lia).
  assert (H3 : (bpow radix2 128 = bpow radix2 100 * bpow radix2 28)%R) by (rewrite <- bpow_plus; reflexivity).
  assert (H4 : (1 <= bpow radix2 100)%R) by (change 1%R with (bpow radix2 0); apply bpow_le; lia).
  assert (H5 : (4 <= bpow radix2 28)%R) by (change 4%R with (bpow radix2 2); apply bpow_le; lia).
  pose proof (Rabs_triang (rf x - x) x) as T. replace (rf x - x + x)%R with (rf x) in T by ring.
  pose proof (Rabs_pos x). pose proof (bpow_gt_0 radix2 (-24)).
  assert (bpow radix2 (-24) * Rabs x <= Rabs x)%R by nra. rewrite H3. nra.
Qed.
Lemma rd_small x : (Rabs x <= bpow radix2 100)%R -> Rlt_bool (Rabs (rd x)) (bpow radix2 1024) = true.
Proof.
  intros H. apply Rlt_bool_true. pose proof (rd_rel x) as E.
  assert (H1 : (bpow radix2 (-53) <= 1)%R) by (change 1%R with (bpow radix2 0); apply bpow_le; lia).
  assert (H2 : (bpow radix2 (-1075) <= 1)%R) by (change 1%R with (bpow radix2 0); apply bpow_le; lia).
  assert (H3 : (bpow radix2 102 <= bpow radix2 1024)%R) by (apply bpow_le; lia).
  assert (H4 : (1 <= bpow radix2 100)%R) by (change 1%R with (bpow radix2 0); apply bpow_le; lia).
  assert (H5 : (bpow radix2 102 = 4 * bpow radix2 100)%R) by (change 102%Z with (2 + 100)%Z; rewrite bpow_plus; reflexivity).
  pose proof (Rabs_triang (rd x - x) x) as T. replace (rd x - x + x)%R with (rd x) in T by ring.
  pose proof (Rabs_pos x). pose proof (bpow_gt_0 radix2 (-53)).
  assert (bpow radix2 (-53) * Rabs x <= Rabs x)%R by nra. lra.
Qed.

Lemma fZ_R z : (Z.abs z <= 2 ^ 24)%Z -> is_finite (fZ z) = true /\ B2R (fZ z) = IZR z.
Proof.
  intros H. pose proof (binary_normalize_correct 24 128 Fprec Fmax mode_NE z 0 false) as C. cbv zeta in C.
  change (round radix2 (SpecFloat.fexp 24 128) (round_mode mode_NE) (F2R (Float radix2 z 0))) with (rf (F2R (Float radix2 z 0))) in C.
  assert (F : F2R (Float radix2 z 0) = IZR z) by (unfold F2R; cbn [Fnum Fexp bpow]; ring). rewrite F in C.
  assert (B : (Rabs (IZR z) <= bpow radix2 100)%R).
  { rewrite <- abs_IZR. apply Rle_trans with (IZR (2 ^ 24)); [apply IZR_le, H|]. change (IZR (2 ^ 24)) with (bpow radix2 24). apply bpow_le. lia. }
  rewrite (rf_small _ B) in C. destruct C as (C1 & C2 & _). fold (fZ z) in C1, C2. split; [exact C2|].
  rewrite C1. apply round_generic; auto with typeclass_instances. rewrite <- F.
  apply generic_format_FLT. destruct (Z.eq_dec (Z.abs z) (2 ^ 24)) as [Q|Q].
  - exists (Float radix2 (z / 2) 1).
    + unfold F2R. cbn [Fnum Fexp]. change (bpow radix2 1) with 2%R. change (bpow radix2 0) with 1%R. rewrite Rmult_1_r.
      rewrite <- mult_IZR. f_equal. assert (z = 2 ^ 24 \/ z = - 2 ^ 24)%Z as [->| ->] by lia; reflexivity.
    + cbn [Fnum]. change (radix2 ^ 24)%Z with (2 ^ 24)%Z. assert (z = 2 ^ 24 \/ z = - 2 ^ 24)%Z as [->| ->] by lia; vm_compute; reflexivity.
    + cbn [Fexp]. unfold SpecFloat.emin. lia.
  - exists (Float radix2 z 0); [reflexivity| |].
    + cbn [Fnum]. change (radix2 ^ 24)%Z with (2 ^ 24)%Z. lia.
    + cbn [Fexp]. unfold SpecFloat.emin. lia.
Qed.
Lemma fdiv_R a b : is_finite a = true -> is_finite b = true -> B2R b <> 0%R -> (Rabs (B2R a / B2R b) <= bpow radix2 100)%R ->
  is_finite (fdiv a b) = true /\ B2R (fdiv a b) = rf (B2R a / B2R b).
Proof.
  intros FA FB NZ H. pose proof (Bdiv_correct 24 128 Fprec Fmax mode_NE a b NZ) as C.
  change (round radix2 (SpecFloat.fexp 24 128) (round_mode mode_NE) (B2R a / B2R b)) with (rf (B2R a / B2R b)) in C.
  rewrite (rf_small _ H) in C. destruct C as (C1 & C2 & _). unfold fdiv. split; [rewrite C2; exact FA|exact C1].
Qed.
Lemma fsub_R a b : is_finite a = true -> is_finite b = true -> (Rabs (B2R a - B2R b) <= bpow radix2 100)%R ->
  is_finite (fsub a b) = true /\ B2R (fsub a b) = rf (B2R a - B2R b).
Proof.
  intros FA FB H. pose proof (Bminus_correct 24 128 Fprec Fmax mode_NE a b FA FB) as C.
  change (round radix2 (SpecFloat.fexp 24 128) (round_mode mode_NE) (B2R a - B2R b)) with (rf (B2R a - B2R b)) in C.
  rewrite (rf_small _ H) in C. destruct C as (C1 & C2 & _). split; assumption.
Qed.
Lemma ddiv_R a b : is_fin a = true -> is_fin b = true -> B2R b <> 0%R -> (Rabs (B2R a / B2R b) <= bpow radix2 100)%R ->
  is_fin (ddiv a b) = true /\ B2R (ddiv a b) = rd (B2R a / B2R b).
Proof.
  intros FA FB NZ H. pose proof (Bdiv_correct 53 1024 Hprec Hemax mode_NE a b NZ) as C.
  change (round radix2 (SpecFloat.fexp 53 1024) (round_mode mode_NE) (B2R a / B2R b)) with (rd (B2R a / B2R b)) in C.
  rewrite (rd_small _ H) in C. destruct C as (C1 & C2 & _). unfold ddiv. split; [unfold is_fin; rewrite C2; exact FA|exact C1].
Qed.
Lemma dsub_R a b : is_fin a = true -> is_fin b = true -> (Rabs (B2R a - B2R b) <= bpow radix2 100)%R ->
  is_fin (dsub a b) = true /\ B2R (dsub a b) = rd (B2R a - B2R b).
Proof.
  intros FA FB H. pose proof (Bminus_correct 53 1024 Hprec Hemax mode_NE a b FA FB) as C.
  change (round radix2 (SpecFloat.fexp 53 1024) (round_mode mode_NE) (B2R a - B2R b)) with (rd (B2R a - B2R b)) in C.
  rewrite (rd_small _ H) in C. destruct C as (C1 & C2 & _). split; assumption.
Qed.
Lemma to_float_R d : is_fin d = true -> (Rabs (B2R d) <= bpow radix2 100)%R ->
  is_finite (to_float d) = true /\ B2R (to_float d) = rf (B2R d).
Proof.
  intros F H. destruct d as [s|s| |s m e V]; try discriminate.
  - split; [reflexivity|]. cbn [to_float B2R]. symmetry. apply round_0; auto with typeclass_instances.
  - cbn [to_float]. pose proof (binary_normalize_correct 24 128 Fprec Fmax mode_NE (cond_Zopp s (Zpos m)) e s) as C. cbv zeta in C.
    change (F2R (Float radix2 (cond_Zopp s (Zpos m)) e)) with (B2R (B754_finite s m e V : double)) in C.
    set (x := B2R (B754_finite s m e V : double)) in *.
    change (round radix2 (SpecFloat.fexp 24 128) (round_mode mode_NE) x) with (rf x) in C.
    rewrite (rf_small _ H) in C. destruct C as (C1 & C2 & _). split; assumption.
Qed.
Lemma to_double_R f : is_finite f = true -> is_fin (to_double f) = true /\ B2R (to_double f) = B2R f.
Proof.
  intros F. destruct f as [s|s| |s m e V]; try discriminate.
  - split; reflexivity.
  - cbn [to_double]. pose proof (binary_normalize_correct 53 1024 Hprec Hemax mode_NE (cond_Zopp s (Zpos m)) e s) as C. cbv zeta in C.
    change (F2R (Float radix2 (cond_Zopp s (Zpos m)) e)) with (B2R (B754_finite s m e V : float)) in C.
    pose proof (abs_B2R_lt_emax 24 128 (B754_finite s m e V)) as LT.
    pose proof (generic_format_B2R 24 128 (B754_finite s m e V)) as G.
    set (x := B2R (B754_finite s m e V : float)) in *. clearbody x.
    assert (R1 : round radix2 (SpecFloat.fexp 53 1024) (round_mode mode_NE) x = x).
    { apply round_generic; [auto with typeclass_instances|]. 
      apply (generic_inclusion_mag radix2 fe fx); [|exact G].
      intros _. unfold fe, fx, SpecFloat.fexp, SpecFloat.emin. lia. }
    rewrite R1 in C. rewrite Rlt_bool_true in C; [destruct C as (C1 & C2 & _); split; assumption|].
    apply Rlt_le_trans with (1 := LT). apply bpow_le. lia.
Qed.
