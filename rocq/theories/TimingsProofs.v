(** TimingsProofs.v *)
From Coq Require Import ZArith NArith Reals Lra Permutation.
From Flocq Require Import Core IEEE754.BinarySingleNaN.
From Verif Require Import Base Double DoubleFacts MathUtils MathUtilsProofs GeometrySpec GridProofs Document Serialization SerializationSpec JsonSpec JsonProofs FloatFacts ImagingProofs Cli CliSpec CliProofs Timings TimingsSpec.
Local Open Scope list_scope. Local Open Scope nat_scope.
Local Opaque dadd dsub ddiv dmul dec DBL_MAX DBL_MIN dZ.

(** ** Numerals *)
Lemma value_app acc a c : value acc (a ++ [c]) = (10 * value acc a + (N_of_ascii c - 48))%N.
Proof. revert acc. induction a as [|x a IH]; intros acc; [reflexivity|]. cbn [app value]. apply IH. Qed.
Lemma digit_code n : (n < 10)%N -> N_of_ascii (digit n) = (48 + n)%N.
Proof. intros H. unfold digit. apply N_ascii_embedding. lia. Qed.
Lemma fuel_value fuel : forall n acc, (n < 10 ^ N.of_nat fuel)%N -> fuel <> 0 ->
  exists s, digits_fuel fuel n acc = s ++ acc /\ value 0 s = n /\ s <> [] /\ Forall (fun c => 48 <= N_of_ascii c <= 57)%N s.
Proof.
  induction fuel as [|f IH]; intros n acc Hn Hf; [congruence|]. cbn [digits_fuel].
  assert (Hm : (n mod 10 < 10)%N) by (apply N.mod_lt; lia). pose proof (digit_code _ Hm) as HC. pose proof (N.div_mod n 10 ltac:(discriminate)) as DM.
  destruct (N.eqb_spec (n / 10) 0) as [E|E].
  - exists [digit (n mod 10)]. split; [reflexivity|]. split; [cbn [value]; rewrite HC; lia|]. split; [congruence|]. constructor; [rewrite HC; clear - Hm; set (r := (n mod 10)%N) in *; clearbody r; lia|constructor].
  - rewrite Nat2N.inj_succ, N.pow_succ_r' in Hn.
    assert (Hd : (n / 10 < 10 ^ N.of_nat f)%N) by (apply N.div_lt_upper_bound; [discriminate|exact Hn]).
    assert (Hf0 : f <> 0) by (intros ->; change (10 ^ N.of_nat 0)%N with 1%N in Hd; apply E; apply N.lt_1_r; exact Hd).
    destruct (IH (n / 10)%N (digit (n mod 10) :: acc) Hd Hf0) as (s & E1 & V & NE & F).
    exists (s ++ [digit (n mod 10)]). split; [rewrite E1, <- app_assoc; reflexivity|]. split; [rewrite value_app, V, HC; clear - DM; set (q := (n / 10)%N) in *; set (r := (n mod 10)%N) in *; clearbody q r; lia|].
    split; [destruct s; discriminate|]. apply Forall_app. split; [exact F|]. constructor; [rewrite HC; clear - Hm; set (r := (n mod 10)%N) in *; clearbody r; lia|constructor].
Qed.
Lemma dec_numeral n : numeral (dec_digits n) n.
Proof.
  destruct (fuel_value (S (N.size_nat n)) n []) as (s & E & V & NE & F).
  - pose proof (size_nat_pow n). rewrite Nat2N.inj_succ, N.pow_succ_r'.
    assert (2 ^ N.of_nat (N.size_nat n) <= 10 ^ N.of_nat (N.size_nat n))%N by (apply N.pow_le_mono_l; lia).
    assert (0 < 10 ^ N.of_nat (N.size_nat n))%N by (apply N.neq_0_lt_0, N.pow_nonzero; lia). lia.
  - congruence.
  - rewrite app_nil_r in E. unfold numeral. unfold dec_digits at 1 2 3. rewrite E. split; [exact NE|]. split; [exact F|]. split; [exact V|].
    intros t Ht. destruct (dec_digits_ok n) as (c & t' & E' & _ & _ & HN & HZ). rewrite Ht in E'. injection E' as <- <-.
    destruct (N.eq_dec n 0) as [N0|N0]; [|exfalso; exact (HN N0 eq_refl)]. specialize (HZ N0). injection HZ as ->. reflexivity.
Qed.

(** ** Groups of digits *)
Definition next (gs : list nat) : list nat := match gs with [] => [] | g :: rest => match rest with [] => gs | _ => rest end end.
Lemma size_0 g gs : group_size (g :: gs) 0 = g.
Proof. reflexivity. Qed.
Lemma size_next gs i : group_size (next gs) i = group_size gs (S i).
Proof.
  unfold group_size. destruct gs as [|g [|h gs]]; [cbn; destruct (Nat.min i 0); reflexivity|cbn; rewrite !Nat.min_0_r; reflexivity|].
  cbn [next length]. replace (S (length gs) - 1) with (length gs) by lia. replace (S (S (length gs)) - 1) with (S (length gs)) by lia.
  cbn [Nat.min]. reflexivity.
Qed.
Lemma intercalate_app sep a b : a <> [] -> intercalate sep (a ++ [b]) = intercalate sep a ++ sep ++ b.
Proof.
  induction a as [|x a IH]; intros H; [congruence|]. destruct a as [|y a]; [cbn; rewrite ?app_nil_r, ?app_assoc; reflexivity|].
  change ((x :: y :: a) ++ [b]) with (x :: ((y :: a) ++ [b])). cbn [intercalate app]. cbn [intercalate app] in IH. rewrite IH by discriminate. rewrite <- !app_assoc. reflexivity.
Qed.
Lemma grouped_ok l : forall n gs ds, length ds <= n -> ds <> [] -> with_separators (mkLocale (lc_point l) (lc_sep l) gs) ds (grouped n gs (lc_sep l) ds).
Proof.
  assert (ONE : forall gs ds, ds <> [] -> (group_size gs 0 = 0 \/ length ds <= group_size gs 0) -> with_separators (mkLocale (lc_point l) (lc_sep l) gs) ds ds).
  { intros gs ds ND H. exists [ds]. cbn [concat intercalate rev app length lc_groups lc_sep]. rewrite app_nil_r. split; [discriminate|]. split; [reflexivity|]. split; [reflexivity|].
    intros i g E. destruct i as [|[|i]]; cbn in E; try discriminate. injection E as <-. split; [lia|]. intros _. split; [destruct ds; [congruence|cbn; lia]|exact H]. }
  induction n as [|n IH]; intros gs ds L ND; [destruct ds; [congruence|cbn in L; lia]|]. cbn [grouped].
  destruct gs as [|g rest]; [apply ONE; [exact ND|left; reflexivity]|].
  destruct ((0 <? g) && (g <? length ds)) eqn:C; [|apply ONE; [exact ND|]; rewrite size_0; apply andb_false_iff in C as [C|C]; rewrite Nat.ltb_ge in C; lia].
  apply andb_true_iff in C as [C1 C2]. rewrite Nat.ltb_lt in C1, C2. set (k := length ds - g).
  assert (LF : length (firstn k ds) = k) by (rewrite firstn_length; lia).
  assert (ND' : firstn k ds <> []) by (intros E; rewrite E in LF; cbn in LF; lia).
  destruct (IH (next (g :: rest)) (firstn k ds)) as (groups & NG & CG & SG & FG); [lia|exact ND'|].
  cbn [lc_groups lc_sep] in *. change (match rest with [] => g :: rest | _ :: _ => rest end) with (next (g :: rest)).
  exists (groups ++ [skipn k ds]). cbn [lc_groups lc_sep]. split; [destruct groups; discriminate|]. split; [rewrite concat_app, CG; cbn; rewrite app_nil_r; apply firstn_skipn|].
  split; [rewrite intercalate_app by exact NG; rewrite <- SG; reflexivity|].
  intros i gr E. rewrite rev_app_distr in E. cbn [rev app] in E. rewrite app_length. cbn [length]. destruct i as [|i].
  - cbn in E. injection E as <-. rewrite skipn_length. rewrite size_0. destruct groups; [congruence|]. cbn [length]. split; [intros _|]; lia.
  - cbn [nth_error] in E. destruct (FG i gr E) as [F1 F2]. rewrite size_next in F1, F2. split; intros H; [apply F1; lia|apply F2; lia].
Qed.
Lemma group_ok l ds : ds <> [] -> with_separators l ds (group l ds).
Proof. intros H. destruct l as [p s gs]. unfold group. cbn [lc_groups lc_sep]. exact (grouped_ok (mkLocale p s gs) (length ds) gs ds (le_n _) H). Qed.
Lemma written_ok l n : written l n (group l (dec_digits n)).
Proof. exists (dec_digits n). pose proof (dec_numeral n) as H. split; [exact H|]. apply group_ok. apply H. Qed.
Lemma print_tenths_ok l k : tenths_written l k (print_tenths l false k).
Proof. exists (group l (dec_digits (k / 10))), (dec_digits (k mod 10)). split; [apply written_ok|]. split; [apply dec_numeral|]. reflexivity. Qed.
Lemma print_int_ok l z : (0 <= z)%Z -> written l (Z.to_N z) (print_int l z).
Proof. intros H. unfold print_int. destruct (Z.ltb_spec z 0); [lia|]. rewrite Z.abs_eq by lia. apply written_ok. Qed.
Lemma pad_right_ok n s : filled_after n s (pad_right n s).
Proof. exists (n - length s). split; [reflexivity|]. unfold pad_right. rewrite app_length, repeat_length. lia. Qed.
Lemma pad_left_ok n s : filled_before n s (pad_left n s).
Proof. exists (n - length s). split; [reflexivity|]. unfold pad_left. rewrite app_length, repeat_length. lia. Qed.

(** ** Percentages *)
Lemma ev m e : (0 <= e)%Z -> F2R (Float radix2 (Zpos m) e) = IZR (Z.pos m * 2 ^ e).
Proof. intros H. unfold F2R. cbn [Fnum Fexp]. rewrite mult_IZR. f_equal. rewrite <- IZR_Zpower by exact H. reflexivity. Qed.
Lemma tenths_near m e : (Rabs (IZR (Z.of_N (tenths m e)) - 10 * F2R (Float radix2 (Zpos m) e)) <= / 2)%R.
Proof.
  unfold tenths. destruct (Z.leb_spec 0 e) as [H|H].
  - rewrite ev by exact H. rewrite <- mult_IZR, <- minus_IZR. rewrite N2Z.inj_mul, N2Z.inj_mul, N2Z.inj_pow, Z2N.id by exact H. change (Z.of_N 10) with 10%Z. change (Z.of_N 2) with 2%Z. rewrite positive_N_Z.
    replace (10 * Z.pos m * 2 ^ e - 10 * (Z.pos m * 2 ^ e))%Z with 0%Z by ring. rewrite Rabs_R0. lra.
  - set (b := (2 ^ Z.to_N (- e))%N). set (n := (10 * N.pos m)%N). assert (B0 : (b <> 0)%N) by (apply N.pow_nonzero; lia).
    assert (BP : (0 < IZR (Z.of_N b))%R) by (apply IZR_lt; lia).
    assert (V : (10 * F2R (Float radix2 (Zpos m) e) = IZR (Z.of_N n) / IZR (Z.of_N b))%R).
    { unfold F2R. cbn [Fnum Fexp]. assert (E : bpow radix2 e = (/ IZR (Z.of_N b))%R).
      { unfold b. rewrite N2Z.inj_pow, Z2N.id by lia. replace e with (- - e)%Z at 1 by ring. rewrite bpow_opp. f_equal. rewrite <- IZR_Zpower by lia. reflexivity. }
      rewrite E. unfold n. rewrite N2Z.inj_mul, mult_IZR. change (Z.of_N 10) with 10%Z. rewrite positive_N_Z. field. lra. }
    rewrite V. pose proof (N.div_mod n b B0) as DM. pose proof (N.mod_lt n b B0) as ML. set (q := (n / b)%N) in *. set (r := (n mod b)%N) in *. cbv zeta.
    assert (D : (IZR (Z.of_N n) / IZR (Z.of_N b) = IZR (Z.of_N q) + IZR (Z.of_N r) / IZR (Z.of_N b))%R).
    { rewrite DM at 1. rewrite N2Z.inj_add, N2Z.inj_mul, plus_IZR, mult_IZR. field. lra. }
    rewrite D. assert (RB : forall x y : N, (x <= y)%N -> (IZR (Z.of_N x) <= IZR (Z.of_N y))%R) by (intros; apply IZR_le; lia).
    pose proof (RB 0%N r ltac:(lia)) as R0. change (IZR (Z.of_N 0)) with 0%R in R0.
    assert (HALF : forall x : R, (2 * x <= IZR (Z.of_N b) -> x / IZR (Z.of_N b) <= / 2)%R).
    { intros x Hx. apply Rmult_le_reg_r with (IZR (Z.of_N b)); [exact BP|]. unfold Rdiv. rewrite Rmult_assoc, Rinv_l by lra. lra. }
    assert (POS : (0 <= IZR (Z.of_N r) / IZR (Z.of_N b))%R) by (apply Rmult_le_pos; [exact R0|left; apply Rinv_0_lt_compat; exact BP]).
    assert (UP : (b <= 2 * r)%N -> (Rabs (IZR (Z.of_N (q + 1)) - (IZR (Z.of_N q) + IZR (Z.of_N r) / IZR (Z.of_N b))) <= / 2)%R).
    { intros H2. rewrite N2Z.inj_add, plus_IZR. change (IZR (Z.of_N 1)) with 1%R. pose proof (RB _ _ H2) as H2R. rewrite N2Z.inj_mul, mult_IZR in H2R. change (IZR (Z.of_N 2)) with 2%R in H2R.
      pose proof (RB r b ltac:(lia)) as H3.
      assert (X : ((IZR (Z.of_N b) - IZR (Z.of_N r)) / IZR (Z.of_N b) <= / 2)%R) by (apply HALF; lra).
      assert (Y : (0 <= (IZR (Z.of_N b) - IZR (Z.of_N r)) / IZR (Z.of_N b))%R) by (apply Rmult_le_pos; [lra|left; apply Rinv_0_lt_compat; exact BP]).
      replace ((IZR (Z.of_N b) - IZR (Z.of_N r)) / IZR (Z.of_N b))%R with (1 - IZR (Z.of_N r) / IZR (Z.of_N b))%R in X, Y by (field; lra).
      rewrite Rabs_pos_eq; lra. }
    assert (DN : (2 * r <= b)%N -> (Rabs (IZR (Z.of_N q) - (IZR (Z.of_N q) + IZR (Z.of_N r) / IZR (Z.of_N b))) <= / 2)%R).
    { intros H2. pose proof (RB _ _ H2) as H2R. rewrite N2Z.inj_mul, mult_IZR in H2R. change (IZR (Z.of_N 2)) with 2%R in H2R. pose proof (HALF _ H2R). rewrite Rabs_left1; lra. }
    destruct (N.ltb_spec (2 * r) b); [apply DN; lia|]. destruct (N.ltb_spec b (2 * r)); [apply UP; lia|]. destruct (N.even q); [apply DN; lia|apply UP; lia].
Qed.
(** A non-negative double that is a tenth is printed as that tenth. *)
Lemma print_tenth l nan k d : (0 <= k)%Z -> tenth k d -> Bsign d = false -> print_fixed1 l nan d = print_tenths l false (Z.to_N k).
Proof.
  intros K T S. pose proof (tenth_err _ _ T) as [A _]. destruct T as (_ & F & _). rewrite E_fin in A by exact F. apply Rabs_le_inv in A.
  assert (U : forall n : N, (Rabs (IZR (Z.of_N n) - 10 * B2R d) <= / 2)%R -> n = Z.to_N k).
  { intros n H. apply Rabs_le_inv in H. assert (IZR (Z.of_N n) - IZR k < 1)%R by lra. assert (-1 < IZR (Z.of_N n) - IZR k)%R by lra.
    rewrite <- minus_IZR in *. apply lt_IZR in H0, H1. lia. }
  destruct d as [s|s| |s m e B]; try discriminate; cbn [Bsign] in S; subst s.
  - cbn [print_fixed1]. f_equal. apply U. cbn [B2R]. change (Z.of_N 0) with 0%Z. replace (0 - 10 * 0)%R with 0%R by ring. rewrite Rabs_R0. lra.
  - cbn [print_fixed1]. f_equal. apply U. cbn [B2R]. exact (tenths_near m e).
Qed.
Lemma dZ_sign z : (0 <= z < 2 ^ 53)%Z -> is_fin (dZ z) = true /\ B2R (dZ z) = IZR z /\ Bsign (dZ z) = false.
Proof.
  intros H. Local Transparent dZ. destruct (Z.eq_dec z 0) as [->|N0].
  - split; [reflexivity|]. split; reflexivity.
  - destruct (dZ_exact z) as [F V]; [lia|]. split; [exact F|]. rewrite E_fin in V by exact F. split; [exact V|].
    destruct (Bsign (dZ z)) eqn:S; [|reflexivity]. pose proof (Bsign_fin_neg _ F S) as X. rewrite V in X. apply le_IZR in X. lia.
  Local Opaque dZ.
Qed.

Lemma nn_fin_nan x : is_fin x = true -> is_nan x = false.
Proof. destruct x; [reflexivity|discriminate|discriminate|reflexivity]. Qed.
Lemma mul_sign a b : is_fin a = true -> is_fin b = true -> (Rabs (B2R a * B2R b) <= bpow radix2 100)%R -> Bsign (dmul a b) = xorb (Bsign a) (Bsign b).
Proof.
  intros FA FB H. pose proof (Bmult_correct 53 1024 Hprec Hemax mode_NE a b) as C.
  change (Generic_fmt.round radix2 (SpecFloat.fexp 53 1024) (round_mode mode_NE) (B2R a * B2R b)) with (rd (B2R a * B2R b)) in C.
  rewrite (rd_small _ H) in C. destruct C as (_ & C2 & C3). Local Transparent dmul. unfold dmul. Local Opaque dmul. apply C3. apply nn_fin_nan. unfold is_fin in *. rewrite C2, FA, FB. reflexivity.
Qed.
Lemma div_R a b : is_fin a = true -> is_fin b = true -> B2R b <> 0%R -> (Rabs (B2R a / B2R b) <= bpow radix2 100)%R ->
  is_fin (ddiv a b) = true /\ B2R (ddiv a b) = rd (B2R a / B2R b) /\ Bsign (ddiv a b) = xorb (Bsign a) (Bsign b).
Proof.
  intros FA FB NZ H. pose proof (Bdiv_correct 53 1024 Hprec Hemax mode_NE a b NZ) as C.
  change (Generic_fmt.round radix2 (SpecFloat.fexp 53 1024) (round_mode mode_NE) (B2R a / B2R b)) with (rd (B2R a / B2R b)) in C.
  rewrite (rd_small _ H) in C. destruct C as (C1 & C2 & C3). Local Transparent ddiv. unfold ddiv. Local Opaque ddiv.
  assert (F : is_fin (Bdiv mode_NE a b) = true) by (unfold is_fin in *; rewrite C2; exact FA). split; [exact F|]. split; [exact C1|]. apply C3. apply nn_fin_nan. exact F.
Qed.
Lemma share_ok t total : (0 <= t <= total)%Z -> (0 < total < 2 ^ 53)%Z ->
  exists k, tenth k (percentage t total) /\ (0 <= k)%Z /\ Bsign (percentage t total) = false /\ share t total (Z.to_N k).
Proof.
  intros Ht HT. destruct (dZ_sign t) as (F1 & V1 & S1); [lia|]. destruct (dZ_sign total) as (F2 & V2 & S2); [lia|]. destruct (dZ_sign 100) as (F3 & V3 & S3); [lia|].
  destruct (dZ_sign 10) as (F4 & V4 & S4); [lia|].
  assert (TP : (0 < IZR total)%R) by (apply IZR_lt; lia). assert (T0 : (0 <= IZR t)%R) by (apply IZR_le; lia). assert (TT : (IZR t <= IZR total)%R) by (apply IZR_le; lia).
  set (x := (IZR t / IZR total)%R).
  assert (X : (0 <= x <= 1)%R).
  { unfold x. split; [apply Rmult_le_pos; [exact T0|left; apply Rinv_0_lt_compat; exact TP]|]. apply Rmult_le_reg_r with (IZR total); [exact TP|]. unfold Rdiv. rewrite Rmult_assoc, Rinv_l by lra. lra. }
  pose proof big_is as BIG.
  destruct (div_R (dZ t) (dZ total) F1 F2) as (FQ & VQ & SQ); [rewrite V2; lra|rewrite V1, V2; fold x; rewrite Rabs_pos_eq; lra|].
  rewrite V1, V2 in VQ. fold x in VQ. rewrite S1, S2 in SQ. cbn [xorb] in SQ. set (q := ddiv (dZ t) (dZ total)) in *.
  assert (QN : near q x (2 * u) 1).
  { split; [exact FQ|]. split; [|rewrite Rabs_pos_eq; lra]. rewrite VQ. pose proof (rd_u x) as R. rewrite (Rabs_pos_eq x) in R by lra. unfold u in *. lra. }
  assert (N100 : near (dZ 100) 100 0 100). { split; [exact F3|]. rewrite V3. split; [rewrite Rminus_diag_eq by reflexivity; rewrite Rabs_R0; lra|rewrite Rabs_pos_eq; lra]. }
  pose proof (near_mul _ _ _ _ _ _ _ _ QN N100 ltac:(unfold u; lra)) as PN.
  assert (SP : Bsign (dmul q (dZ 100)) = false).
  { rewrite mul_sign; [rewrite SQ, S3; reflexivity|exact FQ|exact F3|]. pose proof (near_abs _ _ _ _ QN) as AQ. pose proof (near_abs _ _ _ _ N100) as A1. rewrite Rabs_mult.
    eapply Rle_trans; [apply Rmult_le_compat; [apply Rabs_pos|apply Rabs_pos|exact AQ|exact A1]|]. unfold u. lra. }
  set (p := dmul q (dZ 100)) in *.
  assert (PC : (Rabs (B2R p - 100 * x) <= / 10000000)%R). { destruct PN as (_ & P1 & _). replace (100 * x)%R with (x * 100)%R by ring. eapply Rle_trans; [exact P1|]. unfold u. lra. }
  assert (FP : is_fin p = true) by apply PN. assert (AP : (Rabs (B2R p) <= 101)%R). { apply Rabs_le_inv in PC. apply Rabs_le. lra. }
  assert (MO : dle (dabs p) (dZ 100000000) = true).
  { destruct (dZ_exact 100000000) as [F8 E8]; [lia|]. destruct (dabs_E p (fin_nn _ FP)) as (N & V).
    apply dle_E; [exact N|apply fin_nn, F8|]. rewrite V, E8, (E_fin p FP). lra. }
  destruct (dround1_tenth p MO) as (k & TK). destruct (dround1_close p MO) as (FR & C). unfold percentage. fold q. fold p.
  assert (SR : Bsign (dround p 1) = false).
  { unfold dround. cbn [Z.eqb]. change (10 ^ 1)%Z with 10%Z.
    assert (A10 : (Rabs (B2R p * B2R (dZ 10)) <= 1010)%R). { rewrite V4, Rabs_mult, (Rabs_pos_eq 10) by lra. lra. }
    assert (B10 : (Rabs (B2R p * B2R (dZ 10)) <= bpow radix2 100)%R) by lra.
    destruct (dmul_R p (dZ 10) FP F4 B10) as (FM & VM). pose proof (mul_sign p (dZ 10) FP F4 B10) as SM. rewrite SP, S4 in SM. cbn [xorb] in SM.
    set (m := dmul p (dZ 10)) in *. destruct (std_round_fin m FM) as (FS & ES).
    assert (SS : Bsign (std_round m) = false).
    { destruct (Bnearbyint_correct 53 1024 Hemax mode_NA m) as (_ & _ & H3). unfold std_round in *. rewrite H3; [exact SM|]. apply nn_fin_nan. exact FS. }
    destruct (div_R (std_round m) (dZ 10) FS F4) as (_ & _ & SD); [rewrite V4; lra| |rewrite SD, SS, S4; reflexivity].
    rewrite E_fin in ES by exact FS. rewrite round_FIX_IZR in ES. rewrite ES, V4.
    assert (AM : (Rabs (E m) <= 2000)%R). { rewrite E_fin by exact FM. rewrite VM. pose proof (rd_u (B2R p * B2R (dZ 10))) as R. apply Rabs_le_inv in R, A10. unfold u in R. 
      assert (0 <= Rabs (B2R p * B2R (dZ 10)) <= 1010)%R. { split; [apply Rabs_pos|apply Rabs_le; lra]. } apply Rabs_le. lra. }
    pose proof (Znearest_half (Zle_bool 0) (E m)) as ZH. change (Znearest (Zle_bool 0) (E m)) with (ZnearestA (E m)) in ZH. set (zz := IZR (ZnearestA (E m))) in *. clearbody zz. apply Rabs_le_inv in AM, ZH. apply Rabs_le. set (bb := bpow radix2 100) in *. clearbody bb. lra. }
  exists k. assert (CL : (Rabs (IZR k / 10 - 100 * x) <= 50002 / 1000000)%R).
  { destruct (tenth_err _ _ TK) as [A _]. rewrite (E_fin p FP) in C. apply Rabs_le_inv in A, C, PC. apply Rabs_le. lra. }
  assert (K0 : (0 <= k)%Z). { apply Rabs_le_inv in CL. assert (-1 < IZR k)%R by lra. apply lt_IZR in H. lia. }
  split; [exact TK|]. split; [exact K0|]. split; [exact SR|]. unfold share. rewrite Z2N.id by exact K0. fold x. split; [|exact CL].
  apply Rabs_le_inv in CL. assert (IZR k < 1001)%R by lra. apply lt_IZR in H. lia.
Qed.

(** ** The report *)
Lemma total_from (l : list timing) a : (forall t : timing, In t l -> (0 <= snd t)%Z) -> (0 <= a)%Z -> (a + sum (map snd l) < 2 ^ 63)%Z ->
  fold_left (fun acc t => do s <- acc; if fits64 (s + snd t) then Ok (s + snd t)%Z else UB "signed overflow") l (Ok a) = Ok (a + sum (map snd l))%Z.
Proof.
  revert a. induction l as [|t l IH]; intros a P A H; [cbn [fold_left map sum fold_right]; rewrite Z.add_0_r; reflexivity|].
  cbn [map sum fold_right] in H. fold (sum (map snd l)) in H. assert (S0 : (0 <= sum (map snd l))%Z).
  { assert (P' : forall t, In t l -> (0 <= snd t)%Z) by (intros; apply P; right; assumption). clear -P'. induction l as [|x l IH]; [cbn; lia|]. cbn [map sum fold_right]. fold (sum (map snd l)). specialize (IH (fun (t : timing) I => P' t (or_intror I))). specialize (P' x (or_introl eq_refl)). lia. }
  pose proof (P t (or_introl eq_refl)) as T0. cbn [fold_left obind]. unfold fits64 at 2. assert (F : ((- 2 ^ 63 <=? a + snd t) && (a + snd t <? 2 ^ 63))%Z = true) by (apply andb_true_iff; rewrite Z.leb_le, Z.ltb_lt; lia).
  rewrite F. rewrite IH; [|intros; apply P; right; assumption|lia|lia]. f_equal. cbn [map sum fold_right]. fold (sum (map snd l)). lia.
Qed.
Lemma total_ok (l : list timing) : (forall t : timing, In t l -> (0 <= snd t)%Z) -> (sum (map snd l) < 2 ^ 63)%Z -> total_of l = Ok (sum (map snd l)).
Proof. intros P H. unfold total_of. rewrite total_from; [reflexivity|exact P|lia|lia]. Qed.
Lemma sum_ge (l : list timing) t : (forall t : timing, In t l -> (0 <= snd t)%Z) -> In t l -> (snd t <= sum (map snd l))%Z.
Proof.
  intros P. induction l as [|x l IH]; intros I; [destruct I|]. cbn [map sum fold_right]. fold (sum (map snd l)).
  assert (S0 : (0 <= sum (map snd l))%Z).
  { assert (P' : forall t, In t l -> (0 <= snd t)%Z) by (intros; apply P; right; assumption). clear -P'. induction l as [|y l IH]; [cbn; lia|]. cbn [map sum fold_right]. fold (sum (map snd l)). specialize (IH (fun (t : timing) I => P' t (or_intror I))). specialize (P' y (or_introl eq_refl)). lia. }
  pose proof (P x (or_introl eq_refl)). destruct I as [->|I]; [lia|]. specialize (IH (fun (t : timing) I => P t (or_intror I)) I). lia.
Qed.
Lemma line_ok l nan t total : (0 <= snd t <= total)%Z -> (0 < total < 2 ^ 53)%Z ->
  exists k, share (snd t) total k /\ line_about l (fst t) (snd t) k (report_line l nan total t).
Proof.
  intros H HT. destruct (share_ok (snd t) total H HT) as (k & TK & K0 & S & SH). exists (Z.to_N k). split; [exact SH|].
  exists (pad_right 25 (S_ " * " ++ fst t ++ S_ ":")), (pad_left 4 (print_int l (snd t))), (print_int l (snd t)), (print_tenths l false (Z.to_N k)).
  split; [apply pad_right_ok|]. split; [apply print_int_ok; lia|]. split; [apply pad_left_ok|]. split; [apply print_tenths_ok|].
  unfold report_line. rewrite (print_tenth l nan k _ K0 TK S). reflexivity.
Qed.
