(** NumberProofs.v - the numerals written by [print_Z] and [print_double] and what they denote. *)
From Coq Require Import ZArith NArith Reals Lra.
From Flocq Require Import Core IEEE754.BinarySingleNaN.
From Verif Require Import Base Double DoubleFacts MathUtils Elements GeometrySpec ElementsProofs GridProofs Document Serialization SerializationSpec JsonProofs NumberSpec MathUtilsProofs.
Local Opaque TOL dZ dadd dsub ddiv dmul dec DBL_MAX DBL_MIN.

(** ** Digit strings *)
Definition dfrom (a : Z) (ds : str) : Z := fold_left (fun a c => (a * 10 + (Z.of_nat (nat_of_ascii c) - 48))%Z) ds a.
Lemma dfrom_shift ds : forall a, dfrom a ds = (a * 10 ^ Z.of_nat (length ds) + dval ds)%Z.
Proof.
  unfold dval. fold (dfrom 0 ds). induction ds as [|c ds IH]; intros a; cbn [dfrom fold_left length].
  - change (10 ^ Z.of_nat 0)%Z with 1%Z. unfold dfrom. cbn. lia.
  - fold (dfrom (a * 10 + (Z.of_nat (nat_of_ascii c) - 48)) ds). fold (dfrom (0 * 10 + (Z.of_nat (nat_of_ascii c) - 48)) ds).
    rewrite IH. rewrite (IH (0 * 10 + (Z.of_nat (nat_of_ascii c) - 48))%Z). rewrite Nat2Z.inj_succ, Z.pow_succ_r by lia. ring.
Qed.
Lemma dval_app a b : dval (a ++ b) = (dval a * 10 ^ Z.of_nat (length b) + dval b)%Z.
Proof. unfold dval at 1. rewrite fold_left_app. exact (dfrom_shift b (dval a)). Qed.
Lemma dval_zeros k : dval (repeat "0"%char k) = 0%Z.
Proof.
  induction k as [|k IH]; [reflexivity|]. change (repeat "0"%char (S k)) with (["0"%char] ++ repeat "0"%char k).
  rewrite dval_app, IH. reflexivity.
Qed.
Lemma digit_val n : (n < 10)%N -> (Z.of_nat (nat_of_ascii (digit n)) - 48)%Z = Z.of_N n.
Proof.
  intros H. unfold digit. rewrite <- N2Nat.id with (a := n). assert (N.to_nat n < 10) as K by lia. revert K. generalize (N.to_nat n). clear n H. intros k Hk.
  do 10 (destruct k as [|k]; [reflexivity|]). lia.
Qed.
Lemma is_digit_val c : is_digit c -> (0 <= Z.of_nat (nat_of_ascii c) - 48 <= 9)%Z.
Proof. unfold is_digit. lia. Qed.
Lemma dval_bounds ds : Forall is_digit ds -> (0 <= dval ds < 10 ^ Z.of_nat (length ds))%Z.
Proof.
  induction ds as [|c ds IH]; intros H; [cbn; lia|]. inversion H as [|? ? H1 H2]; subst.
  change (c :: ds) with ([c] ++ ds) at 1 2. rewrite dval_app. specialize (IH H2). apply is_digit_val in H1.
  assert (dval [c] = Z.of_nat (nat_of_ascii c) - 48)%Z as -> by reflexivity.
  cbn [length]. rewrite Nat2Z.inj_succ, Z.pow_succ_r by lia. nia.
Qed.
Lemma dval_lead c ds : is_digit c -> c <> "0"%char -> Forall is_digit ds -> (10 ^ Z.of_nat (length ds) <= dval (c :: ds))%Z.
Proof.
  intros H1 H0 H2. change (c :: ds) with ([c] ++ ds). rewrite dval_app.
  assert (dval [c] = Z.of_nat (nat_of_ascii c) - 48)%Z as -> by reflexivity.
  pose proof (dval_bounds ds H2). unfold is_digit in H1.
  assert (nat_of_ascii c <> 48) by (intros Q; apply H0; rewrite <- (ascii_nat_embedding c), Q; reflexivity). nia.
Qed.
Lemma digits_fuel_val fuel : forall n acc, (n < 10 ^ N.of_nat fuel)%N -> (fuel <> 0) ->
  exists ds, digits_fuel fuel n acc = ds ++ acc /\ dval ds = Z.of_N n.
Proof.
  induction fuel as [|f IH]; intros n acc Hn Hf; [congruence|]. cbn [digits_fuel].
  assert (Hm : (n mod 10 < 10)%N) by (apply N.mod_lt; lia).
  destruct (N.eqb_spec (n / 10) 0) as [E|E].
  - exists [digit (n mod 10)]. split; [reflexivity|]. change (dval [digit (n mod 10)]) with (Z.of_nat (nat_of_ascii (digit (n mod 10))) - 48)%Z.
    rewrite digit_val by exact Hm. rewrite (N.div_mod n 10) at 2 by lia. rewrite E. lia.
  - rewrite Nat2N.inj_succ, N.pow_succ_r' in Hn.
    assert (Hd : (n / 10 < 10 ^ N.of_nat f)%N) by (apply N.div_lt_upper_bound; lia).
    assert (Hf0 : f <> 0) by (intros ->; change (10 ^ N.of_nat 0)%N with 1%N in Hd; apply E; apply N.lt_1_r; exact Hd).
    destruct (IH (n / 10)%N (digit (n mod 10) :: acc) Hd Hf0) as (ds & E1 & E2).
    exists (ds ++ [digit (n mod 10)]). split; [rewrite E1, <- app_assoc; reflexivity|].
    rewrite dval_app, E2. change (dval [digit (n mod 10)]) with (Z.of_nat (nat_of_ascii (digit (n mod 10))) - 48)%Z.
    rewrite digit_val by exact Hm. change (10 ^ Z.of_nat (length [digit (n mod 10)]))%Z with 10%Z.
    rewrite (N.div_mod n 10) at 3 by lia. lia.
Qed.
Lemma dec_digits_val n : dval (dec_digits n) = Z.of_N n.
Proof.
  unfold dec_digits. destruct (digits_fuel_val (S (N.size_nat n)) n []) as (ds & E1 & E2).
  - pose proof (size_nat_pow n). rewrite Nat2N.inj_succ, N.pow_succ_r'.
    assert (2 ^ N.of_nat (N.size_nat n) <= 10 ^ N.of_nat (N.size_nat n))%N by (apply N.pow_le_mono_l; lia).
    assert (0 < 10 ^ N.of_nat (N.size_nat n))%N by (apply N.neq_0_lt_0, N.pow_nonzero; lia). lia.
  - congruence.
  - rewrite E1, app_nil_r. exact E2.
Qed.
Lemma dec_digits_six n : (100000 <= n < 1000000)%Z -> length (dec_digits (Z.to_N n)) = 6.
Proof.
  intros Hn. destruct (dec_digits_ok (Z.to_N n)) as (c & t & E & Hc & Ht & Hnz & _).
  pose proof (dec_digits_val (Z.to_N n)) as V. rewrite E in *. rewrite Z2N.id in V by lia.
  assert (c <> "0"%char) as H0 by (apply Hnz; lia).
  pose proof (dval_lead c t Hc H0 Ht) as L. pose proof (dval_bounds (c :: t) (Forall_cons _ Hc Ht)) as U. rewrite V in *.
  cbn [length] in *. rewrite Nat2Z.inj_succ in U.
  destruct (Z.lt_trichotomy (Z.of_nat (length t)) 5) as [Q|[Q|Q]]; [|lia|].
  - exfalso. assert (10 ^ Z.succ (Z.of_nat (length t)) <= 10 ^ 5)%Z by (apply Z.pow_le_mono_r; lia). lia.
  - exfalso. assert (10 ^ 6 <= 10 ^ Z.of_nat (length t))%Z by (apply Z.pow_le_mono_r; lia). lia.
Qed.

Lemma drop_zeros_split s : exists k, s = repeat "0"%char k ++ drop_zeros s.
Proof.
  induction s as [|c s [k IH]]; [exists 0; reflexivity|]. cbn [drop_zeros]. destruct (Ascii.eqb_spec c "0") as [->|N].
  - exists (S k). cbn. rewrite <- IH. reflexivity.
  - exists 0. reflexivity.
Qed.
Lemma strip_zeros_split s : exists k, s = strip_zeros s ++ repeat "0"%char k.
Proof.
  unfold strip_zeros. destruct (drop_zeros_split (rev s)) as [k H]. exists k.
  rewrite <- (rev_involutive s) at 1. rewrite H at 1. rewrite rev_app_distr. f_equal.
  clear. induction k as [|k IH]; [reflexivity|]. cbn [repeat rev]. rewrite IH. rewrite repeat_cons. reflexivity.
Qed.
Lemma frac_fraction s : frac s = fraction (strip_zeros s).
Proof. unfold frac, fraction. destruct (strip_zeros s); reflexivity. Qed.

(** Stripping the trailing zeros of the fraction does not change the value. *)
Lemma strip_value ip fs z :
  (IZR (dval (ip ++ strip_zeros fs)) * bpow ten (z - Z.of_nat (length (strip_zeros fs))) =
   IZR (dval (ip ++ fs)) * bpow ten (z - Z.of_nat (length fs)))%R.
Proof.
  destruct (strip_zeros_split fs) as [k H]. set (s := strip_zeros fs) in *. clearbody s. subst fs.
  rewrite app_assoc, (dval_app (ip ++ s)), dval_zeros, app_length, repeat_length, Z.add_0_r.
  rewrite mult_IZR. change (10 ^ Z.of_nat k)%Z with (Zpower ten (Z.of_nat k)). rewrite IZR_Zpower by lia.
  rewrite Rmult_assoc, <- bpow_plus. f_equal. f_equal. lia.
Qed.

(** ** The decimal exponent *)
Lemma exp10_up_spec fuel : forall num den x, (0 < den)%Z -> (den <= num < den * 10 ^ Z.of_nat fuel)%Z ->
  exists k, (0 <= k)%Z /\ exp10_up fuel num den x = (x + k)%Z /\ (den * 10 ^ k <= num < den * 10 ^ (k + 1))%Z.
Proof.
  induction fuel as [|f IH]; intros num den x Hd H; cbn [exp10_up].
  - exfalso. change (10 ^ Z.of_nat 0)%Z with 1%Z in H. lia.
  - destruct (Z.leb_spec (den * 10) num).
    + rewrite Nat2Z.inj_succ, Z.pow_succ_r in H by lia.
      destruct (IH num (den * 10)%Z (x + 1)%Z) as (k & K0 & K1 & K2); [lia|lia|].
      exists (k + 1)%Z. split; [lia|]. split; [lia|]. rewrite !Z.pow_add_r in * by lia. lia.
    + exists 0%Z. split; [lia|]. split; [lia|]. cbn. lia.
Qed.
Lemma exp10_down_spec fuel : forall num den x, (0 < num)%Z -> (num < 10 * den)%Z -> (den <= num * 10 ^ Z.of_nat fuel)%Z ->
  exists k, (0 <= k)%Z /\ exp10_down fuel num den x = (x - k)%Z /\ (den <= num * 10 ^ k < den * 10)%Z.
Proof.
  induction fuel as [|f IH]; intros num den x Hn Hu H; cbn [exp10_down].
  - exists 0%Z. change (10 ^ Z.of_nat 0)%Z with 1%Z in H. change (10 ^ 0)%Z with 1%Z. split; [lia|]. split; lia.
  - destruct (Z.ltb_spec num den).
    + rewrite Nat2Z.inj_succ, Z.pow_succ_r in H by lia.
      destruct (IH (num * 10)%Z den (x - 1)%Z) as (k & K0 & K1 & K2); [lia|lia|nia|].
      exists (k + 1)%Z. split; [lia|]. split; [lia|]. rewrite Z.pow_add_r by lia. change (10 ^ 1)%Z with 10%Z. nia.
    + exists 0%Z. change (10 ^ 0)%Z with 1%Z. split; [lia|]. split; lia.
Qed.
Definition ratio_ok (num den : Z) : Prop := (0 < num)%Z /\ (0 < den)%Z /\ (den <= num * 10 ^ 400)%Z /\ (num < den * 10 ^ 400)%Z.
Lemma pow_bpow k : (0 <= k)%Z -> IZR (10 ^ k) = bpow ten k.
Proof. intros H. change (10 ^ k)%Z with (Zpower ten k). apply IZR_Zpower. exact H. Qed.
Lemma exp10_spec num den : ratio_ok num den ->
  (bpow ten (exp10 num den) <= IZR num / IZR den < bpow ten (exp10 num den + 1))%R.
Proof.
  intros (Hn & Hd & Hl & Hu). assert (0 < IZR den)%R as PD by (apply IZR_lt; lia). unfold exp10.
  destruct (Z.ltb_spec num den).
  - destruct (exp10_down_spec 400 num den 0) as (k & K0 & -> & K2); [lia|lia|exact Hl|].
    replace (0 - k)%Z with (- k)%Z by lia. rewrite bpow_plus.
    change (bpow ten 1) with 10%R. rewrite bpow_opp. pose proof (bpow_gt_0 ten k) as PK.
    destruct K2 as [A B]. apply IZR_le in A. apply IZR_lt in B. rewrite !mult_IZR, pow_bpow in * by exact K0.
    split.
    + apply (Rmult_le_reg_r (bpow ten k * IZR den)); [apply Rmult_lt_0_compat; assumption|]. field_simplify; [|lra|lra]. lra.
    + apply (Rmult_lt_reg_r (bpow ten k * IZR den)); [apply Rmult_lt_0_compat; assumption|]. field_simplify; [|lra|lra]. lra.
  - destruct (exp10_up_spec 400 num den 0) as (k & K0 & -> & K2); [lia|split; [lia|exact Hu]|].
    rewrite Z.add_0_l. destruct K2 as [A B]. apply IZR_le in A. apply IZR_lt in B. rewrite !mult_IZR, !pow_bpow in * by lia.
    split.
    + apply (Rmult_le_reg_r (IZR den)); [assumption|]. field_simplify; [|lra]. lra.
    + apply (Rmult_lt_reg_r (IZR den)); [assumption|]. field_simplify; [|lra]. lra.
Qed.
(** ** Rounding *)
Lemma round_half_even_err num den : (0 < den)%Z -> (Rabs (IZR (round_half_even num den) - IZR num / IZR den) <= 1 / 2)%R.
Proof.
  intros Hd. pose proof (Z.div_mod num den ltac:(lia)) as DM. pose proof (Z.mod_pos_bound num den Hd) as MB.
  set (q := (num / den)%Z) in *. set (r := (num mod den)%Z) in *.
  assert (PD : (0 < IZR den)%R) by (apply IZR_lt; lia).
  assert (V : (IZR num / IZR den = IZR q + IZR r / IZR den)%R).
  { rewrite DM, plus_IZR, mult_IZR. field. lra. }
  assert (R0 : (0 <= IZR r / IZR den)%R) by (apply Rmult_le_pos; [apply IZR_le; lia|left; apply Rinv_0_lt_compat; exact PD]).
  assert (R1 : forall c, (2 * r <= c * den)%Z -> (IZR r / IZR den <= IZR c / 2)%R).
  { intros c Hc. apply IZR_le in Hc. rewrite !mult_IZR in Hc. apply (Rmult_le_reg_r (IZR den)); [exact PD|]. field_simplify; [|lra]. lra. }
  assert (R2 : forall c, (c * den <= 2 * r)%Z -> (IZR c / 2 <= IZR r / IZR den)%R).
  { intros c Hc. apply IZR_le in Hc. rewrite !mult_IZR in Hc. apply (Rmult_le_reg_r (IZR den)); [exact PD|]. field_simplify; [|lra]. lra. }
  unfold round_half_even. fold q r. rewrite V. pose proof (R1 2%Z ltac:(lia)) as U2.
  destruct (Z.compare_spec (2 * r) den) as [C|C|C].
  - pose proof (R1 1%Z ltac:(lia)). pose proof (R2 1%Z ltac:(lia)). destruct (Z.even q); rewrite ?plus_IZR; apply Rabs_le; lra.
  - pose proof (R1 1%Z ltac:(lia)). apply Rabs_le; lra.
  - pose proof (R2 1%Z ltac:(lia)). rewrite plus_IZR. apply Rabs_le; lra.
Qed.
(** The result: six digits [n] (not normalised: possibly 10^6) and the exponent [x] of the number. *)
Lemma six_digits_spec num den : ratio_ok num den ->
  exists n x, (100000 <= n <= 1000000)%Z /\
    (bpow ten x <= IZR num / IZR den < bpow ten (x + 1))%R /\
    (Rabs (IZR n - IZR num / IZR den * bpow ten (5 - x)) <= 1 / 2)%R /\
    six_digits num den = (if (n =? 1000000)%Z then (100000, x + 1)%Z else (n, x)).
Proof.
  intros Hr. pose proof (exp10_spec num den Hr) as HX. destruct Hr as (Hn & Hd & _).
  unfold six_digits. set (x := exp10 num den) in *.
  set (n := if (x <=? 5)%Z then round_half_even (num * 10 ^ (5 - x)) den else round_half_even num (den * 10 ^ (x - 5))).
  assert (PD : (0 < IZR den)%R) by (apply IZR_lt; lia).
  assert (HE : (Rabs (IZR n - IZR num / IZR den * bpow ten (5 - x)) <= 1 / 2)%R).
  { unfold n. destruct (Z.leb_spec x 5) as [L|L].
    - pose proof (round_half_even_err (num * 10 ^ (5 - x)) den Hd) as R. rewrite mult_IZR, pow_bpow in R by lia.
      replace (IZR num / IZR den * bpow ten (5 - x))%R with (IZR num * bpow ten (5 - x) / IZR den)%R by (field; lra). exact R.
    - assert (0 < 10 ^ (x - 5))%Z as P by (apply Z.pow_pos_nonneg; lia).
      pose proof (round_half_even_err num (den * 10 ^ (x - 5)) ltac:(nia)) as R. rewrite mult_IZR, pow_bpow in R by lia.
      replace (5 - x)%Z with (- (x - 5))%Z by lia. rewrite bpow_opp. pose proof (bpow_gt_0 ten (x - 5)).
      replace (IZR num / IZR den * / bpow ten (x - 5))%R with (IZR num / (IZR den * bpow ten (x - 5)))%R by (field; split; lra). exact R. }
  exists n, x. split; [|split; [exact HX|split; [exact HE|reflexivity]]].
  pose proof (bpow_gt_0 ten (5 - x)) as P5.
  assert (W : (100000 <= IZR num / IZR den * bpow ten (5 - x) < 1000000)%R).
  { assert (A : (bpow ten x * bpow ten (5 - x) = 100000)%R) by (rewrite <- bpow_plus; replace (x + (5 - x))%Z with 5%Z by lia; reflexivity).
    assert (B : (bpow ten (x + 1) * bpow ten (5 - x) = 1000000)%R) by (rewrite <- bpow_plus; replace (x + 1 + (5 - x))%Z with 6%Z by lia; reflexivity).
    split; [rewrite <- A; apply Rmult_le_compat_r; lra|rewrite <- B; apply Rmult_lt_compat_r; lra]. }
  apply Rabs_le_inv in HE. split.
  - assert (99999 < n)%Z; [|lia]. apply lt_IZR. lra.
  - assert (n < 1000001)%Z; [|lia]. apply lt_IZR. lra.
Qed.

(** ** print_pos *)
Lemma print_pos_decimal neg num den n x : (100000 <= n < 1000000)%Z -> six_digits num den = (n, x) ->
  decimal ((if neg : bool then ["-"%char] else []) ++ print_pos num den) ((if neg then -1 else 1) * (IZR n * bpow ten (x - 5)))%R.
Proof.
  intros Hn H. unfold print_pos. rewrite H. set (ds := dec_digits (Z.to_N n)).
  assert (L : length ds = 6) by (apply dec_digits_six; exact Hn).
  assert (V : dval ds = n) by (unfold ds; rewrite dec_digits_val, Z2N.id; lia).
  assert (D : Forall is_digit ds) by (unfold ds; apply dec_digits_digits).
  clearbody ds.
  destruct ((-4 <=? x) && (x <? 6))%Z eqn:R.
  - apply andb_prop in R. destruct R as [R1 R2]. apply Z.leb_le in R1. apply Z.ltb_lt in R2.
    destruct (Z.leb_spec 0 x) as [X|X].
    + rewrite frac_fraction.
      pose proof (dec_num neg (firstn (Z.to_nat x + 1) ds) (strip_zeros (skipn (Z.to_nat x + 1) ds)) None) as Q.
      cbn [exponent exponent_val] in Q. rewrite app_nil_r in Q. rewrite strip_value, firstn_skipn, V, skipn_length, L in Q.
      replace (0 - Z.of_nat (6 - (Z.to_nat x + 1)))%Z with (x - 5)%Z in Q by lia. apply Q.
      * split; [|apply Forall_firstn; exact D]. destruct ds as [|c t]; [discriminate L|]. rewrite Nat.add_1_r. cbn [firstn]. discriminate.
      * apply strip_zeros_digits, Forall_skipn. exact D.
      * discriminate.
    + rewrite frac_fraction.
      pose proof (dec_num neg (S_ "0") (strip_zeros (repeat "0"%char (Z.to_nat (- x) - 1) ++ ds)) None) as Q.
      cbn [exponent exponent_val] in Q. rewrite app_nil_r in Q. rewrite strip_value in Q.
      replace (dval (S_ "0" ++ repeat "0"%char (Z.to_nat (- x) - 1) ++ ds)) with n in Q.
      2:{ rewrite dval_app, dval_app, dval_zeros, V. change (dval (S_ "0")) with 0%Z. lia. }
      rewrite app_length, repeat_length, L in Q.
      replace (0 - Z.of_nat (Z.to_nat (- x) - 1 + 6))%Z with (x - 5)%Z in Q by lia. apply Q.
      * split; [discriminate|]. constructor; [unfold is_digit; cbn; lia|constructor].
      * apply strip_zeros_digits. apply Forall_app. split; [|exact D]. apply Forall_forall. intros a Ha. apply repeat_spec in Ha. subst.
        unfold is_digit. cbn. lia.
      * discriminate.
  - rewrite frac_fraction.
    set (e := dec_digits (Z.to_N (Z.abs x))).
    assert (DE : digits (if length e <? 2 then "0"%char :: e else e)).
    { destruct (dec_digits_digits (Z.to_N (Z.abs x))) as [H1 H2]. fold e in H1, H2.
      destruct (length e <? 2); [split; [congruence|constructor; [unfold is_digit; cbn; lia|assumption]]|split; assumption]. }
    assert (VE : dval (if length e <? 2 then "0"%char :: e else e) = Z.abs x).
    { assert (VE : dval e = Z.abs x) by (unfold e; rewrite dec_digits_val, Z2N.id; lia).
      destruct (length e <? 2); [|exact VE]. change ("0"%char :: e) with (["0"%char] ++ e). rewrite dval_app, VE. reflexivity. }
    assert (GE : exists ed : list ascii, ed = (if length e <? 2 then "0"%char :: e else e) /\ digits ed /\ dval ed = Z.abs x)
      by (eexists; split; [reflexivity|split; [exact DE|exact VE]]).
    destruct GE as (ed & EE & DE' & VE'). rewrite <- EE. clear DE VE EE. rename DE' into DE, VE' into VE.
    pose proof (dec_num neg (firstn 1 ds) (strip_zeros (skipn 1 ds)) (Some ((x <? 0)%Z, ed))) as Q.
    rewrite strip_value, firstn_skipn, V, skipn_length, L in Q. cbn [exponent exponent_val] in Q.
    assert (EX : ((if (x <? 0)%Z then (- dval ed)%Z else dval ed) - Z.of_nat (6 - 1) = x - 5)%Z)
      by (rewrite VE; destruct (Z.ltb_spec x 0); lia).
    rewrite EX in Q.
    assert (F : (if (x <? 0)%Z then S_ "-" else S_ "+") ++ ed = (if (x <? 0)%Z then "-"%char else "+"%char) :: ed) by (destruct (x <? 0)%Z; reflexivity).
    rewrite F. apply Q.
    + split; [|apply Forall_firstn; exact D]. destruct ds; [discriminate L|discriminate].
    + apply strip_zeros_digits, Forall_skipn. exact D.
    + intros b d' Q'. injection Q' as _ <-. exact DE.
Qed.

(** The printed number of a positive ratio. *)
Lemma print_pos_value neg num den : ratio_ok num den ->
  exists n x, (100000 <= n <= 1000000)%Z /\ (bpow ten x <= IZR num / IZR den < bpow ten (x + 1))%R /\
    (Rabs (IZR n - IZR num / IZR den * bpow ten (5 - x)) <= 1 / 2)%R /\
    decimal ((if neg : bool then ["-"%char] else []) ++ print_pos num den) ((if neg then -1 else 1) * (IZR n * bpow ten (x - 5)))%R.
Proof.
  intros Hr. destruct (six_digits_spec num den Hr) as (n & x & Hn & HX & HE & S6). exists n, x.
  split; [exact Hn|]. split; [exact HX|]. split; [exact HE|].
  destruct (Z.eqb_spec n 1000000) as [->|N].
  - pose proof (print_pos_decimal neg num den 100000 (x + 1) ltac:(lia) S6) as Q.
    replace (1000000 * bpow ten (x - 5))%R with (100000 * bpow ten (x + 1 - 5))%R; [exact Q|].
    replace (x + 1 - 5)%Z with (1 + (x - 5))%Z by lia. rewrite bpow_plus. change (bpow ten 1) with 10%R. ring.
  - apply print_pos_decimal; [lia|exact S6].
Qed.
Lemma ratio_of_double m e : SpecFloat.bounded 53 1024 m e = true ->
  ((0 <= e)%Z -> ratio_ok (Zpos m * 2 ^ e) 1) /\ ((e < 0)%Z -> ratio_ok (Zpos m) (2 ^ (- e))).
Proof.
  intros H. pose proof (bounded_emin m e H) as Hmin.
  assert (Hmax : (e <= 971)%Z /\ (Zpos m < 2 ^ 53)%Z).
  { unfold SpecFloat.bounded in H. apply andb_prop in H. destruct H as [H1 H2]. apply Zle_bool_imp_le in H2. split; [lia|].
    pose proof (canonical_canonical_mantissa 53 1024 false m e H1) as C. unfold canonical in C. cbn [Fexp cond_Zopp Fnum] in C.
    assert (Zdigits radix2 (Zpos m) <= 53)%Z as DG.
    { unfold SpecFloat.canonical_mantissa in H1. apply Zeq_bool_eq in H1. unfold SpecFloat.fexp, SpecFloat.emin in H1.
      rewrite <- Digits.Zpos_digits2_pos. change (Digits.digits2_pos m) with (SpecFloat.digits2_pos m). lia. }
    apply (Digits.Zpower_gt_Zdigits radix2 53 (Zpos m)) in DG. cbn [Z.abs] in DG. exact DG. }
  assert (BIG : (2 ^ 1074 <= 10 ^ 400)%Z) by (apply Z.leb_le; vm_compute; reflexivity).
  split; intros He.
  - assert (0 < 2 ^ e)%Z by (apply Z.pow_pos_nonneg; lia). assert (2 ^ e <= 2 ^ 971)%Z by (apply Z.pow_le_mono_r; lia).
    assert (2 ^ 53 * 2 ^ 971 <= 2 ^ 1074)%Z by (rewrite <- Z.pow_add_r by lia; apply Z.pow_le_mono_r; lia).
    unfold ratio_ok. split; [nia|]. split; [lia|]. split; [|nia]. assert (0 < 10 ^ 400)%Z by (apply Z.pow_pos_nonneg; lia). nia.
  - assert (0 < 2 ^ (- e))%Z by (apply Z.pow_pos_nonneg; lia). assert (2 ^ (- e) <= 2 ^ 1074)%Z by (apply Z.pow_le_mono_r; lia).
    assert (2 ^ 53 <= 2 ^ 1074)%Z by (apply Z.pow_le_mono_r; lia).
    unfold ratio_ok. split; [lia|]. split; [lia|]. split; nia.
Qed.
Lemma print_double_value d : is_fin d = true -> (E d <> 0)%R ->
  exists (neg : bool) n x, (100000 <= n <= 1000000)%Z /\ (E d = (if neg then -1 else 1) * Rabs (E d))%R /\ (bpow ten x <= Rabs (E d) < bpow ten (x + 1))%R /\
    (Rabs (IZR n - Rabs (E d) * bpow ten (5 - x)) <= 1 / 2)%R /\
    decimal (print_double d) ((if neg then -1 else 1) * (IZR n * bpow ten (x - 5)))%R.
Proof.
  intros F NZ. destruct d as [s|s| |s m e He]; try discriminate F; [exfalso; apply NZ; reflexivity|].
  destruct (ratio_of_double m e He) as [RP RN].
  assert (VA : forall num den : Z, (0 < IZR num / IZR den)%R -> (E (B754_finite s m e He) = (if s then -1 else 1) * (IZR num / IZR den))%R ->
     (E (B754_finite s m e He) = (if s then -1 else 1) * Rabs (E (B754_finite s m e He)))%R /\ Rabs (E (B754_finite s m e He)) = (IZR num / IZR den)%R).
  { intros num den P Q. assert (Rabs (E (B754_finite s m e He)) = IZR num / IZR den)%R as A.
    { rewrite Q. destruct s; [replace (-1 * (IZR num / IZR den))%R with (- (IZR num / IZR den))%R by ring; rewrite Rabs_Ropp|rewrite Rmult_1_l]; apply Rabs_pos_eq; lra. }
    split; [rewrite A; exact Q|exact A]. }
  assert (EV : forall v, (IZR (Zpos m) * bpow radix2 e = v)%R -> (E (B754_finite s m e He) = (if s then -1 else 1) * v)%R).
  { intros v Hv. rewrite E_fin by reflexivity. cbn [B2R]. unfold F2R. cbn [Fnum Fexp]. destruct s; cbn [cond_Zopp].
    - rewrite <- Hv. change (Z.neg m) with (- Z.pos m)%Z. rewrite opp_IZR. ring.
    - rewrite <- Hv. ring. }
  cbn [print_double]. destruct (Z.leb_spec 0 e) as [L|L].
  - specialize (RP L). pose proof RP as (P1 & P2 & _). assert (PD : (0 < IZR (Zpos m * 2 ^ e) / 1)%R).
    { unfold Rdiv. rewrite Rinv_1, Rmult_1_r. apply IZR_lt. exact P1. }
    destruct (VA (Zpos m * 2 ^ e)%Z 1%Z PD) as [V1 V2].
    { apply EV. rewrite mult_IZR. change (2 ^ e)%Z with (Zpower radix2 e). rewrite IZR_Zpower by lia. field. }
    destruct (print_pos_value s (Zpos m * 2 ^ e) 1 RP) as (n & x & Q1 & Q2 & Q3 & Q4). rewrite <- V2 in Q2, Q3.
    exists s, n, x. split; [exact Q1|]. split; [exact V1|]. split; [exact Q2|]. split; [exact Q3|]. exact Q4.
  - specialize (RN L). pose proof RN as (P1 & P2 & _). assert (PD : (0 < IZR (Zpos m) / IZR (2 ^ (- e)))%R).
    { apply Rdiv_lt_0_compat; apply IZR_lt; lia. }
    destruct (VA (Zpos m) (2 ^ (- e))%Z PD) as [V1 V2].
    { apply EV. change (2 ^ (- e))%Z with (Zpower radix2 (- e)). rewrite IZR_Zpower by lia. rewrite bpow_opp.
      pose proof (bpow_gt_0 radix2 e). field. lra. }
    destruct (print_pos_value s (Zpos m) (2 ^ (- e)) RN) as (n & x & Q1 & Q2 & Q3 & Q4). rewrite <- V2 in Q2, Q3.
    exists s, n, x. split; [exact Q1|]. split; [exact V1|]. split; [exact Q2|]. split; [exact Q3|]. exact Q4.
Qed.
Lemma print_double_zero d : is_fin d = true -> (E d = 0)%R -> decimal (print_double d) 0.
Proof.
  intros F Z0. destruct d as [s|s| |s m e He]; try discriminate F.
  - pose proof (dec_num s (S_ "0") [] None) as Q. replace ((if s then -1 else 1) * (IZR (dval (S_ "0" ++ [])) * bpow ten (exponent_val None - Z.of_nat (length ([] : str)))))%R with 0%R in Q.
    + assert (print_double (B754_zero s) = (if s then ["-"%char] else []) ++ S_ "0" ++ fraction [] ++ exponent None) as -> by (destruct s; reflexivity).
      apply Q; [split; [discriminate|constructor; [unfold is_digit; cbn; lia|constructor]]|constructor|discriminate].
    + change (dval (S_ "0" ++ [])) with 0%Z. rewrite Rmult_0_l. ring.
  - exfalso. rewrite E_fin in Z0 by reflexivity. cbn [B2R] in Z0. apply eq_0_F2R in Z0. destruct s; discriminate Z0.
Qed.

(** Six significant digits: the relative error is at most 5 * 10^-6. *)
Lemma print_double_accuracy d : is_fin d = true ->
  exists r, decimal (print_double d) r /\ (Rabs (r - E d) <= Rabs (E d) * (5 / 1000000))%R.
Proof.
  intros F. destruct (Req_dec (E d) 0) as [Z0|NZ].
  - exists 0%R. split; [apply print_double_zero; assumption|]. rewrite Z0. rewrite Rminus_0_r, Rabs_R0. lra.
  - destruct (print_double_value d F NZ) as (neg & n & x & Hn & HS & HX & HE & HD).
    eexists. split; [exact HD|]. rewrite HS at 1. set (v := Rabs (E d)) in *.
    pose proof (bpow_gt_0 ten (x - 5)) as P.
    assert (A : (bpow ten (5 - x) * bpow ten (x - 5) = 1)%R) by (rewrite <- bpow_plus; replace (5 - x + (x - 5))%Z with 0%Z by lia; reflexivity).
    assert (B : (bpow ten x = 100000 * bpow ten (x - 5))%R).
    { replace x with (5 + (x - 5))%Z at 1 by lia. rewrite bpow_plus. reflexivity. }
    assert (C : (Rabs (IZR n * bpow ten (x - 5) - v) <= v * (5 / 1000000))%R).
    { replace (IZR n * bpow ten (x - 5) - v)%R with ((IZR n - v * bpow ten (5 - x)) * bpow ten (x - 5))%R.
      2:{ rewrite Rmult_minus_distr_r, Rmult_assoc, A. ring. }
      rewrite Rabs_mult, (Rabs_pos_eq (bpow ten (x - 5))) by lra.
      apply Rle_trans with (1 / 2 * bpow ten (x - 5))%R; [apply Rmult_le_compat_r; lra|lra]. }
    destruct neg.
    + replace (-1 * (IZR n * bpow ten (x - 5)) - -1 * v)%R with (- (IZR n * bpow ten (x - 5) - v))%R by ring. rewrite Rabs_Ropp. exact C.
    + rewrite !Rmult_1_l. exact C.
Qed.

Lemma rd_tenth_up : (1 / 10 < rd (1 / 10))%R.
Proof.
  assert (F1 : is_fin (dZ 1) = true) by (vm_compute; reflexivity).
  assert (F2 : is_fin (dZ 10) = true) by (vm_compute; reflexivity).
  assert (E1 : (E (dZ 1) = 1)%R) by (apply dZ_exact; lia).
  assert (E2 : (E (dZ 10) = 10)%R) by (apply dZ_exact; lia).
  destruct (ddiv_E (dZ 1) (dZ 10) F1 F2 ltac:(lra)) as [_ Q]. rewrite E1, E2 in Q.
  assert (B : B2SF (ddiv (dZ 1) (dZ 10)) = SpecFloat.S754_finite false 7205759403792794 (-56)) by (vm_compute; reflexivity).
  assert (F3 : is_fin (ddiv (dZ 1) (dZ 10)) = true) by (vm_compute; reflexivity).
  assert (V : E (ddiv (dZ 1) (dZ 10)) = (7205759403792794 * / 72057594037927936)%R).
  { rewrite E_fin by exact F3. rewrite <- SF2R_B2SF, B. reflexivity. }
  rewrite V in Q. rewrite clamp_id in Q.
  - rewrite <- Q. lra.
  - pose proof M_big. assert (0 <= rd (1 / 10))%R by (rewrite <- rd_0; apply rd_mono; lra).
    pose proof (rd_mono (1 / 10) 1 ltac:(lra)) as R1. rewrite rd_1 in R1. pose proof M_pos.
    lra.
Qed.

(** Parsed coordinates (multiples of 0.1) below 10^5 are printed exactly. *)
Lemma print_tenth k d : tenth k d -> (Z.abs k < 1000000)%Z -> decimal (print_double d) (IZR k / 10).
Proof.
  intros T Hk. pose proof (tenth_err k d T) as [TE _]. destruct T as (_ & F & ET).
  destruct (Z.eq_dec k 0) as [->|K0].
  { replace (0 / 10)%R with 0%R by lra. apply print_double_zero; [exact F|]. rewrite ET. replace (0 / 10)%R with 0%R by lra. apply rd_0. }
  apply Rabs_le_inv in TE.
  assert (AK : (1 <= Rabs (IZR k) <= 999999)%R) by (rewrite <- abs_IZR; split; apply IZR_le; lia).
  assert (EA : (Rabs (IZR k) / 10 - / 4194304 <= Rabs (E d) <= Rabs (IZR k) / 10 + / 4194304)%R).
  { unfold Rabs in *. destruct (Rcase_abs (IZR k)), (Rcase_abs (E d)); lra. }
  assert (NZ : (E d <> 0)%R) by (intros Q; rewrite Q, Rabs_R0 in EA; lra).
  destruct (print_double_value d F NZ) as (neg & n & x & Hn & HS & HX & HE & HD).
  set (v := Rabs (E d)) in *.
  assert (SG : (IZR k = (if neg then -1 else 1) * Rabs (IZR k))%R).
  { assert ((E d < 0)%R <-> (IZR k < 0)%R) as S1.
    { split; intros; unfold v, Rabs in *; destruct (Rcase_abs (IZR k)), (Rcase_abs (E d)); lra. }
    unfold v in HS. destruct neg.
    - assert (E d < 0)%R as Q by (pose proof (Rabs_pos_lt _ NZ); lra). apply S1 in Q. rewrite Rabs_left by exact Q. ring.
    - assert (~ (E d < 0)%R) as Q by (pose proof (Rabs_pos_lt _ NZ); lra). rewrite S1 in Q. rewrite Rabs_pos_eq by lra. ring. }
  assert (X4 : (-2 < x <= 4)%Z).
  { split.
    - apply Znot_ge_lt. intros Q. assert (bpow ten (x + 1) <= bpow ten (-1))%R as B by (apply bpow_le; lia).
      change (bpow ten (-1)) with (/ 10)%R in B.
      (* v >= 0.1 - 2^-22, so only the next power matters *)
      assert (D0 : (Z.abs k = 1 \/ 2 <= Z.abs k)%Z) by lia. destruct D0 as [D0|D0].
      + assert (R1 : Rabs (IZR k) = 1%R) by (rewrite <- abs_IZR, D0; reflexivity).
        assert (v = rd (1 / 10))%R as V1.
        { unfold v. rewrite ET. rewrite SG, R1. destruct neg.
          - replace (-1 * 1 / 10)%R with (- (1 / 10))%R by lra. rewrite rd_opp, Rabs_Ropp. apply Rabs_pos_eq. rewrite <- rd_0. apply rd_mono. lra.
          - replace (1 * 1 / 10)%R with (1 / 10)%R by lra. apply Rabs_pos_eq. rewrite <- rd_0. apply rd_mono. lra. }
        assert (1 / 10 < rd (1 / 10))%R as V2 by (exact rd_tenth_up). lra.
      + assert (2 <= Rabs (IZR k))%R by (rewrite <- abs_IZR; apply IZR_le; lia). lra.
    - apply Znot_gt_le. intros Q. assert (bpow ten 5 <= bpow ten x)%R as B by (apply bpow_le; lia).
      change (bpow ten 5) with 100000%R in B. lra. }
  (* the scaled value is close to the integer |k| * 10^(4-x) *)
  set (w := (Z.abs k * 10 ^ (4 - x))%Z).
  assert (W : (IZR w = Rabs (IZR k) / 10 * bpow ten (5 - x))%R).
  { unfold w. rewrite mult_IZR, abs_IZR, pow_bpow by lia. replace (5 - x)%Z with (1 + (4 - x))%Z by lia. rewrite bpow_plus.
    change (bpow ten 1) with 10%R. field. }
  assert (P6 : (bpow ten (5 - x) <= 1000000)%R).
  { change 1000000%R with (bpow ten 6). apply bpow_le. lia. }
  pose proof (bpow_gt_0 ten (5 - x)) as P5. apply Rabs_le_inv in HE.
  assert (NW : n = w).
  { assert (-1 < IZR n - IZR w < 1)%R as Q.
    { rewrite W. assert (- (1/4) <= v * bpow ten (5 - x) - Rabs (IZR k) / 10 * bpow ten (5 - x) <= 1/4)%R; [|lra].
      rewrite <- Rmult_minus_distr_r.
      assert (- / 4194304 <= v - Rabs (IZR k) / 10 <= / 4194304)%R as D by lra.
      split; nra. }
    rewrite <- minus_IZR in Q. destruct Q as [Q1 Q2]. apply lt_IZR in Q2. assert (-1 < n - w)%Z by (apply lt_IZR; exact Q1). lia. }
  replace (IZR k / 10)%R with ((if neg then -1 else 1) * (IZR n * bpow ten (x - 5)))%R; [exact HD|].
  assert (V : (IZR n * bpow ten (x - 5) = Rabs (IZR k) / 10)%R).
  { rewrite NW, W, Rmult_assoc, <- bpow_plus. replace (5 - x + (x - 5))%Z with 0%Z by lia. cbn [bpow]. ring. }
  rewrite V. clear - SG. revert SG. generalize (Rabs (IZR k)). intros a ->. destruct neg; field.
Qed.
Lemma print_Z_decimal z : decimal (print_Z z) (IZR z).
Proof.
  unfold print_Z. destruct (Z.ltb_spec z 0).
  - pose proof (dec_num true (dec_digits (Z.to_N (- z))) [] None) as Q. cbn [fraction exponent exponent_val length app] in Q. rewrite !app_nil_r, dec_digits_val, Z2N.id in Q by lia.
    replace (IZR z) with (-1 * (IZR (- z) * bpow ten (0 - Z.of_nat 0)))%R; [|rewrite opp_IZR; cbn [bpow Z.of_nat Z.sub Z.add Z.opp]; ring].
    apply Q; [apply dec_digits_digits|constructor|discriminate].
  - pose proof (dec_num false (dec_digits (Z.to_N z)) [] None) as Q. cbn [fraction exponent exponent_val length app] in Q. rewrite !app_nil_r, dec_digits_val, Z2N.id in Q by lia.
    replace (IZR z) with (1 * (IZR z * bpow ten (0 - Z.of_nat 0)))%R; [|cbn [bpow Z.of_nat Z.sub Z.add Z.opp]; ring].
    apply Q; [apply dec_digits_digits|constructor|discriminate].
Qed.
