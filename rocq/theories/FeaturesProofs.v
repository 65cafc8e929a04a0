(** FeaturesProofs.v - proofs about Roles.v: the input tensors. *)
From Coq Require Import ZArith NArith Reals Lra Lia.
From Flocq Require Import Core IEEE754.BinarySingleNaN.
From Verif Require Import Base Double DoubleFacts Float FloatFacts GridProofs UtilsSpec Bpe BpeSpec BpeProofs Elements Roles RolesSpec RolesProofs VocabProofs.

(** ** Word ids *)
Lemma fit_ids {A} (pad : A) (l out : list A) : length out = 100 ->
  ((exists dropped, l = out ++ dropped) \/ exists k, out = l ++ repeat pad k) -> out = firstn 100 (l ++ repeat pad 100).
Proof.
  intros L [(d & ->)|(k & E)].
  - rewrite <- app_assoc. rewrite firstn_app, L, Nat.sub_diag, firstn_O, app_nil_r, <- L, firstn_all. reflexivity.
  - assert (K : length l + k = 100) by (rewrite E, app_length, repeat_length in L; exact L).
    rewrite firstn_app. rewrite (firstn_all2 l) by lia. rewrite E. f_equal.
    replace 100 with (k + length l) at 2 by lia. rewrite repeat_app, firstn_app, repeat_length.
    replace (100 - length l) with k by lia. rewrite Nat.sub_diag, firstn_O, app_nil_r.
    rewrite firstn_all2; [reflexivity|]. rewrite repeat_length. lia.
Qed.
Lemma row_app_0 {A} (a b : list A) n : length a = n -> row (a ++ b) n 0 = a.
Proof. intros <-. unfold row. cbn [Nat.mul skipn]. rewrite firstn_app, Nat.sub_diag, firstn_O, app_nil_r. apply firstn_all. Qed.
Lemma row_app_S {A} (a b : list A) n i : length a = n -> row (a ++ b) n (S i) = row b n i.
Proof.
  intros <-. unfold row. f_equal. cbn [Nat.mul]. rewrite skipn_app, (skipn_all2 a) by lia. cbn [app].
  f_equal. lia.
Qed.
Lemma words_loop_ok from v bs : forall e, reachable v e ->
  (forall b, In b bs -> exists t, from (rb_text b) = Some t /\ (N.of_nat (length t) < 2 ^ 32 - 1)%N) ->
  exists vs, words_loop from e bs = Some (Ok vs) /\ length vs = length bs * 100 /\
    forall i b t, nth_error bs i = Some b -> from (rb_text b) = Some t -> text_ids v t (row vs 100 i).
Proof.
  induction bs as [|b bs IH]; intros e R H.
  - exists []. split; [reflexivity|]. split; [reflexivity|]. intros [|i] b t X; discriminate.
  - destruct (H b (or_introl eq_refl)) as (t & T & LT).
    destruct (encode_spec v e t 100 [] R LT) as (words & idss & pad & out & e' & W1 & W2 & W3 & W4 & R' & _ & W5).
    destruct (IH e' R') as (vs & E1 & L1 & V1). { intros b' I. apply H. right. exact I. }
    destruct W5 as [L5 W5]; [discriminate|]. cbn [app] in W5.
    assert (FN : firstn 100 out = out) by (apply firstn_all2; lia).
    exists (out ++ vs). cbn [words_loop]. unfold convert. rewrite T, W4, E1, FN.
    split; [reflexivity|]. split; [rewrite app_length, L1, L5; cbn [length]; lia|].
    intros [|i] b' t' X Y.
    + injection X as <-. rewrite row_app_0 by exact L5. assert (t' = t) by congruence. subst t'.
      exists words, idss, pad. split; [exact W1|]. split; [exact W2|]. split; [exact W3|]. apply fit_ids; assumption.
    + rewrite row_app_S by exact L5. exact (V1 i b' t' X Y).
Qed.

(** ** Shares *)
Definition idx_of (p : N -> bool) (s : wstr) : list nat := filter (fun i => match nth_error s i with Some c => p c | None => false end) (seq 0 (length s)).
Lemma filter_seq_len {A} (p : A -> bool) (s : list A) k (pre : list A) : length pre = k ->
  length (filter (fun i => match nth_error (pre ++ s) i with Some c => p c | None => false end) (seq k (length s))) = length (filter p s).
Proof.
  revert k pre. induction s as [|c s IH]; intros k pre L; [reflexivity|]. cbn [length seq filter].
  rewrite nth_error_app2 by lia. rewrite L, Nat.sub_diag. cbn [nth_error].
  specialize (IH (S k) (pre ++ [c])). rewrite <- app_assoc in IH. cbn [app] in IH.
  rewrite app_length in IH. cbn [length] in IH. destruct (p c); cbn [length]; rewrite IH by lia; reflexivity.
Qed.
Lemma holds_count (P : N -> Prop) p s : (forall c, p c = true <-> P c) -> holds_n P s (length (filter p s)).
Proof.
  intros H. exists (idx_of p s). split; [|split].
  - intros i. unfold idx_of. rewrite filter_In, in_seq. split.
    + intros [I X]. destruct (nth_error s i) as [c|]; [|discriminate]. exists c. split; [reflexivity|]. apply H, X.
    + intros (c & E & Q). rewrite E. split; [|apply H, Q]. assert (X : nth_error s i <> None) by congruence. apply nth_error_Some in X. lia.
  - apply NoDup_filter, seq_NoDup.
  - exact (filter_seq_len p s 0 [] eq_refl).
Qed.
Lemma unit_share n m : (0 <= n <= m)%Z -> (0 < m < 2 ^ 24)%Z -> near (bpow radix2 (-24)) (fdiv (fZ n) (fZ m)) (IZR n / IZR m).
Proof.
  intros H1 H2. destruct (fZ_R n) as [A1 A2]; [lia|]. destruct (fZ_R m) as [B1 B2]; [lia|].
  assert (M0 : (0 < IZR m)%R) by (apply IZR_lt; lia). assert (N0 : (0 <= IZR n)%R) by (apply IZR_le; lia).
  assert (NM : (IZR n <= IZR m)%R) by (apply IZR_le; lia).
  assert (Q : (0 <= IZR n / IZR m <= 1)%R).
  { split; [apply Rmult_le_pos; [exact N0|left; apply Rinv_0_lt_compat, M0]|]. apply Rmult_le_reg_r with (IZR m); [exact M0|].
    unfold Rdiv. rewrite Rmult_assoc, Rinv_l by lra. lra. }
  destruct (fdiv_R (fZ n) (fZ m) A1 B1) as [C1 C2].
  - lra.
  - rewrite A2, B2, Rabs_pos_eq by lra. apply Rle_trans with 1%R; [lra|]. change 1%R with (bpow radix2 0). apply bpow_le. lia.
  - split; [exact C1|]. unfold value. rewrite C2, A2, B2. 
    eapply Rle_trans; [apply error_le_half_ulp; auto with typeclass_instances|].
    assert (HU : (ulp radix2 fe (IZR n / IZR m) <= ulp radix2 fe (bpow radix2 0))%R).
    { assert (Monotone_exp fe) by (intros x y L; unfold fe, SpecFloat.fexp, SpecFloat.emin; lia).
      apply ulp_le; auto with typeclass_instances. rewrite !Rabs_pos_eq; [cbn [bpow]; lra|apply bpow_ge_0|lra]. }
    rewrite ulp_bpow in HU. change (fe (0 + 1)) with (-23)%Z in HU.
    change (-23)%Z with (-24 + 1)%Z in HU. rewrite bpow_plus in HU. change (bpow radix2 1) with 2%R in HU. lra.
Qed.
Lemma filter_len {A} (p : A -> bool) l : length (filter p l) <= length l.
Proof. induction l as [|x l IH]; [apply le_n|]. cbn [filter]. destruct (p x); cbn [length]; lia. Qed.
Lemma filter_len_mono {A} (p q : A -> bool) l : (forall x, p x = true -> q x = true) -> length (filter p l) <= length (filter q l).
Proof.
  intros H. induction l as [|x l IH]; [apply le_n|]. cbn [filter]. destruct (p x) eqn:P; [rewrite (H x P); cbn [length]; lia|].
  destruct (q x); cbn [length]; lia.
Qed.
Lemma share_ok (P : N -> Prop) p text : (forall c, p c = true <-> P c) -> (forall c, P c -> ~ white c) ->
  (N.of_nat (length text) < 2 ^ 24)%N -> is_share (share (count p text) (count (fun c => negb (iswspace c)) text)) P text.
Proof.
  intros H W L. unfold share, count, is_share. set (q := fun c => negb (iswspace c)).
  assert (Hq : forall c, q c = true <-> ~ white c).
  { intros c. unfold q, iswspace. rewrite negb_true_iff. rewrite <- is_space_white. destruct (is_space c); split; intros; try congruence. }
  exists (length (filter p text)), (length (filter q text)).
  split; [apply holds_count, H|]. split; [apply holds_count, Hq|].
  pose proof (filter_len_mono p q text (fun x X => proj2 (Hq x) (W x (proj1 (H x) X)))) as LE.
  pose proof (filter_len q text) as LE2.
  destruct (Z.ltb_spec 0 (Z.of_nat (length (filter q text)))) as [X|X].
  - right. split; [lia|]. rewrite !INR_IZR_INZ. apply unit_share; lia.
  - left. split; [lia|]. reflexivity.
Qed.
Lemma flag_ok b (P : Prop) : (b = true <-> P) -> yes_no (flag b) P.
Proof.
  intros H. unfold yes_no, flag. destruct b.
  - left. split; [|apply H; reflexivity]. destruct (fZ_R 1) as [_ E]; [lia|]. exact E.
  - right. split; [reflexivity|]. intros X. apply H in X. discriminate.
Qed.
Lemma iswdigit_ok c : iswdigit c = true <-> digit c. Proof. apply is_digit_digit. Qed.
Lemma iswupper_ok c : iswupper c = true <-> upper_letter c.
Proof. unfold iswupper, upper_letter. rewrite andb_true_iff, !N.leb_le. tauto. Qed.
Lemma iswpunct_ok c : iswpunct c = true <-> punctuation c.
Proof. unfold iswpunct, punctuation, digit, upper_letter. rewrite !orb_true_iff, !andb_true_iff, !N.leb_le. lia. Qed.
Lemma high_byte_ok c : high_byte c = true <-> low_byte_high c.
Proof. unfold high_byte, low_byte_high. rewrite N.ltb_lt. lia. Qed.
Lemma high_not_white c : low_byte_high c -> ~ white c.
Proof. unfold low_byte_high, white. cbn [In]. intros H X. repeat (destruct X as [<-|X]; [vm_compute in H; congruence|]). exact X. Qed.

(** ** Words with an upper-case first letter *)
Lemma words_ok from ws : (forall s, In s ws -> exists t, from s = Some t /\ match t with c :: _ => (c < 256)%N | [] => True end) ->
  exists ts, Forall2 (fun s t => from s = Some t) ws ts /\
    count_upper_words from ws = Ok (Z.of_nat (length ws), Z.of_nat (length (filter (fun t => match t with c :: _ => iswupper c | [] => false end) ts))).
Proof.
  induction ws as [|s ws IH]; intros H.
  - exists []. split; [constructor|reflexivity].
  - destruct (H s (or_introl eq_refl)) as (t & T & B). destruct IH as (ts & F & E). { intros s' I. apply H. right. exact I. }
    exists (t :: ts). split; [constructor; assumption|]. cbn [count_upper_words]. unfold convert at 1. rewrite T. cbn [obind].
    assert (U : match t with c :: _ => isupper c | [] => Ok false end = Ok (match t with c :: _ => iswupper c | [] => false end)).
    { destruct t as [|c t]; [reflexivity|]. unfold isupper. apply N.ltb_lt in B. rewrite B. reflexivity. }
    rewrite U. cbn [obind]. rewrite E. cbn [obind]. cbn [filter length]. f_equal. f_equal; [lia|].
    destruct (match t with c :: _ => iswupper c | [] => false end); cbn [length]; lia.
Qed.
Lemma word_share_ok (ts : list wstr) : (N.of_nat (length ts) < 2 ^ 24)%N ->
  is_word_share (share (Z.of_nat (length (filter (fun t : wstr => match t with c :: _ => iswupper c | [] => false end) ts))) (Z.of_nat (length ts))) ts.
Proof.
  intros L. set (p := fun t : wstr => match t with c :: _ => iswupper c | [] => false end).
  exists (filter (fun i => match nth_error ts i with Some t => p t | None => false end) (seq 0 (length ts))). split; [|split].
  - intros i. rewrite filter_In, in_seq. split.
    + intros [I X]. destruct (nth_error ts i) as [[|c w]|]; try discriminate. exists c, w. split; [reflexivity|]. apply iswupper_ok, X.
    + intros (c & w & E & Q). rewrite E. split; [|apply iswupper_ok, Q]. assert (X : nth_error ts i <> None) by congruence. apply nth_error_Some in X. lia.
  - apply NoDup_filter, seq_NoDup.
  - pose proof (filter_seq_len p ts 0 [] eq_refl) as FL. cbn [app] in FL. rewrite FL. pose proof (filter_len p ts). unfold share. destruct ts as [|t ts].
    + left. split; [reflexivity|]. reflexivity.
    + right. split; [discriminate|]. destruct (Z.ltb_spec 0 (Z.of_nat (length (t :: ts)))) as [X|X]; [|cbn [length] in X; lia].
      rewrite !INR_IZR_INZ. apply unit_share; lia.
Qed.

(** ** Positions *)
Lemma e24 : (bpow radix2 (-24) = / 16777216)%R. Proof. reflexivity. Qed.
Lemma e20m : (bpow radix2 (-20) = / 1048576)%R. Proof. reflexivity. Qed.
Lemma e53 : (bpow radix2 (-53) = / 9007199254740992)%R. Proof. reflexivity. Qed.
Lemma e150 : (0 < bpow radix2 (-150) <= / 9007199254740992)%R.
Proof. split; [apply bpow_gt_0|]. rewrite <- e53. apply bpow_le. lia. Qed.
Lemma e1075 : (0 < bpow radix2 (-1075) <= / 9007199254740992)%R.
Proof. split; [apply bpow_gt_0|]. rewrite <- e53. apply bpow_le. lia. Qed.
Lemma e100 : (16777216 <= bpow radix2 100)%R.
Proof. change 16777216%R with (bpow radix2 24). apply bpow_le. lia. Qed.
Lemma rf_err' x : (Rabs (rf x - x) <= / 16777216 * Rabs x + / 9007199254740992)%R.
Proof. pose proof (rf_err x) as H. rewrite e24 in H. pose proof e150. lra. Qed.
Lemma rd_err' x : (Rabs (rd x - x) <= / 9007199254740992 * Rabs x + / 9007199254740992)%R.
Proof. pose proof (rd_rel x) as H. rewrite e53 in H. pose proof e1075. lra. Qed.
Lemma dgt_R a b : is_fin a = true -> is_fin b = true -> dgt a b = true <-> (B2R b < B2R a)%R.
Proof.
  intros FA FB. unfold dgt. rewrite <- (E_fin a FA), <- (E_fin b FB). apply dlt_E; apply fin_nn; assumption.
Qed.
Lemma Rdiv_abs a b : (0 < b)%R -> Rabs (a / b) = (Rabs a / b)%R.
Proof. intros H. unfold Rdiv. rewrite Rabs_mult, (Rabs_pos_eq (/ b)); [reflexivity|]. left. apply Rinv_0_lt_compat, H. Qed.
Lemma Rdiv_le_l a b c : (0 < b)%R -> (a <= c * b)%R -> (a / b <= c)%R.
Proof. intros H L. apply Rmult_le_reg_r with b; [exact H|]. unfold Rdiv. rewrite Rmult_assoc, Rinv_l by lra. lra. Qed.
(** Quotient of perturbed numbers. *)
Lemma quot_err n d n' d' en ed q : (0 < d)%R -> (0 < d')%R -> (Rabs (n' - n) <= en)%R -> (Rabs (d' - d) <= ed)%R ->
  (Rabs n <= q * d)%R -> (Rabs (n' / d' - n / d) <= (en + q * ed) / d')%R.
Proof.
  intros D D' HN HD Q.
  assert (E : (n' / d' - n / d = (n' - n + (n / d) * (d - d')) / d')%R) by (field; split; lra).
  rewrite E, Rdiv_abs by exact D'. apply Rmult_le_compat_r; [left; apply Rinv_0_lt_compat, D'|].
  eapply Rle_trans; [apply Rabs_triang|]. apply Rplus_le_compat; [exact HN|]. rewrite Rabs_mult.
  apply Rmult_le_compat; [apply Rabs_pos|apply Rabs_pos| |rewrite Rabs_minus_sym; exact HD].
  rewrite Rdiv_abs by exact D. apply Rdiv_le_l; assumption.
Qed.
Lemma norm_ok c W x w : is_fin c = true -> is_fin W = true -> (1 <= w <= 1048576)%R -> (Rabs x <= 5 * w)%R ->
  (Rabs (B2R c - x) <= / 268435456)%R -> (Rabs (B2R W - w) <= / 1073741824)%R ->
  near (bpow radix2 (-20)) (normalised (to_float c) W) (x / w).
Proof.
  intros FC FW Hw Hx HC HW. pose proof e100 as E100. set (X := B2R c) in *. set (Wr := B2R W) in *.
  apply Rabs_le_inv in HW. apply Rabs_le_inv in Hx. pose proof (Rabs_le_inv _ _ HC) as HC'.
  assert (XB : (Rabs X <= 5 * w + / 268435456)%R) by (apply Rabs_le; lra).
  destruct (to_float_R c FC) as [TF TV]. { fold X. lra. }
  fold X in TV. destruct (to_double_R _ TF) as [DF DV]. rewrite TV in DV.
  pose proof (rf_err' X) as RX. apply Rabs_le_inv in RX.
  set (C := rf X) in *. pose proof (Rabs_pos X) as XP.
  assert (CX : (Rabs (C - x) <= 5 / 16777216 * w + / 134217728)%R) by (apply Rabs_le; lra).
  assert (WP : (0 < Wr)%R) by lra. assert (WP' : (1 - / 1073741824 <= Wr)%R) by lra.
  unfold normalised. assert (G : dgt W dzero = true). { apply dgt_R; [exact FW|reflexivity|]. cbn [B2R dzero]. exact WP. }
  rewrite G.
  pose proof (quot_err x w C Wr _ (/ 1073741824) 5 ltac:(lra) WP CX ltac:(apply Rabs_le; fold Wr; lra) ltac:(apply Rabs_le; lra)) as QE.
  assert (QB : (((5 / 16777216 * w + / 134217728) + 5 * / 1073741824) / Wr <= 5 / 16777216 + / 33554432)%R).
  { apply Rdiv_le_l; [exact WP|]. nra. }
  assert (XW : (Rabs (x / w) <= 5)%R). { rewrite Rdiv_abs by lra. apply Rdiv_le_l; [lra|]. apply Rabs_le; lra. }
  assert (Q1 : (Rabs (C / Wr - x / w) <= 5 / 16777216 + / 33554432)%R) by lra. clear QE QB.
  apply Rabs_le_inv in Q1. apply Rabs_le_inv in XW.
  assert (QA : (Rabs (C / Wr) <= 6)%R) by (apply Rabs_le; lra).
  destruct (ddiv_R (to_double (to_float c)) W DF FW) as [F1 V1]; [fold Wr; lra|fold Wr; rewrite DV; lra|].
  fold Wr in V1. rewrite DV in V1. set (Q := (C / Wr)%R) in *. clearbody Q.
  pose proof (rd_err' Q) as RQ. apply Rabs_le_inv in RQ. pose proof (Rabs_pos Q) as QP. set (Q2 := rd Q) in *. clearbody Q2.
  assert (Q2A : (Rabs Q2 <= 7)%R). { pose proof (Rabs_le_inv _ _ QA). apply Rabs_le. lra. }
  destruct (to_float_R _ F1) as [F2 V2]; [rewrite V1; lra|].
  split; [exact F2|]. unfold value. rewrite V2, V1. pose proof (rf_err' Q2) as R2. apply Rabs_le_inv in R2. pose proof (Rabs_pos Q2).
  set (V := rf Q2) in *. clearbody V. rewrite e20m. apply Rabs_le. lra.
Qed.

(** ** Font sizes *)
Definition fs_ok (k : Z) (d : double) : Prop := size_tenths d k.
Lemma size_R d k : size_tenths d k -> is_fin d = true /\ (Rabs (B2R d - IZR k / 10) <= / 4194304)%R /\ (1 <= IZR k <= 2560)%R.
Proof.
  intros (K & F & V). change (Generic_fmt.round radix2 (SpecFloat.fexp 53 1024) ZnearestE (IZR k / 10)) with (rd (IZR k / 10)) in V.
  assert (KR : (1 <= IZR k <= 2560)%R) by (split; apply IZR_le; lia). split; [exact F|]. split; [|exact KR].
  rewrite V, <- e22. apply rd_err. rewrite e30, Rabs_pos_eq; lra.
Qed.
Lemma size_float d k : size_tenths d k -> is_finite (to_float d) = true /\ B2R (to_float d) = rf (B2R d) /\ (Rabs (rf (B2R d) - IZR k / 10) <= / 65536 + / 2097152)%R.
Proof.
  intros H. destruct (size_R d k H) as (F & V & K). pose proof e100. pose proof (Rabs_le_inv _ _ V) as V'.
  assert (B : (Rabs (B2R d) <= 256 + / 4194304)%R) by (apply Rabs_le; lra).
  destruct (to_float_R d F) as [F1 V1]; [lra|]. split; [exact F1|]. split; [exact V1|].
  pose proof (rf_err' (B2R d)) as R. apply Rabs_le_inv in R. apply Rabs_le. lra.
Qed.
Lemma size_unique d k d' : size_tenths d k -> size_tenths d' k -> B2R d = B2R d'.
Proof. intros (_ & _ & A) (_ & _ & B). congruence. Qed.
(** [f] is the float of a font size of [k] tenths. *)
Definition float_size (f : float) (k : Z) : Prop := exists d, size_tenths d k /\ f = to_float d.
Lemma lt_sep k l : (k < l)%Z -> (IZR k + 1 <= IZR l)%R.
Proof. intros H. rewrite <- (plus_IZR k 1). apply IZR_le. lia. Qed.
Lemma cmp_size d k f l : size_tenths d k -> float_size f l -> 
  ((l < k)%Z -> dgt d (to_double f) = true) /\ ((k < l)%Z -> dgt d (to_double f) = false) /\
  ((k < l)%Z -> dlt d (to_double f) = true) /\ ((l < k)%Z -> dlt d (to_double f) = false).
Proof.
  intros H (e & He & ->). destruct (size_R d k H) as (F & V & K). destruct (size_float e l He) as (FE & VE & BE).
  destruct (to_double_R _ FE) as [FD VD]. rewrite VE in VD. apply Rabs_le_inv in V, BE.
  assert (G : dgt d (to_double (to_float e)) = true <-> (rf (B2R e) < B2R d)%R) by (rewrite <- VD; apply dgt_R; assumption).
  assert (G2 : dlt d (to_double (to_float e)) = true <-> (B2R d < rf (B2R e))%R) by (rewrite <- VD; apply (dgt_R (to_double (to_float e)) d); assumption).
  split; [|split; [|split]]; intros L; apply lt_sep in L.
  - apply G. lra.
  - destruct (dgt d (to_double (to_float e))) eqn:X; [|reflexivity]. apply proj1 in G. specialize (G eq_refl). lra.
  - apply G2. lra.
  - destruct (dlt d (to_double (to_float e))) eqn:X; [|reflexivity]. apply proj1 in G2. specialize (G2 eq_refl). lra.
Qed.
Lemma FLT_MAX_ok : is_finite FLT_MAX = true /\ (bpow radix2 100 <= B2R FLT_MAX)%R.
Proof.
  assert (V : B2SF FLT_MAX = SpecFloat.S754_finite false 16777215 104) by (vm_compute; reflexivity).
  split; [rewrite <- is_finite_SF_B2SF, V; reflexivity|]. rewrite <- SF2R_B2SF, V. cbn [SF2R]. unfold F2R. cbn [Fnum Fexp cond_Zopp].
  apply Rle_trans with (1 * bpow radix2 104)%R; [rewrite Rmult_1_l; apply bpow_le; lia|].
  apply Rmult_le_compat_r; [apply bpow_ge_0|]. apply IZR_le. lia.
Qed.
Lemma FLT_MIN_ok : is_finite FLT_MIN = true /\ (0 <= B2R FLT_MIN <= / 1048576)%R.
Proof.
  assert (V : B2SF FLT_MIN = SpecFloat.S754_finite false 8388608 (-149)) by (vm_compute; reflexivity).
  split; [rewrite <- is_finite_SF_B2SF, V; reflexivity|]. rewrite <- SF2R_B2SF, V. cbn [SF2R]. unfold F2R. cbn [Fnum Fexp cond_Zopp].
  split; [apply Rmult_le_pos; [apply IZR_le; lia|apply bpow_ge_0]|]. rewrite <- e20m.
  change (IZR 8388608) with (bpow radix2 23). rewrite <- bpow_plus. apply bpow_le. lia.
Qed.
Lemma minmax_ok bs : forall mn mx k1 k2, (forall b, In b bs -> exists k, size_tenths (rb_fontSize b) k) ->
  float_size mn k1 -> float_size mx k2 ->
  exists k1' k2', float_size (fst (fold_left minmax_step bs (mn, mx))) k1' /\ float_size (snd (fold_left minmax_step bs (mn, mx))) k2' /\
    (k1' = k1 \/ exists b, In b bs /\ size_tenths (rb_fontSize b) k1') /\ (k2' = k2 \/ exists b, In b bs /\ size_tenths (rb_fontSize b) k2') /\
    (k1' <= k1)%Z /\ (k2 <= k2')%Z /\ forall b k, In b bs -> size_tenths (rb_fontSize b) k -> (k1' <= k <= k2')%Z.
Proof.
  induction bs as [|b bs IH]; intros mn mx k1 k2 H H1 H2.
  - exists k1, k2. cbn [fold_left fst snd]. repeat split; auto; try lia; destruct H0.
  - destruct (H b (or_introl eq_refl)) as (k & K). cbn [fold_left].
    assert (S1 : exists k1a, float_size (if dlt (rb_fontSize b) (to_double mn) then to_float (rb_fontSize b) else mn) k1a /\ (k1a = k1 \/ k1a = k) /\ (k1a <= k1)%Z /\ (k1a <= k)%Z).
    { destruct (cmp_size _ _ _ _ K H1) as (_ & _ & A & B). destruct (dlt _ _) eqn:X.
      - exists k. split; [exists (rb_fontSize b); split; [exact K|reflexivity]|]. split; [auto|]. split; [|lia].
        destruct (Z_lt_le_dec k1 k) as [L|L]; [pose proof (B L); discriminate|exact L].
      - exists k1. split; [exact H1|]. split; [auto|]. split; [lia|]. destruct (Z_lt_le_dec k k1) as [L|L]; [pose proof (A L); discriminate|exact L]. }
    assert (S2 : exists k2a, float_size (if dgt (rb_fontSize b) (to_double mx) then to_float (rb_fontSize b) else mx) k2a /\ (k2a = k2 \/ k2a = k) /\ (k2 <= k2a)%Z /\ (k <= k2a)%Z).
    { destruct (cmp_size _ _ _ _ K H2) as (A & B & _ & _). destruct (dgt _ _) eqn:X.
      - exists k. split; [exists (rb_fontSize b); split; [exact K|reflexivity]|]. split; [auto|]. split; [|lia].
        destruct (Z_lt_le_dec k k2) as [L|L]; [pose proof (B L); discriminate|exact L].
      - exists k2. split; [exact H2|]. split; [auto|]. split; [lia|]. destruct (Z_lt_le_dec k2 k) as [L|L]; [pose proof (A L); discriminate|exact L]. }
    destruct S1 as (k1a & S1 & C1 & L1 & L1'). destruct S2 as (k2a & S2 & C2 & L2 & L2').
    destruct (IH _ _ k1a k2a (fun b' I => H b' (or_intror I)) S1 S2) as (k1' & k2' & R1 & R2 & D1 & D2 & M1 & M2 & R3).
    exists k1', k2'. unfold minmax_step at 2 4. split; [exact R1|]. split; [exact R2|]. split; [|split; [|split; [lia|split; [lia|]]]].
    + destruct D1 as [->|(b' & I & Z)]; [|right; exists b'; split; [right; exact I|exact Z]].
      destruct C1 as [->| ->]; [left; reflexivity|right]. exists b. split; [left; reflexivity|exact K].
    + destruct D2 as [->|(b' & I & Z)]; [|right; exists b'; split; [right; exact I|exact Z]].
      destruct C2 as [->| ->]; [left; reflexivity|right]. exists b. split; [left; reflexivity|exact K].
    + intros b' k' [<-|I] K'; [|exact (R3 b' k' I K')].
      assert (KK : k' = k).
      { destruct (Z.lt_trichotomy k k') as [L|[L|L]]; [|lia|]; apply lt_sep in L; destruct (size_R _ _ K) as (_ & V & _), (size_R _ _ K') as (_ & V' & _);
          apply Rabs_le_inv in V, V'; exfalso; lra. }
      lia.
Qed.
Lemma range_ok bs : bs <> [] -> (forall b, In b bs -> exists k, size_tenths (rb_fontSize b) k) ->
  exists k1 k2, float_size (fst (fold_left minmax_step bs (FLT_MAX, FLT_MIN))) k1 /\ float_size (snd (fold_left minmax_step bs (FLT_MAX, FLT_MIN))) k2 /\
    (exists b, In b bs /\ size_tenths (rb_fontSize b) k1) /\ (exists b, In b bs /\ size_tenths (rb_fontSize b) k2) /\
    forall b k, In b bs -> size_tenths (rb_fontSize b) k -> (k1 <= k <= k2)%Z.
Proof.
  intros NE H. destruct bs as [|b bs]; [congruence|]. destruct (H b (or_introl eq_refl)) as (k & K). cbn [fold_left].
  destruct (size_R _ _ K) as (F & V & KR). apply Rabs_le_inv in V.
  assert (ST : minmax_step (FLT_MAX, FLT_MIN) b = (to_float (rb_fontSize b), to_float (rb_fontSize b))).
  { unfold minmax_step. destruct FLT_MAX_ok as [F1 V1], FLT_MIN_ok as [F2 V2]. destruct (to_double_R _ F1) as [G1 W1]. destruct (to_double_R _ F2) as [G2 W2].
    pose proof e100. assert (X1 : dlt (rb_fontSize b) (to_double FLT_MAX) = true) by (apply (dgt_R (to_double FLT_MAX) (rb_fontSize b) G1 F); lra).
    assert (X2 : dgt (rb_fontSize b) (to_double FLT_MIN) = true) by (apply (dgt_R (rb_fontSize b) (to_double FLT_MIN) F G2); lra).
    rewrite X1, X2. reflexivity. }
  rewrite ST. assert (FS : float_size (to_float (rb_fontSize b)) k) by (exists (rb_fontSize b); split; [exact K|reflexivity]).
  destruct (minmax_ok bs _ _ k k (fun b' I => H b' (or_intror I)) FS FS) as (k1 & k2 & R1 & R2 & D1 & D2 & M1 & M2 & R3).
  exists k1, k2. split; [exact R1|]. split; [exact R2|]. split; [|split].
  - destruct D1 as [->|(b' & I & Z)]; [exists b; split; [left; reflexivity|exact K]|exists b'; split; [right; exact I|exact Z]].
  - destruct D2 as [->|(b' & I & Z)]; [exists b; split; [left; reflexivity|exact K]|exists b'; split; [right; exact I|exact Z]].
  - intros b' k' [<-|I] K'; [|exact (R3 b' k' I K')].
    assert (KK : k' = k).
    { destruct (Z.lt_trichotomy k k') as [L|[L|L]]; [|lia|]; apply lt_sep in L; destruct (size_R _ _ K') as (_ & V' & _);
        apply Rabs_le_inv in V'; exfalso; lra. }
    lia.
Qed.
Lemma scaled_ok d k mn k1 mx k2 : size_tenths d k -> float_size mn k1 -> float_size mx k2 -> (k1 <= k <= k2)%Z ->
  is_scaled (if flt mn mx then to_float (ddiv (dsub d (to_double mn)) (to_double (fsub mx mn))) else fzero) (IZR k / 10) (IZR k1 / 10) (IZR k2 / 10).
Proof.
  intros H (d1 & H1 & ->) (d2 & H2 & ->) K. pose proof e100 as E100.
  destruct (size_R d k H) as (F & V & KR). destruct (size_float _ _ H1) as (F1 & V1 & B1). destruct (size_float _ _ H2) as (F2 & V2 & B2).
  assert (N1 : is_nan (to_float d1) = false) by (destruct (to_float d1); try reflexivity; discriminate).
  assert (N2 : is_nan (to_float d2) = false) by (destruct (to_float d2); try reflexivity; discriminate).
  pose proof (flt_emb _ _ N1 N2) as FE. rewrite !emb_fin in FE by assumption. rewrite V1, V2 in FE.
  destruct (Z.eq_dec k1 k2) as [->|NE].
  - left. split; [reflexivity|]. rewrite (size_unique _ _ _ H1 H2) in FE. destruct (flt _ _); [|reflexivity].
    assert (X : (rf (B2R d2) < rf (B2R d2))%R) by (apply FE; reflexivity). lra.
  - right. assert (LT : (IZR k1 + 1 <= IZR k2)%R) by (apply lt_sep; lia). split; [lra|].
    assert (KR1 : (1 <= IZR k1 <= 2560)%R) by (destruct (size_R _ _ H1) as (_ & _ & X); exact X).
    assert (KR2 : (1 <= IZR k2 <= 2560)%R) by (destruct (size_R _ _ H2) as (_ & _ & X); exact X).
    assert (KL : (IZR k1 <= IZR k <= IZR k2)%R) by (split; apply IZR_le; lia).
    apply Rabs_le_inv in V, B1, B2. set (MN := rf (B2R d1)) in *. set (MX := rf (B2R d2)) in *. clearbody MN MX.
    assert (FLTT : flt (to_float d1) (to_float d2) = true) by (apply FE; lra). rewrite FLTT.
    destruct (fsub_R (to_float d2) (to_float d1) F2 F1) as [FS VS]. { rewrite V1, V2. apply Rabs_le. lra. }
    rewrite V1, V2 in VS. pose proof (rf_err' (MX - MN)) as RS. rewrite (Rabs_pos_eq (MX - MN)) in RS by lra. apply Rabs_le_inv in RS.
    destruct (to_double_R _ FS) as [FD VD]. rewrite VS in VD. destruct (to_double_R _ F1) as [FM VM]. rewrite V1 in VM.
    destruct (dsub_R d (to_double (to_float d1)) F FM) as [FN VN]. { rewrite VM. apply Rabs_le. lra. }
    rewrite VM in VN. pose proof (rd_err' (B2R d - MN)) as RN.
    assert (NB : (Rabs (B2R d - MN) <= 257)%R) by (apply Rabs_le; lra). apply Rabs_le_inv in RN.
    set (D := rf (MX - MN)) in *. set (N := rd (B2R d - MN)) in *. clearbody D N.
    assert (DP : (99 / 1000 <= D)%R) by lra.
    pose proof (quot_err ((IZR k - IZR k1) / 10) ((IZR k2 - IZR k1) / 10) N D (/ 65536 + / 1048576) (3 / 65536 + / 524288) 1 ltac:(lra) ltac:(lra)
      ltac:(apply Rabs_le; lra) ltac:(apply Rabs_le; lra) ltac:(rewrite Rabs_pos_eq; lra)) as QE.
    assert (QB : ((/ 65536 + / 1048576 + 1 * (3 / 65536 + / 524288)) / D <= 8 / 10000)%R) by (apply Rdiv_le_l; lra).
    assert (EQ : ((IZR k - IZR k1) / 10 / ((IZR k2 - IZR k1) / 10) = (IZR k / 10 - IZR k1 / 10) / (IZR k2 / 10 - IZR k1 / 10))%R) by (field; lra).
    rewrite EQ in QE. set (T := ((IZR k / 10 - IZR k1 / 10) / (IZR k2 / 10 - IZR k1 / 10))%R) in *.
    assert (TB : (0 <= T <= 1)%R).
    { split; [apply Rmult_le_pos; [lra|left; apply Rinv_0_lt_compat; lra]|]. apply Rdiv_le_l; lra. }
    apply Rabs_le_inv in QE. assert (QA : (Rabs (N / D) <= 2)%R) by (apply Rabs_le; lra).
    destruct (ddiv_R (dsub d (to_double (to_float d1))) (to_double (fsub (to_float d2) (to_float d1))) FN FD) as [FQ VQ].
    { rewrite VD. lra. } { rewrite VN, VD. lra. }
    rewrite VN, VD in VQ. set (Q := (N / D)%R) in *. clearbody Q T.
    pose proof (rd_err' Q) as RQ. apply Rabs_le_inv in RQ. set (Q2 := rd Q) in *. clearbody Q2.
    assert (Q2A : (Rabs Q2 <= 3)%R). { pose proof (Rabs_le_inv _ _ QA). apply Rabs_le. lra. }
    destruct (to_float_R _ FQ) as [FV VV]; [rewrite VQ; lra|]. split; [exact FV|]. unfold value. rewrite VV, VQ.
    pose proof (rf_err' Q2) as R2. apply Rabs_le_inv in R2. apply Rabs_le. lra.
Qed.

(** ** The features of a block *)
Lemma extent_ok a b : is_fin a = true -> is_fin b = true -> (1 <= B2R b - B2R a <= bpow radix2 20)%R ->
  is_fin (dsub b a) = true /\ (Rabs (B2R (dsub b a) - (B2R b - B2R a)) <= / 1073741824)%R.
Proof.
  intros FA FB H. change (bpow radix2 20) with 1048576%R in H. pose proof e100.
  destruct (dsub_R b a FB FA) as [F V]; [rewrite Rabs_pos_eq; lra|]. split; [exact F|]. rewrite V.
  pose proof (rd_err' (B2R b - B2R a)) as R. rewrite (Rabs_pos_eq (B2R b - B2R a)) in R by lra. lra.
Qed.
Lemma x_ok c W x w : is_fin c = true -> is_fin W = true -> (1 <= w <= bpow radix2 20)%R -> near_page x w -> B2R c = x ->
  (Rabs (B2R W - w) <= / 1073741824)%R -> is_position (normalised (to_float c) W) x w.
Proof.
  intros FC FW Hw Hx E HW. change (bpow radix2 20) with 1048576%R in Hw. unfold near_page in Hx.
  apply norm_ok; try assumption; [lra|]. rewrite E, Rminus_diag_eq, Rabs_R0 by reflexivity. lra.
Qed.
Lemma y_ok c W x w : is_fin c = true -> is_fin W = true -> (1 <= w <= bpow radix2 20)%R -> near_page x w -> B2R c = x ->
  (Rabs (B2R W - w) <= / 1073741824)%R -> is_position (normalised (to_float (dsub W c)) W) (w - x) w.
Proof.
  intros FC FW Hw Hx E HW. change (bpow radix2 20) with 1048576%R in Hw. unfold near_page in Hx. pose proof e100.
  pose proof (Rabs_le_inv _ _ HW) as HW'. apply Rabs_le_inv in Hx.
  destruct (dsub_R W c FW FC) as [F V]. { rewrite E. apply Rabs_le. lra. }
  rewrite E in V. assert (B : (Rabs (B2R W - x) <= 5 * 1048576 + 1)%R) by (apply Rabs_le; lra).
  pose proof (rd_err' (B2R W - x)) as R. apply Rabs_le_inv in R.
  apply norm_ok; try assumption; [apply Rabs_le; lra|]. rewrite V. apply Rabs_le. lra.
Qed.
Section Features.
  Context (from : str -> option wstr) (fonts : str -> option (Z * bool)).
  Lemma features_ok n k1 k2 mn mx p b k : (1 <= n < 2 ^ 24)%Z -> usual_block from fonts n p b -> size_tenths (rb_fontSize b) k ->
    float_size mn k1 -> float_size mx k2 -> (k1 <= k <= k2)%Z ->
    exists vs text words weight italic, block_features from fonts n (mn, mx) p b = Ok vs /\ length vs = 15 /\
      from (rb_text b) = Some text /\ Forall2 (fun s t => from s = Some t) (rb_words b) words /\ fonts (rb_fontName b) = Some (weight, italic) /\
      features n (IZR k1 / 10) (IZR k2 / 10) (IZR k / 10) p b weight italic text words vs.
  Proof.
    intros Hn U K M1 M2 KL. unfold usual_block in U. cbv zeta in U.
    destruct U as ((P1 & P2 & P3 & P4) & W & H & (Q1 & Q2 & Q3 & Q4) & N1 & N2 & N3 & N4 & PN & ([weight italic] & FI) & (text & T & TL) & WL & WS).
    destruct (words_ok from (rb_words b) WS) as (ts & TS & CW). 
    assert (LT : length ts = length (rb_words b)) by (clear -TS; induction TS; cbn [length]; congruence).
    destruct (extent_ok _ _ P1 P3 W) as [FW EW]. destruct (extent_ok _ _ P2 P4 H) as [FH EH].
    change (dsub (rp_rightX p) (rp_leftX p)) with (rp_width p) in *. change (dsub (rp_lowerY p) (rp_upperY p)) with (rp_height p) in *.
    eexists _, text, ts, weight, italic.
    split. { unfold block_features, fontInfo_at, convert at 1. rewrite FI, T. cbn [obind]. rewrite CW. cbn [obind]. reflexivity. } split; [reflexivity|]. split; [exact T|]. split; [exact TS|]. split; [exact FI|].
    unfold features. cbv zeta.
    split. { destruct (Z.ltb_spec 1 n) as [L|L]; [right|left]; [|split; [lia|reflexivity]]. split; [exact L|]. apply unit_share; lia. }
    split; [apply x_ok; auto|]. split; [apply y_ok; auto|]. split; [apply x_ok; auto|]. split; [apply y_ok; auto|].
    split; [apply scaled_ok; assumption|].
    split; [apply flag_ok, Z.ltb_lt|]. split; [apply flag_ok; tauto|].
    split. { apply flag_ok. rewrite existsb_exists. split; [intros (x & I & X); apply N.eqb_eq in X; subst; exact I|intros I; exists 64%N; split; [exact I|reflexivity]]. }
    split. { apply flag_ok. destruct text as [|c t]; [split; [discriminate|intros (c & t & X & _); discriminate]|]. rewrite iswdigit_ok. split; [intros X; exists c, t; auto|].
             intros (c' & t' & X & D). injection X as -> ->. exact D. }
    split; [apply share_ok; [apply iswdigit_ok|exact digit_not_white|exact TL]|].
    split; [apply share_ok; [apply high_byte_ok|exact high_not_white|exact TL]|].
    split; [apply share_ok; [apply iswpunct_ok| |exact TL]|].
    { intros c [C _] X. unfold white in X. cbn [In] in X. lia. }
    split; [rewrite <- LT; refine (word_share_ok ts _); rewrite <- LT in WL; exact WL|].
    apply share_ok; [apply iswupper_ok| |exact TL]. intros c C X. unfold upper_letter in C. unfold white in X. cbn [In] in X. lia.
  Qed.
  Lemma concat_features {A} (l : list A) (f : A -> outcome (list float)) : (forall x, In x l -> exists vs, f x = Ok vs /\ length vs = 15) ->
    exists vs, concat_outcomes (map f l) = Ok vs /\ length vs = length l * 15 /\ forall i x, nth_error l i = Some x -> f x = Ok (row vs 15 i).
  Proof.
    induction l as [|x l IH]; intros H.
    - exists []. split; [reflexivity|]. split; [reflexivity|]. intros [|i] x X; discriminate.
    - destruct (H x (or_introl eq_refl)) as (v & E & L). destruct IH as (vs & E2 & L2 & R). { intros y I. apply H. right. exact I. }
      exists (v ++ vs). cbn [map concat_outcomes]. rewrite E. cbn [obind]. rewrite E2. cbn [obind]. split; [reflexivity|].
      split; [rewrite app_length; cbn [length]; lia|]. intros [|i] y Y.
      + injection Y as <-. rewrite row_app_0 by exact L. exact E.
      + rewrite row_app_S by exact L. exact (R i y Y).
  Qed.
  Lemma blocks_of_in pages p b : In (p, b) (blocks_of pages) <-> In p pages /\ In b (rp_blocks p).
  Proof.
    unfold blocks_of. rewrite in_concat. split.
    - intros (l & I & J). apply in_map_iff in I as (p' & <- & I). apply in_map_iff in J as (b' & X & J). injection X as -> ->. split; assumption.
    - intros [I J]. exists (map (fun b => (p, b)) (rp_blocks p)). split; [apply in_map_iff; exists p; split; [reflexivity|exact I]|].
      apply in_map_iff. exists b. split; [reflexivity|exact J].
  Qed.
  Lemma blocks_of_snd pages : map snd (blocks_of pages) = concat (map rp_blocks pages).
  Proof.
    unfold blocks_of. rewrite concat_map, map_map. f_equal. apply map_ext. intros p. rewrite map_map. cbn [snd]. apply map_id.
  Qed.
  Lemma layout_ok pages : (Z.of_nat (length pages) < 2 ^ 24)%Z ->
    (forall p b, In (p, b) (blocks_of pages) -> usual_block from fonts (Z.of_nat (length pages)) p b /\ exists k, size_tenths (rb_fontSize b) k) ->
    exists vs, layout_tensor from fonts pages = Ok (vs, (Z.of_nat (length (blocks_of pages)), 15%Z)) /\ length vs = length (blocks_of pages) * 15 /\
      forall i p b, nth_error (blocks_of pages) i = Some (p, b) ->
        exists text words weight italic lo hi k, from (rb_text b) = Some text /\ Forall2 (fun s t => from s = Some t) (rb_words b) words /\
          fonts (rb_fontName b) = Some (weight, italic) /\ size_range pages lo hi /\ size_tenths (rb_fontSize b) k /\
          features (Z.of_nat (length pages)) (IZR lo / 10) (IZR hi / 10) (IZR k / 10) p b weight italic text words (row vs 15 i).
  Proof.
    intros LN H. unfold layout_tensor. set (n := Z.of_nat (length pages)).
    set (f := fun x : rpage * rblock => block_features from fonts n (font_size_range pages) (fst x) (snd x)).
    assert (EQ : concat (map (fun p => map (block_features from fonts n (font_size_range pages) p) (rp_blocks p)) pages) = map f (blocks_of pages)).
    { unfold blocks_of. rewrite concat_map, map_map. f_equal. apply map_ext. intros p. rewrite map_map. reflexivity. }
    rewrite EQ. rewrite <- blocks_of_snd, map_length.
    destruct (blocks_of pages) as [|x0 l0] eqn:EB.
    { exists []. split; [reflexivity|]. split; [reflexivity|]. intros [|i] p b X; discriminate. }
    rewrite <- EB in *.
    assert (NN : (1 <= n < 2 ^ 24)%Z).
    { destruct pages as [|p0 pg]; [discriminate EB|]. unfold n. cbn [length] in *. lia. }
    destruct (range_ok (map snd (blocks_of pages))) as (k1 & k2 & M1 & M2 & (b1 & I1 & Z1) & (b2 & I2 & Z2) & R).
    { rewrite EB. discriminate. }
    { intros b I. apply in_map_iff in I as ([p b'] & E & I). cbn [snd] in E. subst b'. exact (proj2 (H p b I)). }
    rewrite blocks_of_snd in M1, M2. fold (font_size_range pages) in M1, M2.
    destruct (font_size_range pages) as [mn mx] eqn:ER. cbn [fst snd] in M1, M2.
    assert (SR : size_range pages k1 k2).
    { split; [|split].
      - apply in_map_iff in I1 as ([p b'] & E & I). cbn [snd] in E. subst b'. exists p, b1. split; assumption.
      - apply in_map_iff in I2 as ([p b'] & E & I). cbn [snd] in E. subst b'. exists p, b2. split; assumption.
      - intros p b k I K. apply (R b k); [|exact K]. apply in_map_iff. exists (p, b). split; [reflexivity|exact I]. }
    assert (FO : forall p b, In (p, b) (blocks_of pages) -> exists k vs text words weight italic, size_tenths (rb_fontSize b) k /\ f (p, b) = Ok vs /\ length vs = 15 /\
      from (rb_text b) = Some text /\ Forall2 (fun s t => from s = Some t) (rb_words b) words /\ fonts (rb_fontName b) = Some (weight, italic) /\
      features n (IZR k1 / 10) (IZR k2 / 10) (IZR k / 10) p b weight italic text words vs).
    { intros p b I. destruct (H p b I) as [U (k & K)]. assert (KL : (k1 <= k <= k2)%Z) by (destruct SR as (_ & _ & X); exact (X p b k I K)).
      destruct (features_ok n k1 k2 mn mx p b k NN U K M1 M2 KL) as (vs & text & words & weight & italic & A1 & A2 & A3 & A4 & A5 & A6).
      exists k, vs, text, words, weight, italic. split; [exact K|]. split; [exact A1|]. split; [exact A2|]. split; [exact A3|]. split; [exact A4|]. split; [exact A5|exact A6]. }
    destruct (concat_features (blocks_of pages) f) as (vs & E1 & L1 & R1).
    { intros [p b] I. destruct (FO p b I) as (k & vs & text & words & weight & italic & _ & A1 & A2 & _). exists vs. split; assumption. }
    exists vs. rewrite E1. cbn [obind]. split; [reflexivity|]. split; [exact L1|]. intros i p b X.
    destruct (FO p b (nth_error_In _ _ X)) as (k & v & text & words & weight & italic & A0 & A1 & A2 & A3 & A4 & A5 & A6).
    exists text, words, weight, italic, k1, k2, k. split; [exact A3|]. split; [exact A4|]. split; [exact A5|]. split; [exact SR|]. split; [exact A0|].
    specialize (R1 i (p, b) X). assert (EV : v = row vs 15 i) by (rewrite A1 in R1; inversion R1; reflexivity). rewrite <- EV. exact A6.
  Qed.
End Features.
