(** RolesProofs.v - proofs about Roles.v: arg-max and vocabulary files. *)
From Coq Require Import ZArith NArith Reals Lra Lia.
From Flocq Require Import Core IEEE754.BinarySingleNaN.
From Verif Require Import Base Double Float Bpe BpeSpec BpeProofs Elements Roles RolesSpec.

(** ** Order of floats *)
Lemma flt_SF a b : flt a b = SpecFloat.SFltb (B2SF a) (B2SF b). Proof. reflexivity. Qed.
Lemma Bcmp_antisym (a b : float) : Bcompare b a = match Bcompare a b with Some c => Some (CompOpp c) | None => None end.
Proof. apply Bcompare_swap. Qed.
Lemma flt_cmp a b : flt a b = match Bcompare a b with Some Lt => true | _ => false end.
Proof. reflexivity. Qed.
Lemma flt_irrefl a : flt a a = false.
Proof.
  rewrite flt_cmp. pose proof (Bcmp_antisym a a) as H. destruct (Bcompare a a) as [[]|]; try reflexivity. discriminate.
Qed.
Definition FM : R := bpow radix2 128.
Lemma FM_eq : bpow radix2 128 = FM. Proof. reflexivity. Qed.
Lemma FM_pos : (0 < FM)%R. Proof. apply bpow_gt_0. Qed.
Global Opaque FM.
Definition emb (x : float) : R := match x with B754_infinity true => Ropp FM | B754_infinity false => FM | _ => B2R x end.
Lemma emb_fin a : is_finite a = true -> emb a = B2R a.
Proof. destruct a; try reflexivity; discriminate. Qed.
Lemma emb_fin_bound a : is_finite a = true -> (- FM < emb a < FM)%R.
Proof. intros F. rewrite emb_fin by exact F. pose proof (abs_B2R_lt_emax 24 128 a) as HA. apply Rabs_lt_inv in HA. rewrite FM_eq in HA. exact HA. Qed.
Lemma flt_emb a b : is_nan a = false -> is_nan b = false -> flt a b = true <-> (emb a < emb b)%R.
Proof.
  intros NA NB. pose proof FM_pos as BP.
  destruct (is_finite a) eqn:FA, (is_finite b) eqn:FB.
  - rewrite flt_cmp. rewrite (Bcompare_correct 24 128 a b FA FB). rewrite !emb_fin by assumption.
    destruct (Rcompare_spec (B2R a) (B2R b)); split; intros; try reflexivity; try discriminate; lra.
  - pose proof (emb_fin_bound a FA) as HA. set (x := emb a) in *. clearbody x.
    assert (X : (x < emb b)%R <-> flt a b = true); [|tauto].
    destruct b as [sb|[|]| |]; try discriminate; cbn [emb]; destruct a as [sa|[|]| |sa ma ea Ha]; try discriminate;
      (split; intros H; [try reflexivity; exfalso; lra | try lra; discriminate]).
  - pose proof (emb_fin_bound b FB) as HA. set (x := emb b) in *. clearbody x.
    assert (X : (emb a < x)%R <-> flt a b = true); [|tauto].
    destruct a as [sb|[|]| |]; try discriminate; cbn [emb]; destruct b as [sa|[|]| |sa ma ea Ha]; try discriminate;
      (split; intros H; [try reflexivity; exfalso; lra | try lra; discriminate]).
  - destruct a as [|[|]| |]; try discriminate; destruct b as [|[|]| |]; try discriminate; cbn [emb];
      (split; intros H; [try lra; discriminate | try reflexivity; exfalso; lra]).
Qed.
Lemma flt_nn a b : flt a b = true -> is_nan a = false /\ is_nan b = false.
Proof. destruct a, b; cbn; intros; split; try reflexivity; discriminate. Qed.
Lemma flt_trans a b c : flt a b = true -> flt b c = true -> flt a c = true.
Proof.
  intros A B. pose proof (flt_nn _ _ A) as [A1 A2]. pose proof (flt_nn _ _ B) as [_ B2].
  apply flt_emb in A, B; try assumption. apply flt_emb; try assumption. lra.
Qed.
(** c < b, not a < b: c < a unless a is not a number *)
Lemma flt_below a b c : is_nan a = false -> flt b c = true -> flt a c = false -> flt b a = true.
Proof.
  intros NA H1 H2. pose proof (flt_nn _ _ H1) as [B1 B2]. apply flt_emb in H1; try assumption. apply flt_emb; try assumption.
  destruct (Rlt_or_le (emb a) (emb c)) as [X|X]; [apply flt_emb in X; congruence|]. lra.
Qed.

(** ** Arg-max *)
Lemma best_loop_ok data base n : base + n <= length data ->
  forall k best, k <= n ->
    (snd best = 0 /\ fst best = fzero /\ (forall j w, j < k -> nth_error data (base + j) = Some w -> flt fzero w = false) \/
     nth_error data (base + snd best) = Some (fst best) /\ snd best < k /\ flt fzero (fst best) = true /\
       (forall j w, j < k -> nth_error data (base + j) = Some w -> flt (fst best) w = false) /\
       (forall j w, j < snd best -> nth_error data (base + j) = Some w -> flt w (fst best) = true \/ is_nan w = true)) ->
    exists r, best_loop data base (n - k) k best = Ok r /\
    (r = 0 /\ (forall j w, j < n -> nth_error data (base + j) = Some w -> flt fzero w = false) \/
     exists v, nth_error data (base + r) = Some v /\ r < n /\ flt fzero v = true /\
       (forall j w, j < n -> nth_error data (base + j) = Some w -> flt v w = false) /\
       (forall j w, j < r -> nth_error data (base + j) = Some w -> flt w v = true \/ is_nan w = true)).
Proof.
  intros L k best K. remember (n - k) as m eqn:Em. revert k best K Em. induction m as [|m IH]; intros k best K Em INV.
  - assert (k = n) by lia. subst k. exists (snd best). split; [reflexivity|].
    destruct INV as [(A & B & C)|(A & B & C & D & F)]; [left|right]; [split; assumption|].
    exists (fst best). repeat split; assumption.
  - cbn [best_loop]. destruct (nth_error data (base + k)) as [v|] eqn:EV.
    2:{ apply nth_error_None in EV. lia. }
    apply IH; [lia|lia|]. unfold fgt. destruct (flt (fst best) v) eqn:FV.
    + right. cbn [fst snd].
      assert (POS : flt fzero v = true).
      { destruct INV as [(A & B & C)|(A & B & C & D & F)]; [rewrite <- B; exact FV|exact (flt_trans _ _ _ C FV)]. }
      split; [exact EV|]. split; [lia|]. split; [exact POS|].
      assert (LT : forall j w, j < k -> nth_error data (base + j) = Some w -> flt (fst best) w = false).
      { intros j w J W. destruct INV as [(A & B & C)|(A & B & C & D & F)]; [rewrite B; exact (C j w J W)|exact (D j w J W)]. }
      split.
      * intros j w J W. destruct (Nat.eq_dec j k) as [->|NE].
        -- rewrite EV in W. injection W as <-. apply flt_irrefl.
        -- destruct (flt v w) eqn:X; [|reflexivity]. specialize (LT j w ltac:(lia) W). rewrite (flt_trans _ _ _ FV X) in LT. discriminate.
      * intros j w J W. specialize (LT j w J W). destruct (is_nan w) eqn:NW; [right; reflexivity|left].
        (* not best < w, best < v: w < v *)
        pose proof (flt_nn _ _ FV) as [B1 B2].
        apply flt_emb; try assumption. apply flt_emb in FV; try assumption.
        destruct (Rlt_or_le (emb (fst best)) (emb w)) as [X|X]; [apply flt_emb in X; congruence|]. lra.
    + destruct INV as [(A & B & C)|(A & B & C & D & F)]; [left|right].
      * split; [exact A|]. split; [exact B|]. intros j w J W. destruct (Nat.eq_dec j k) as [->|NE]; [|exact (C j w ltac:(lia) W)].
        rewrite EV in W. injection W as <-. rewrite <- B. exact FV.
      * split; [exact A|]. split; [lia|]. split; [exact C|]. split; [|exact F].
        intros j w J W. destruct (Nat.eq_dec j k) as [->|NE]; [|exact (D j w ltac:(lia) W)].
        rewrite EV in W. injection W as <-. exact FV.
Qed.
Lemma nth_error_row {A} (data : list A) n i j : j < n -> nth_error (row data n i) j = nth_error data (i * n + j).
Proof.
  intros J. unfold row. set (k := i * n). clearbody k. revert J. revert data n j k.
  assert (F : forall (l : list A) n j, j < n -> nth_error (firstn n l) j = nth_error l j).
  { intros l n. revert l. induction n as [|n IH]; intros l j J; [lia|]. destruct l as [|x l]; [destruct j; reflexivity|].
    destruct j as [|j]; [reflexivity|]. cbn. apply IH. lia. }
  assert (Sk : forall k (l : list A) j, nth_error (skipn k l) j = nth_error l (k + j)).
  { induction k as [|k IH]; intros l j; [reflexivity|]. destruct l as [|x l]; [destruct j; reflexivity|]. cbn. apply IH. }
  intros data n j k J. rewrite F by exact J. apply Sk.
Qed.
Lemma row_len {A} (data : list A) n i : length (row data n i) <= n.
Proof. unfold row. rewrite firstn_length. lia. Qed.
Lemma best_chosen data n i : i * n + n <= length data ->
  exists r, best_loop data (i * n) n 0 (fzero, 0) = Ok r /\ chosen (row data n i) r /\ (r < n \/ r = 0).
Proof.
  intros L. destruct (best_loop_ok data (i * n) n L 0 (fzero, 0)) as (r & E & H); [lia| |].
  { left. split; [reflexivity|]. split; [reflexivity|]. intros j w J. lia. }
  rewrite Nat.sub_0_r in E. exists r. split; [exact E|].
  assert (IN : forall w, In w (row data n i) -> exists j, j < n /\ nth_error data (i * n + j) = Some w).
  { intros w W. apply In_nth_error in W as (j & W). assert (J : j < n).
    { assert (X : nth_error (row data n i) j <> None) by congruence. apply nth_error_Some in X. pose proof (row_len data n i). lia. }
    exists j. split; [exact J|]. rewrite <- nth_error_row by exact J. exact W. }
  destruct H as [(A & B)|(v & A & B & C & D & F)]; (split; [|auto]).
  - left. split; [|exact A]. intros w W. destruct (IN w W) as (j & J & Q). exact (B j w J Q).
  - right. exists v. split; [rewrite nth_error_row by exact B; exact A|]. split; [exact C|]. split.
    + intros w W. destruct (IN w W) as (j & J & Q). exact (D j w J Q).
    + intros j w J W. rewrite nth_error_row in W by lia. exact (F j w J W).
Qed.
Lemma assign_roles_ok data yDim n : forall i, (i + n) * yDim <= length data ->
  exists roles, assign_roles data yDim n i = Ok roles /\ length roles = n /\
    forall j r, nth_error roles j = Some r -> chosen (row data yDim (i + j)) r /\ (r < yDim \/ r = 0).
Proof.
  induction n as [|n IH]; intros i L.
  - exists []. split; [reflexivity|]. split; [reflexivity|]. intros [|j] r H; discriminate.
  - destruct (best_chosen data yDim i) as (r & E & C & B); [cbn in L; nia|].
    destruct (IH (S i)) as (rs & E2 & L2 & H2); [cbn in *; nia|].
    exists (r :: rs). cbn [assign_roles]. rewrite E. cbn [obind]. rewrite E2. cbn [obind]. split; [reflexivity|].
    split; [cbn; lia|]. intros [|j] r' H.
    + injection H as <-. rewrite Nat.add_0_r. split; assumption.
    + cbn in H. replace (i + S j) with (S i + j) by lia. exact (H2 j r' H).
Qed.
Lemma chosen_unique row r r' : chosen row r -> chosen row r' -> r = r'.
Proof.
  intros [[A ->]|(v & A & B & C & D)] [[A' ->]|(v' & A' & B' & C' & D')]; try reflexivity.
  - apply nth_error_In in A'. rewrite (A _ A') in B'. discriminate.
  - apply nth_error_In in A. rewrite (A' _ A) in B. discriminate.
  - destruct (Nat.lt_trichotomy r r') as [L|[L|L]]; [|exact L|].
    + destruct (D' _ _ L A) as [X|X].
      * apply nth_error_In in A'. rewrite (C _ A') in X. discriminate.
      * pose proof (flt_nn _ _ B) as [_ Y]. congruence.
    + destruct (D _ _ L A') as [X|X].
      * apply nth_error_In in A. rewrite (C' _ A) in X. discriminate.
      * pose proof (flt_nn _ _ B') as [_ Y]. congruence.
Qed.
