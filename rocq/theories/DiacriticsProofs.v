(** DiacriticsProofs.v - proofs about the merging of diacritical marks. *)
From Coq Require Import ZArith NArith Reals Lra.
From Flocq Require Import Core.
From Verif Require Import Base Double DoubleFacts MathUtils MathUtilsProofs Elements ElementsProofs Document Diacritics GeometrySpec
  GridProofs DiacriticsSpec.
Local Open Scope nat_scope.
Local Opaque TOL dZ dadd dsub ddiv DBL_MAX DBL_MIN.

Lemma update_same {A} i (x : A) l : i < length l -> nth_error (update i x l) i = Some x.
Proof. revert i. induction l as [|h t IH]; intros [|i] H; cbn in *; try lia; [reflexivity|]. apply IH. lia. Qed.
Lemma update_other {A} i (x : A) l j : j <> i -> nth_error (update i x l) j = nth_error l j.
Proof.
  revert i j. induction l as [|h t IH]; intros i j H; [destruct i; reflexivity|].
  destruct i as [|i], j as [|j]; cbn; try congruence; try reflexivity. apply IH. congruence.
Qed.

Lemma combining_map u0 u : combining u0 = u <->
  (In (u0, u) COMBINING_MAP \/ (forall v, ~ In (u0, v) COMBINING_MAP) /\ u = u0).
Proof.
  unfold combining. destruct (find _ COMBINING_MAP) as [[a b]|] eqn:F.
  - pose proof (find_some _ _ F) as [I Q]. cbn [fst snd] in *. apply N.eqb_eq in Q. subst a. split.
    + intros <-. left. exact I.
    + intros [I'|[N _]]; [|destruct (N _ I)].
      assert (U : forallb (fun p => forallb (fun q => negb (N.eqb (fst p) (fst q)) || N.eqb (snd p) (snd q)) COMBINING_MAP) COMBINING_MAP = true)
        by (vm_compute; reflexivity).
      rewrite forallb_forall in U. specialize (U _ I). rewrite forallb_forall in U. specialize (U _ I'). cbn [fst snd] in U.
      rewrite N.eqb_refl in U. cbn in U. apply N.eqb_eq in U. exact U.
  - split.
    + intros <-. right. split; [|reflexivity]. intros v I. pose proof (find_none _ _ F _ I) as Q. cbn [fst] in Q.
      rewrite N.eqb_refl in Q. discriminate.
    + intros [I|[_ E]]; [|congruence]. pose proof (find_none _ _ F _ I) as Q. cbn [fst] in Q. rewrite N.eqb_refl in Q. discriminate.
Qed.


Lemma forms_map u0 u : spacing_form u0 u <-> In (u0, u) COMBINING_MAP.
Proof.
  assert (A : forallb (fun e => forallb (fun a => existsb (fun q => N.eqb a (fst q) && N.eqb (fst e) (snd q)) COMBINING_MAP) (snd e)) SPACING_FORMS = true)
    by (vm_compute; reflexivity).
  assert (B : forallb (fun q => existsb (fun e => N.eqb (fst e) (snd q) && existsb (N.eqb (fst q)) (snd e)) SPACING_FORMS) COMBINING_MAP = true)
    by (vm_compute; reflexivity).
  rewrite forallb_forall in A, B. split.
  - intros (us & I & J). specialize (A _ I). cbn [fst snd] in A. rewrite forallb_forall in A. specialize (A _ J).
    apply existsb_exists in A as ([a b] & K & E). cbn [fst snd] in E. apply andb_true_iff in E as [E1 E2].
    apply N.eqb_eq in E1, E2. subst. exact K.
  - intros I. specialize (B _ I). apply existsb_exists in B as ([b us] & K & E). cbn [fst snd] in E.
    apply andb_true_iff in E as [E1 E2]. apply N.eqb_eq in E1. apply existsb_exists in E2 as (a & J & E2). apply N.eqb_eq in E2.
    subst. exists us. split; assumption.
Qed.
Lemma combining_spec u0 u : combining u0 = u <-> (spacing_form u0 u \/ (forall v, ~ spacing_form u0 v) /\ u = u0).
Proof.
  rewrite combining_map, forms_map.
  assert ((forall v, ~ In (u0, v) COMBINING_MAP) <-> (forall v, ~ spacing_form u0 v)) by (split; intros H v; specialize (H v); rewrite forms_map in *; exact H).
  tauto.
Qed.

Lemma mark_unicode_spec c u : mark_unicode c = Some u <-> is_mark c u.
Proof.
  unfold mark_unicode, is_mark. split.
  - destruct (c_unicodes c) as [|u0 [|u1 l]]; try discriminate. intros H.
    destruct (_ || _) eqn:R in H; [|discriminate]. injection H as <-. exists u0. split; [reflexivity|].
    split; [apply combining_spec; reflexivity|].
    apply orb_true_iff in R as [R|R]; apply andb_true_iff in R as [R1 R2]; apply N.leb_le in R1, R2; lia.
  - intros (u0 & -> & M & B). apply combining_spec in M. cbv zeta. rewrite M.
    destruct (_ || _) eqn:R; [reflexivity|]. apply orb_false_iff in R as [R1 R2]. apply andb_false_iff in R1, R2.
    rewrite !N.leb_gt in R1, R2. lia.
Qed.
Lemma is_mark_fun c u v : is_mark c u -> is_mark c v -> u = v.
Proof. intros A B. apply mark_unicode_spec in A, B. congruence. Qed.
Lemma same_mark c c' u : same_glyph c c' -> is_mark c u -> is_mark c' u.
Proof. intros (_ & _ & _ & _ & _ & E & _) (u0 & H). exists u0. rewrite E. exact H. Qed.
Lemma same_mark' c c' u : same_glyph c c' -> is_mark c' u -> is_mark c u.
Proof. intros (_ & _ & _ & _ & _ & E & _) (u0 & H). exists u0. rewrite <- E. exact H. Qed.

(** What one step does. *)
Definition merged (compose : list N -> str) (cs : list character) (i : nat) (u : N) (j : nat) (cs' : list character) : Prop :=
  exists c b, nth_error cs i = Some c /\ nth_error cs j = Some b /\ i <> j /\ length cs' = length cs /\
    nth_error cs' i = Some (set_mark_of c j) /\
    nth_error cs' j = Some (set_base_of b i (compose (c_unicodes b ++ [u])) (bbox_add (c_pos b) (c_pos c))) /\
    forall k, k <> i -> k <> j -> nth_error cs' k = nth_error cs k.

Lemma diac_step_spec compose cs i : i < length cs ->
  (((forall u j, ~ attaches cs i u j) /\ diac_step compose cs i = Ok cs) \/
   (exists u j cs', attaches cs i u j /\ merged compose cs i u j cs' /\ diac_step compose cs i = Ok cs')) \/
  (exists w, diac_step compose cs i = UB w).
Proof.
  intros Hi. unfold diac_step. destruct (nth_error cs i) as [c|] eqn:Ec; [|apply nth_error_None in Ec; lia].
  destruct (mark_unicode c) as [u|] eqn:Eu.
  2:{ left. left. split; [|reflexivity]. intros u j (c' & E' & M & _). apply mark_unicode_spec in M. congruence. }
  apply mark_unicode_spec in Eu.
  assert (EP : prev_overlap (match i with 0 => None | S j => nth_error cs j end) c = overlap_before cs i).
  { destruct i as [|j]; [reflexivity|]. unfold overlap_before, x_overlap. rewrite Ec. unfold prev_overlap.
    destruct (nth_error cs j); reflexivity. }
  assert (EN : next_overlap c (nth_error cs (S i)) = overlap_after cs i).
  { unfold overlap_after, x_overlap. rewrite Ec. reflexivity. }
  rewrite EP, EN. clear EP EN.
  destruct (equal (overlap_before cs i) dzero TOL && equal (overlap_after cs i) dzero TOL) eqn:EQ.
  { left. left. split; [|reflexivity]. apply andb_true_iff in EQ as [E1 E2].
    intros u' j (c' & _ & _ & [H|H] & _); congruence. }
  assert (OR : equal (overlap_before cs i) dzero TOL = false \/ equal (overlap_after cs i) dzero TOL = false).
  { apply andb_false_iff in EQ. exact EQ. } clear EQ.
  destruct (larger (overlap_before cs i) (overlap_after cs i) TOL) eqn:EL.
  - destruct i as [|j].
    { right. eexists. reflexivity. }
    cbn [Nat.pred]. destruct (nth_error cs j) as [b|] eqn:Eb; [|right; eexists; reflexivity].
    left. right. exists u, j. eexists. split; [|split; [|reflexivity]].
    + exists c. repeat split; auto. lia.
    + exists c, b. repeat split; auto.
      * rewrite !update_length. reflexivity.
      * rewrite update_other by lia. apply update_same. lia.
      * apply update_same. rewrite update_length. lia.
      * intros k K1 K2. rewrite !update_other by auto. reflexivity.
  - destruct (nth_error cs (S i)) as [b|] eqn:Eb; [|right; eexists; reflexivity].
    assert (S i < length cs) by (apply nth_error_Some; congruence).
    left. right. exists u, (S i). eexists. split; [|split; [|reflexivity]].
    + exists c. repeat split; auto.
    + exists c, b. repeat split; auto.
      * rewrite !update_length. reflexivity.
      * rewrite update_other by lia. apply update_same. lia.
      * apply update_same. rewrite update_length. lia.
      * intros k K1 K2. rewrite !update_other by auto. reflexivity.
Qed.

(** The run as a sequence of states. *)
Definition trace (compose : list N -> str) (cs cs' : list character) (st : nat -> list character) : Prop :=
  st 0 = cs /\ st (length cs) = cs' /\ (forall i, length (st i) = length cs) /\
  forall i, i < length cs ->
    ((forall u j, ~ attaches (st i) i u j) /\ st (S i) = st i) \/
    (exists u j, attaches (st i) i u j /\ merged compose (st i) i u j (st (S i))).

Lemma diac_loop_trace compose : forall n k cs cs', diac_loop compose cs (seq k n) = Ok cs' -> k + n = length cs ->
  exists st, st k = cs /\ st (k + n) = cs' /\ (forall i, length (st i) = length cs) /\
    forall i, k <= i < k + n ->
      ((forall u j, ~ attaches (st i) i u j) /\ st (S i) = st i) \/
      (exists u j, attaches (st i) i u j /\ merged compose (st i) i u j (st (S i))).
Proof.
  induction n as [|n IH]; intros k cs cs' H HL.
  - cbn [seq diac_loop] in H. injection H as <-. exists (fun _ => cs). repeat split. intros i Hi. lia.
  - cbn [seq diac_loop] in H. destruct (diac_step compose cs k) as [c1|w|w] eqn:E; cbn [obind] in H; try discriminate.
    assert (Hk : k < length cs) by lia.
    assert (HS : ((forall u j, ~ attaches cs k u j) /\ c1 = cs) \/ (exists u j, attaches cs k u j /\ merged compose cs k u j c1)).
    { destruct (diac_step_spec compose cs k Hk) as [[[N E']|(u & j & c' & A & M & E')]|[w E']].
      - left. split; [exact N|congruence].
      - right. exists u, j. split; [exact A|]. congruence.
      - congruence. }
    assert (L1 : length c1 = length cs).
    { destruct HS as [[_ ->]|(u & j & _ & (c & b & _ & _ & _ & L & _))]; [reflexivity|exact L]. }
    destruct (IH (S k) c1 cs' H) as (st & S0 & Sn & SL & SS). { lia. }
    exists (fun i => if i <=? k then cs else st i). split; [rewrite Nat.leb_refl; reflexivity|]. split; [|split].
    + destruct (Nat.leb_spec (k + S n) k); [lia|]. rewrite <- Sn. f_equal. lia.
    + intros i. destruct (i <=? k); [reflexivity|]. rewrite SL. exact L1.
    + intros i Hi. destruct (Nat.eq_dec i k) as [->|Ne].
      * rewrite Nat.leb_refl. destruct (Nat.leb_spec (S k) k); [lia|]. rewrite S0.
        destruct HS as [[N ->]|HS]; [left; split; [exact N|reflexivity]|right; exact HS].
      * destruct (Nat.leb_spec i k); [lia|]. destruct (Nat.leb_spec (S i) k); [lia|]. apply SS. lia.
Qed.
Lemma merge_trace compose cs cs' : merge_marks compose cs = Ok cs' -> exists st, trace compose cs cs' st.
Proof.
  intros H. destruct (diac_loop_trace compose (length cs) 0 cs cs' H eq_refl) as (st & A & B & C & D).
  exists st. split; [exact A|]. split; [exact B|]. split; [exact C|]. intros i Hi. apply D. lia.
Qed.

(** The invariant after [k] steps. *)
Definition adj (i j : nat) : Prop := i = S j \/ j = S i.
Record inv (compose : list N -> str) (cs st : list character) (k : nat) : Prop := {
  inv_len : length st = length cs;
  inv_same : forall i c c', nth_error cs i = Some c -> nth_error st i = Some c' -> same_glyph c c';
  inv_later : forall i c', nth_error st i = Some c' -> k <= i -> c_markOf c' = None;
  inv_mark : forall i c' j, nth_error st i = Some c' -> c_markOf c' = Some j ->
    (exists c u, nth_error cs i = Some c /\ is_mark c u) /\ adj i j /\ exists b', nth_error st j = Some b' /\ c_hasMark b' <> None;
  inv_base : forall i c' m, nth_error st i = Some c' -> c_hasMark c' = Some m ->
    exists cm cm' u, nth_error cs m = Some cm /\ nth_error st m = Some cm' /\ is_mark cm u /\ c_markOf cm' = Some i /\
      c_textWithMark c' = compose (c_unicodes c' ++ [u]);
  inv_free : forall i c c', nth_error cs i = Some c -> nth_error st i = Some c' -> c_hasMark c' = None ->
    c_pos c' = c_pos c /\ c_textWithMark c' = c_textWithMark c;
  inv_box : (forall c, In c cs -> nn_pos (c_pos c)) ->
    forall i c c', nth_error cs i = Some c -> nth_error st i = Some c' ->
      nn_pos (c_pos c') /\ covers (c_pos c') (c_pos c) /\
      forall m cm cm', nth_error cs m = Some cm -> nth_error st m = Some cm' -> c_markOf cm' = Some i -> covers (c_pos c') (c_pos cm) }.

Lemma same_refl c : same_glyph c c. Proof. repeat split. Qed.
Lemma same_trans a b c : same_glyph a b -> same_glyph b c -> same_glyph a c.
Proof. unfold same_glyph. intuition congruence. Qed.
Lemma covers_refl p : nn_pos p -> covers p p.
Proof. intros (A & B & C & D). repeat split; apply dle_refl; assumption. Qed.
Lemma covers_trans a b c : covers a b -> covers b c -> covers a c.
Proof. intros (A & B & C & D) (A' & B' & C' & D'). repeat split; eapply dle_trans; eassumption. Qed.
Lemma bbox_add_covers p q : nn_pos p -> nn_pos q -> nn_pos (bbox_add p q) /\ covers (bbox_add p q) p /\ covers (bbox_add p q) q.
Proof.
  intros (A & B & C & D) (A' & B' & C' & D'). unfold nn_pos, covers, bbox_add. cbn [leftX upperY rightX lowerY].
  repeat split; first [apply minimum_nn; assumption | apply maximum_nn; assumption | apply minimum_le_l; assumption
    | apply minimum_le_r; assumption | apply maximum_ge_l; assumption | apply maximum_ge_r; assumption].
Qed.

Lemma inv_init compose cs : unmerged cs -> inv compose cs cs 0.
Proof.
  intros U.
  assert (Um : forall i c, nth_error cs i = Some c -> c_markOf c = None /\ c_hasMark c = None).
  { intros i c H. apply U. eapply nth_error_In, H. }
  split.
  - reflexivity.
  - intros i c c' H1 H2. replace c' with c by congruence. apply same_refl.
  - intros i c' H _. apply (Um _ _ H).
  - intros i c' j H M. destruct (Um _ _ H). congruence.
  - intros i c' m H M. destruct (Um _ _ H). congruence.
  - intros i c c' H1 H2 _. replace c' with c by congruence. split; reflexivity.
  - intros NN i c c' H1 H2. replace c' with c by congruence. assert (nn_pos (c_pos c)) by (apply NN; eapply nth_error_In, H1).
    split; [assumption|]. split; [apply covers_refl; assumption|]. intros m cm cm' M1 M2 M3. destruct (Um _ _ M2). congruence.
Qed.

Lemma inv_keep compose cs st k : inv compose cs st k -> inv compose cs st (S k).
Proof. intros [A B C D E F G]. split; auto. intros i c' H L. apply (C i c' H). lia. Qed.

Lemma inv_step compose cs st k u j st' : inv compose cs st k -> attaches st k u j -> merged compose st k u j st' ->
  inv compose cs st' (S k).
Proof.
  intros I A (c & b & Ec & Eb & Ne & L & Ek & Ej & Eo).
  destruct A as (c0 & Ec0 & Mk & _ & Dir & _). rewrite Ec in Ec0. injection Ec0 as <-.
  assert (AD : adj k j) by (unfold adj; intuition).
  set (b' := set_base_of b k (compose (c_unicodes b ++ [u])) (bbox_add (c_pos b) (c_pos c))) in *.
  set (c' := set_mark_of c j) in *.
  (* what an element of st' looks like *)
  assert (INV : forall i x', nth_error st' i = Some x' -> exists x, nth_error st i = Some x /\ same_glyph x x' /\
     (i = k -> x = c /\ x' = c') /\ (i = j -> x = b /\ x' = b') /\ (i <> k -> i <> j -> x' = x)).
  { intros i x' H. destruct (Nat.eq_dec i k) as [->|N1].
    - exists c. rewrite Ek in H. injection H as <-. split; [exact Ec|]. split; [repeat split|]. split; [auto|]. split; [congruence|]. congruence.
    - destruct (Nat.eq_dec i j) as [->|N2].
      + exists b. rewrite Ej in H. injection H as <-. split; [exact Eb|]. split; [repeat split|]. split; [congruence|]. split; [auto|]. congruence.
      + exists x'. rewrite Eo in H by assumption. split; [exact H|]. split; [apply same_refl|]. split; [congruence|]. split; [congruence|]. auto. }
  assert (HM : forall i x', nth_error st' i = Some x' -> i <> k -> exists x, nth_error st i = Some x /\ c_markOf x' = c_markOf x).
  { intros i x' H N. destruct (INV i x' H) as (x & Hx & _ & _ & H2 & H3). exists x. split; [exact Hx|].
    destruct (Nat.eq_dec i j) as [->|N2]; [destruct (H2 eq_refl) as [-> ->]; reflexivity|]. rewrite (H3 N N2). reflexivity. }
  assert (HB : forall i x', nth_error st' i = Some x' -> i <> j -> exists x, nth_error st i = Some x /\ c_hasMark x' = c_hasMark x
     /\ c_textWithMark x' = c_textWithMark x /\ c_pos x' = c_pos x /\ c_unicodes x' = c_unicodes x).
  { intros i x' H N. destruct (INV i x' H) as (x & Hx & _ & H1 & _ & H3). exists x. split; [exact Hx|].
    destruct (Nat.eq_dec i k) as [->|N2]; [destruct (H1 eq_refl) as [-> ->]; repeat split|]. rewrite (H3 N2 N). repeat split. }
  split.
  - rewrite L. apply (inv_len _ _ _ _ I).
  - intros i x x' Hx Hx'. destruct (INV i x' Hx') as (y & Hy & SY & _). eapply same_trans; [|exact SY].
    exact (inv_same _ _ _ _ I i x y Hx Hy).
  - intros i x' H Hi. destruct (HM i x' H) as (x & Hx & ->); [lia|]. apply (inv_later _ _ _ _ I i x Hx). lia.
  - intros i x' j' H M. destruct (Nat.eq_dec i k) as [->|N].
    + rewrite Ek in H. injection H as <-. cbn in M. injection M as <-. split; [|split; [exact AD|]].
      * assert (k < length cs) as Hk. { rewrite <- (inv_len _ _ _ _ I). apply nth_error_Some. congruence. }
        destruct (nth_error cs k) as [y|] eqn:Ey; [|apply nth_error_None in Ey; lia]. exists y, u. split; [reflexivity|].
        eapply same_mark'; [|exact Mk]. exact (inv_same _ _ _ _ I k y c Ey Ec).
      * exists b'. split; [exact Ej|]. discriminate.
    + destruct (HM i x' H N) as (x & Hx & EM). rewrite EM in M.
      destruct (inv_mark _ _ _ _ I i x j' Hx M) as (H1 & H2 & y & Hy & H3). split; [exact H1|]. split; [exact H2|].
      destruct (Nat.eq_dec j' j) as [->|N2]; [exists b'; split; [exact Ej|discriminate]|].
      destruct (nth_error st' j') as [y'|] eqn:Ey'.
      2:{ apply nth_error_None in Ey'. assert (j' < length st) by (apply nth_error_Some; congruence). lia. }
      exists y'. split; [reflexivity|]. destruct (HB j' y' Ey' N2) as (z & Hz & -> & _). congruence.
  - intros i x' m H M. destruct (Nat.eq_dec i j) as [->|N].
    + rewrite Ej in H. injection H as <-. cbn in M. injection M as <-.
      assert (k < length cs) as Hk. { rewrite <- (inv_len _ _ _ _ I). apply nth_error_Some. congruence. }
      destruct (nth_error cs k) as [y|] eqn:Ey; [|apply nth_error_None in Ey; lia]. exists y, c', u.
      split; [reflexivity|]. split; [exact Ek|]. split; [|split; reflexivity].
      eapply same_mark'; [|exact Mk]. exact (inv_same _ _ _ _ I k y c Ey Ec).
    + destruct (HB i x' H N) as (x & Hx & EM & ET & _ & EU). rewrite EM in M.
      destruct (inv_base _ _ _ _ I i x m Hx M) as (cm & cm' & v & H1 & H2 & H3 & H4 & H5).
      assert (NK : m <> k). { intros ->. pose proof (inv_later _ _ _ _ I k cm' H2 (le_n _)). congruence. }
      destruct (nth_error st' m) as [z'|] eqn:Ez.
      2:{ apply nth_error_None in Ez. assert (m < length st) by (apply nth_error_Some; congruence). lia. }
      exists cm, z', v. split; [exact H1|]. split; [reflexivity|]. split; [exact H3|].
      destruct (HM m z' Ez NK) as (z & Hz & EZ). rewrite EZ, ET, EU. split; [|exact H5]. replace z with cm' by congruence. exact H4.
  - intros i x x' Hx Hx' M. assert (i <> j). { intros ->. rewrite Ej in Hx'. injection Hx' as <-. discriminate. }
    destruct (HB i x' Hx' H) as (y & Hy & EM & ET & EP & _). rewrite EM in M.
    destruct (inv_free _ _ _ _ I i x y Hx Hy M). split; congruence.
  - intros NN i x x' Hx Hx'.
    assert (NC : nn_pos (c_pos c)).
    { assert (k < length cs) as Hk. { rewrite <- (inv_len _ _ _ _ I). apply nth_error_Some. congruence. }
      destruct (nth_error cs k) as [y|] eqn:Ey; [|apply nth_error_None in Ey; lia]. apply (inv_box _ _ _ _ I NN k y c Ey Ec). }
    destruct (Nat.eq_dec i j) as [->|N].
    + rewrite Ej in Hx'. injection Hx' as <-. destruct (inv_box _ _ _ _ I NN j x b Hx Eb) as (N1 & C1 & M1).
      cbn [b' set_base_of c_pos]. destruct (bbox_add_covers _ _ N1 NC) as (N2 & C2 & C3). split; [exact N2|].
      split; [eapply covers_trans; [exact C2|exact C1]|]. intros m cm cm' Hm Hm' MM.
      destruct (Nat.eq_dec m k) as [->|Nk].
      * eapply covers_trans; [exact C3|]. apply (inv_box _ _ _ _ I NN k cm c Hm Ec).
      * destruct (HM m cm' Hm' Nk) as (z & Hz & EM). rewrite EM in MM. eapply covers_trans; [exact C2|]. exact (M1 m cm z Hm Hz MM).
    + destruct (HB i x' Hx' N) as (y & Hy & _ & _ & EP & _). rewrite EP.
      destruct (inv_box _ _ _ _ I NN i x y Hx Hy) as (N1 & C1 & M1). split; [exact N1|]. split; [exact C1|].
      intros m cm cm' Hm Hm' MM. destruct (Nat.eq_dec m k) as [->|Nk].
      * rewrite Ek in Hm'. injection Hm' as <-. cbn in MM. congruence.
      * destruct (HM m cm' Hm' Nk) as (z & Hz & EM). rewrite EM in MM. exact (M1 m cm z Hm Hz MM).
Qed.

Lemma trace_inv compose cs cs' st : unmerged cs -> trace compose cs cs' st -> forall k, k <= length cs -> inv compose cs (st k) k.
Proof.
  intros U (S0 & _ & _ & SS) k. induction k as [|k IH]; intros Hk.
  - rewrite S0. apply inv_init, U.
  - destruct (SS k) as [[_ ->]|(u & j & A & M)]; [lia| |].
    + apply inv_keep, IH. lia.
    + eapply inv_step; [apply IH; lia|exact A|exact M].
Qed.
Lemma merge_inv compose cs cs' : unmerged cs -> merge_marks compose cs = Ok cs' -> inv compose cs cs' (length cs).
Proof.
  intros U H. destruct (merge_trace _ _ _ H) as (st & T). pose proof (trace_inv _ _ _ _ U T (length cs) (le_n _)) as I.
  destruct T as (_ & <- & _). exact I.
Qed.

(** ** With parsed coordinates nothing undefined happens *)
Lemma tenth_interval s e : rounded1 s -> rounded1 e -> finite_interval s e.
Proof.
  intros Hs He. destruct (rounded1_tenth s Hs) as [k K], (rounded1_tenth e He) as [l L].
  pose proof (tenth_err _ _ K) as [_ BK]. pose proof (tenth_err _ _ L) as [_ BL].
  destruct K as (_ & Fs & _), L as (_ & Fe & _). split; [exact Fs|]. split; [exact Fe|].
  assert (FM : is_fin (maximum s e) = true) by (destruct (maximum_cases s e) as [-> | ->]; assumption).
  assert (Fm : is_fin (minimum s e) = true) by (destruct (minimum_cases s e) as [-> | ->]; assumption).
  assert (BM : (Rabs (E (maximum s e)) <= 100000001)%R) by (destruct (maximum_cases s e) as [-> | ->]; assumption).
  assert (Bm : (Rabs (E (minimum s e)) <= 100000001)%R) by (destruct (minimum_cases s e) as [-> | ->]; assumption).
  destruct (dsub_E _ _ FM Fm) as [N EQ]. apply E_fin_iff; [exact N|]. rewrite EQ.
  apply Rabs_le_inv in BM, Bm.
  assert (B : (Rabs (E (maximum s e) - E (minimum s e)) <= bpow radix2 30)%R).
  { rewrite e30. apply Rabs_le. lra. }
  pose proof (rd_err _ B) as RE. rewrite e22 in RE. apply Rabs_le_inv in RE. pose proof M_big. rewrite e30 in B. apply Rabs_le_inv in B.
  rewrite clamp_id; lra.
Qed.
Lemma parsed_overlap p q : parsed_coordinates p -> parsed_coordinates q ->
  dle dzero (computeMaxXOverlapRatio p q) = true.
Proof.
  intros (A & B & C & D) (A' & B' & C' & D').
  apply max_overlap_all; apply tenth_interval; assumption.
Qed.
Lemma rounded1_min a b : rounded1 a -> rounded1 b -> rounded1 (minimum a b).
Proof. destruct (minimum_cases a b) as [-> | ->]; auto. Qed.
Lemma rounded1_max a b : rounded1 a -> rounded1 b -> rounded1 (maximum a b).
Proof. destruct (maximum_cases a b) as [-> | ->]; auto. Qed.
Lemma bbox_add_parsed p q : parsed_coordinates p -> parsed_coordinates q -> parsed_coordinates (bbox_add p q).
Proof.
  intros (A & B & C & D) (A' & B' & C' & D'). unfold bbox_add. repeat split; cbn [leftX upperY rightX lowerY];
  first [apply rounded1_min|apply rounded1_max]; assumption.
Qed.

Lemma zero_equal : equal dzero dzero TOL = true. Proof. vm_compute. reflexivity. Qed.
Lemma TOL_pos : dle dzero TOL = true. Proof. vm_compute. reflexivity. Qed.
Lemma TOL_fin : is_fin TOL = true. Proof. vm_compute. reflexivity. Qed.
Lemma zero_E : E dzero = 0%R. Proof. reflexivity. Qed.
Lemma zero_not_larger r : dle dzero r = true -> larger dzero r TOL = false.
Proof.
  intros H. destruct (larger dzero r TOL) eqn:L; [|reflexivity]. apply larger_gt in L; [|apply TOL_pos].
  pose proof (dlt_le_trans _ _ _ L H) as X. rewrite dlt_irrefl in X. discriminate.
Qed.
Lemma sub_zero r : is_fin r = true -> E (dsub r dzero) = E r.
Proof.
  intros F. destruct (dsub_E r dzero F eq_refl) as [_ ->]. rewrite zero_E, Rminus_0_r.
  rewrite (E_fin r F). rewrite rd_B2R. apply clamp_id. rewrite <- (E_fin r F). apply E_bound.
Qed.
Lemma add_zero_tol : E (dadd dzero TOL) = E TOL.
Proof. apply deq_E; vm_compute; reflexivity. Qed.
Lemma not_zero_larger r : is_fin r = true -> dle dzero r = true -> equal r dzero TOL = false -> larger r dzero TOL = true.
Proof.
  intros F P Q. unfold equal in Q. destruct (dsub_E r dzero F eq_refl) as [N _].
  destruct (dabs_E _ N) as [N' A]. apply dle_Ef in Q; [|exact N'|apply fin_nn, TOL_fin].
  rewrite A, sub_zero in Q by exact F. unfold larger, dgt. apply dlt_E.
  - vm_compute. reflexivity.
  - apply fin_nn, F.
  - rewrite add_zero_tol. apply dle_E in P; [|reflexivity|apply fin_nn, F]. rewrite zero_E in P. rewrite Rabs_right in Q by lra. lra.
Qed.
Lemma one_fin r : dle dzero r = true -> dle r done = true -> is_fin r = true.
Proof.
  intros A B. destruct (dle_nn _ _ A) as [_ N]. apply E_fin_iff; [exact N|].
  apply dle_E in A; [|reflexivity|exact N]. apply dle_E in B; [|exact N|reflexivity]. rewrite zero_E in A.
  assert (is_fin done = true) as F by reflexivity. pose proof (E_fin_bound _ F). pose proof M_big. lra.
Qed.
Lemma parsed_overlap_fin p q : parsed_coordinates p -> parsed_coordinates q -> is_fin (computeMaxXOverlapRatio p q) = true.
Proof.
  intros (A & B & C & D) (A' & B' & C' & D').
  destruct (max_overlap_all p q) as [[H1 H2] _]; try (apply tenth_interval; assumption). apply one_fin; assumption.
Qed.

Lemma x_overlap_ok cs i j : (forall c, In c cs -> parsed_coordinates (c_pos c)) ->
  dle dzero (x_overlap cs i j) = true /\ is_fin (x_overlap cs i j) = true.
Proof.
  intros P. unfold x_overlap. destruct (nth_error cs i) as [a|] eqn:Ea; [|split; reflexivity].
  destruct (nth_error cs j) as [b|] eqn:Eb; [|split; reflexivity].
  apply nth_error_In in Ea, Eb. split; [apply parsed_overlap|apply parsed_overlap_fin]; auto.
Qed.
Lemma before_ok cs i : (forall c, In c cs -> parsed_coordinates (c_pos c)) ->
  dle dzero (overlap_before cs i) = true /\ is_fin (overlap_before cs i) = true.
Proof. intros P. destruct i; [split; reflexivity|]. apply x_overlap_ok, P. Qed.

Lemma diac_step_defined compose cs i : i < length cs -> (forall c, In c cs -> parsed_coordinates (c_pos c)) ->
  exists cs', diac_step compose cs i = Ok cs' /\ length cs' = length cs /\ forall c, In c cs' -> parsed_coordinates (c_pos c).
Proof.
  intros Hi P. destruct (diac_step_spec compose cs i Hi) as [[[N E']|(u & j & c' & A & M & E')]|[w E']].
  - exists cs. auto.
  - exists c'. split; [exact E'|]. destruct M as (c & b & Ec & Eb & Ne & L & E1 & E2 & E3). split; [exact L|].
    intros x Hx. apply In_nth_error in Hx as [k Hk].
    destruct (Nat.eq_dec k i) as [->|N1]; [rewrite E1 in Hk; injection Hk as <-; change (c_pos (set_mark_of c j)) with (c_pos c); apply P; eapply nth_error_In, Ec|].
    destruct (Nat.eq_dec k j) as [->|N2].
    + rewrite E2 in Hk. injection Hk as <-. cbn [set_base_of c_pos]. apply bbox_add_parsed; apply P; eapply nth_error_In; eassumption.
    + rewrite E3 in Hk by assumption. apply P. eapply nth_error_In, Hk.
  - exfalso. revert E'. unfold diac_step. destruct (nth_error cs i) as [c|] eqn:Ec; [|discriminate].
    destruct (mark_unicode c) as [u|]; [|discriminate].
    assert (EP : prev_overlap (match i with 0 => None | S j => nth_error cs j end) c = overlap_before cs i).
    { destruct i as [|j]; [reflexivity|]. unfold overlap_before, x_overlap. rewrite Ec. unfold prev_overlap.
      destruct (nth_error cs j); reflexivity. }
    assert (EN : next_overlap c (nth_error cs (S i)) = overlap_after cs i).
    { unfold overlap_after, x_overlap. rewrite Ec. reflexivity. }
    rewrite EP, EN. clear EP EN.
    destruct (before_ok cs i P) as [B1 B2]. destruct (x_overlap_ok cs i (S i) P) as [A1 A2]. fold (overlap_after cs i) in A1, A2.
    destruct (equal (overlap_before cs i) dzero TOL && equal (overlap_after cs i) dzero TOL) eqn:EQ; [discriminate|].
    destruct (larger (overlap_before cs i) (overlap_after cs i) TOL) eqn:EL.
    + destruct i as [|j].
      * cbn [overlap_before] in EL. rewrite zero_not_larger in EL by exact A1. discriminate.
      * destruct (nth_error cs j) eqn:Ej; [discriminate|]. apply nth_error_None in Ej. lia.
    + destruct (nth_error cs (S i)) eqn:Es; [discriminate|].
      assert (Z : overlap_after cs i = dzero). { unfold overlap_after, x_overlap. rewrite Ec, Es. reflexivity. }
      rewrite Z in EQ, EL. rewrite zero_equal, andb_true_r in EQ. rewrite not_zero_larger in EL by assumption. discriminate.
Qed.
Lemma merge_defined compose cs : (forall c, In c cs -> parsed_coordinates (c_pos c)) ->
  exists cs', merge_marks compose cs = Ok cs' /\ forall c, In c cs' -> parsed_coordinates (c_pos c).
Proof.
  unfold merge_marks. assert (G : forall n k cs, k + n <= length cs -> (forall c, In c cs -> parsed_coordinates (c_pos c)) ->
    exists cs', diac_loop compose cs (seq k n) = Ok cs' /\ forall c, In c cs' -> parsed_coordinates (c_pos c)).
  { clear cs. induction n as [|n IH]; intros k cs L P; [exists cs; split; [reflexivity|exact P]|].
    destruct (diac_step_defined compose cs k ltac:(lia) P) as (c1 & E1 & L1 & P1).
    cbn [seq diac_loop]. rewrite E1. cbn [obind]. apply IH; [lia|exact P1]. }
  intros P. apply (G (length cs) 0 cs); [lia|exact P].
Qed.

(** ** Isolated marks *)
Lemma attaches_local cs cs' i u j : length cs' = length cs -> (forall k, i <= S k -> k <= S i -> nth_error cs' k = nth_error cs k) ->
  attaches cs i u j -> attaches cs' i u j.
Proof.
  intros L H (c & Ec & M & O & D & J).
  assert (B : overlap_before cs' i = overlap_before cs i).
  { destruct i as [|i]; [reflexivity|]. unfold overlap_before, x_overlap. rewrite !H by lia. reflexivity. }
  assert (A : overlap_after cs' i = overlap_after cs i).
  { unfold overlap_after, x_overlap. rewrite !H by lia. reflexivity. }
  exists c. rewrite A, B, L, H by lia. auto.
Qed.
(** what the list must look like when the marks before index [k] have been handled *)
Definition handled (compose : list N -> str) (cs st : list character) (k : nat) : Prop :=
  length st = length cs /\
  (forall i u j c b, i < k -> attaches cs i u j -> nth_error cs i = Some c -> nth_error cs j = Some b ->
     nth_error st i = Some (set_mark_of c j) /\
     nth_error st j = Some (set_base_of b i (compose (c_unicodes b ++ [u])) (bbox_add (c_pos b) (c_pos c)))) /\
  (forall i, (forall u j, i < k -> ~ attaches cs i u j) -> (forall m u, m < k -> ~ attaches cs m u i) -> nth_error st i = nth_error cs i).

Lemma attaches_near cs i u j : attaches cs i u j -> i = S j \/ j = S i.
Proof. intros (c & _ & _ & _ & [[_ ->]|[_ ->]] & _); auto. Qed.
Lemma attaches_len cs i u j : attaches cs i u j -> i < length cs /\ j < length cs.
Proof. intros (c & Ec & _ & _ & _ & J). split; [apply nth_error_Some; congruence|exact J]. Qed.
Lemma attaches_fun cs i u j u' j' : attaches cs i u j -> attaches cs i u' j' -> u = u' /\ j = j'.
Proof.
  intros (c & Ec & M & _ & D & _) (c' & Ec' & M' & _ & D' & _). rewrite Ec in Ec'. injection Ec' as <-.
  split; [eapply is_mark_fun; eassumption|]. destruct D as [[D E1]|[D E1]], D' as [[D' E2]|[D' E2]]; try congruence; lia.
Qed.
Lemma attaches_mark cs i u j : attaches cs i u j -> exists c, nth_error cs i = Some c /\ is_mark c u.
Proof. intros (c & Ec & M & _). eauto. Qed.
Lemma isolated_far cs i u j i' u' j' : isolated_marks cs -> attaches cs i u j -> attaches cs i' u' j' -> i < i' -> S (S i) < i'.
Proof.
  intros IM A A' L. destruct (attaches_mark _ _ _ _ A) as (c & E & M). destruct (attaches_mark _ _ _ _ A') as (c' & E' & M').
  exact (IM i i' c c' u u' E E' M M' L).
Qed.

Lemma handled_step compose cs st k st' : isolated_marks cs -> k < length cs -> handled compose cs st k ->
  ((forall u j, ~ attaches st k u j) /\ st' = st) \/ (exists u j, attaches st k u j /\ merged compose st k u j st') ->
  handled compose cs st' (S k).
Proof.
  intros IM Hk (L & A & F) Hs.
  (* around a mark at k nothing has happened *)
  assert (LOC : (exists c u, nth_error cs k = Some c /\ is_mark c u) -> forall i, k <= S i -> i <= S k -> nth_error st i = nth_error cs i).
  { intros (c & u & Ec & M) i I1 I2. apply F.
    - intros u' j' Hi X. destruct (attaches_mark _ _ _ _ X) as (c' & E' & M'). pose proof (IM i k _ _ _ _ E' Ec M' M Hi). lia.
    - intros m u' Hm X. destruct (attaches_mark _ _ _ _ X) as (c' & E' & M'). pose proof (IM m k _ _ _ _ E' Ec M' M Hm).
      pose proof (attaches_near _ _ _ _ X). lia. }
  destruct Hs as [[N ->]|(u & j & AT & M)].
  - assert (N' : forall u j, ~ attaches cs k u j).
    { intros u j X. apply (N u j). eapply attaches_local; [exact L| |exact X].
      intros i I1 I2. apply LOC; auto. destruct (attaches_mark _ _ _ _ X) as (c & ? & ?). eauto. }
    split; [exact L|]. split.
    + intros i u j c b Hi X Ec Eb. destruct (Nat.eq_dec i k) as [->|]; [destruct (N' _ _ X)|]. apply A; auto. lia.
    + intros i H1 H2. apply F; [|intros m u Hm; apply H2; lia]. intros u j Hi. apply H1. lia.
  - assert (HM : exists c u, nth_error cs k = Some c /\ is_mark c u).
    { destruct (nth_error cs k) as [c0|] eqn:E0; [|apply nth_error_None in E0; lia]. exists c0, u. split; [reflexivity|].
      destruct (attaches_mark _ _ _ _ AT) as (c1 & E1 & M1).
      assert (nth_error st k = nth_error cs k) as EQ.
      { destruct (nth_error st k) as [x|] eqn:Ex; [|discriminate]. injection E1 as ->. rewrite <- Ex. apply F.
        - intros u' j' Hk' _. lia.
        - intros m u' Hm X. (* k would already be a base: then it was not changed in its unicodes *)
          destruct (nth_error cs m) as [cm|] eqn:Em; [|pose proof (attaches_len _ _ _ _ X) as [? _]; apply nth_error_None in Em; lia].
          destruct (A m u' k cm c0 Hm X Em E0) as [_ B]. rewrite Ex in B. injection B as ->.
          destruct M1 as (u0 & Eu & M1). cbn [set_base_of c_unicodes] in Eu.
          assert (is_mark c0 u) by (exists u0; split; assumption).
          destruct (attaches_mark _ _ _ _ X) as (cm' & Em' & Mm).
          pose proof (IM m k _ _ _ _ Em' E0 Mm H Hm). pose proof (attaches_near _ _ _ _ X). lia. }
      rewrite EQ, E0 in E1. injection E1 as ->. exact M1. }
    assert (AT' : attaches cs k u j).
    { eapply attaches_local; [symmetry; exact L| |exact AT]. intros i I1 I2. symmetry. apply LOC; auto. }
    destruct M as (c & b & Ec & Eb & Ne & L' & Ek & Ej & Eo).
    pose proof (attaches_near _ _ _ _ AT') as NR.
    rewrite LOC in Ec, Eb by (auto; lia).
    split; [lia|]. split.
    + intros i u' j' c' b' Hi X Ec' Eb'. destruct (Nat.eq_dec i k) as [->|Nk].
      * destruct (attaches_fun _ _ _ _ _ _ AT' X) as [<- <-]. rewrite Ec in Ec'. injection Ec' as <-. rewrite Eb in Eb'. injection Eb' as <-.
        split; assumption.
      * assert (Hi' : i < k) by lia. destruct (A i u' j' c' b' Hi' X Ec' Eb') as [A1 A2].
        pose proof (isolated_far _ _ _ _ _ _ _ IM X AT' Hi'). pose proof (attaches_near _ _ _ _ X).
        rewrite !Eo by lia. split; assumption.
    + intros i H1 H2. rewrite Eo.
      * apply F; [|intros m v Hm; apply H2; lia]. intros v w Hi. apply H1. lia.
      * intros ->. apply (H1 u j); [lia|exact AT'].
      * intros ->. apply (H2 k u); [lia|exact AT'].
Qed.
Lemma isolated_merge compose cs cs' : isolated_marks cs -> merge_marks compose cs = Ok cs' -> handled compose cs cs' (length cs).
Proof.
  intros IM H. destruct (merge_trace _ _ _ H) as (st & S0 & Sn & SL & SS). rewrite <- Sn.
  assert (G : forall k, k <= length cs -> handled compose cs (st k) k).
  { induction k as [|k IH]; intros Hk.
    - rewrite S0. split; [reflexivity|]. split; [intros; lia|]. intros; reflexivity.
    - eapply handled_step; [exact IM| |apply IH; lia|]; [lia|]. apply SS. lia. }
  apply G. lia.
Qed.
