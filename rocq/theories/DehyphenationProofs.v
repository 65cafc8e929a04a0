(** DehyphenationProofs.v *)
From Verif Require Import Base Double Elements Document Dehyphenation SerializationSpec.

Lemma fold_left_flat_map {A B C} (f : C -> B -> C) (g : A -> list B) l c :
  fold_left f (flat_map g l) c = fold_left (fun c a => fold_left f (g a) c) l c.
Proof. revert c; induction l as [|a l IH]; intros c; cbn; [reflexivity|]. rewrite fold_left_app. apply IH. Qed.
Lemma fold_left_ext {A C} (f g : C -> A -> C) l c : (forall c a, f c a = g c a) -> fold_left f l c = fold_left g l c.
Proof. intros E; revert c; induction l as [|a l IH]; intros c; cbn; [reflexivity|]. rewrite E. apply IH. Qed.

Lemma dehyph_flat d h : dehyphenate d h = fst (fold_left dehyph_line (all_lines d) (h, None)).
Proof.
  unfold dehyphenate, all_lines. rewrite fold_left_flat_map. f_equal. apply fold_left_ext. intros c p.
  rewrite fold_left_flat_map. reflexivity.
Qed.

Definition nonempty (l : list nat) : bool := negb (match l with [] => true | _ => false end).
Lemma fold_skip_empty L st : fold_left dehyph_line L st = fold_left dehyph_line (filter nonempty L) st.
Proof.
  revert st; induction L as [|l L IH]; intros st; cbn [filter fold_left]; [reflexivity|].
  destruct l as [|w l]; cbn [nonempty negb].
  - destruct st as [h pl]. cbn [dehyph_line]. apply IH.
  - cbn [fold_left]. apply IH.
Qed.
Lemma concat_flat_map {A B} (f : A -> list B) l : flat_map f l = concat (map f l).
Proof. apply flat_map_concat_map. Qed.
Lemma text_lines_all d : text_lines d = filter nonempty (all_lines d).
Proof.
  unfold text_lines, all_lines. f_equal. rewrite flat_map_concat_map. f_equal. apply map_ext. intros p.
  rewrite flat_map_concat_map. reflexivity.
Qed.
Lemma text_lines_nonempty d l : In l (text_lines d) -> l <> [].
Proof. unfold text_lines. intros H. apply filter_In in H. destruct H as [_ H]. destruct l; [discriminate|congruence]. Qed.

Definition is_hyph (t : str) : bool := (1 <? length t) && Ascii.eqb (last t "000"%char) "-".
Lemma is_hyph_spec t : is_hyph t = true <-> hyphenated t.
Proof.
  unfold is_hyph, hyphenated. rewrite andb_true_iff, Nat.ltb_lt, Ascii.eqb_eq. split.
  - intros [Hl He]. exists (removelast t). assert (t <> []) by (destruct t; cbn in Hl; [lia|congruence]). split.
    + intros E. assert (L := app_removelast_last "000"%char H). rewrite E in L. rewrite L in Hl. cbn in Hl. lia.
    + rewrite <- He. apply app_removelast_last. assumption.
  - intros (s & Hs & ->). rewrite last_last, app_length. cbn. destruct s; [congruence|]. cbn. split; [lia|reflexivity].
Qed.
Lemma firstn_stem t : firstn (length t - 1) t = stem t.
Proof. unfold stem. rewrite removelast_firstn_len. f_equal. lia. Qed.

(** Marking one pair. *)
Definition merged (h : heap) (a b : nat) : str := stem (w_text (h a)) ++ w_text (h b).
Definition mark (h : heap) (p : nat * nat) : heap :=
  let h1 := upd h (fst p) (set_first (h (fst p)) (merged h (fst p) (snd p))) in
  upd h1 (snd p) (set_second (h1 (snd p)) (merged h (fst p) (snd p))).
(** Two heaps that agree on everything but the hyphenation marks. *)
Definition same_text (h h' : heap) : Prop :=
  forall i, set_first (set_second (h i) []) [] = set_first (set_second (h' i) []) [].
Lemma same_text_refl h : same_text h h. Proof. intros i; reflexivity. Qed.
Lemma same_text_trans a b c : same_text a b -> same_text b c -> same_text a c.
Proof. intros H1 H2 i. rewrite H1. apply H2. Qed.
Lemma same_text_text h h' i : same_text h h' -> w_text (h' i) = w_text (h i).
Proof. intros H. specialize (H i). unfold set_first, set_second in H. cbn in H. congruence. Qed.
Lemma same_text_chars h h' i : same_text h h' -> w_chars (h' i) = w_chars (h i).
Proof. intros H. specialize (H i). unfold set_first, set_second in H. cbn in H. congruence. Qed.
Lemma merged_same h h' a b : same_text h h' -> merged h' a b = merged h a b.
Proof. intros H. unfold merged. rewrite !(same_text_text h h') by assumption. reflexivity. Qed.
Lemma mark_same h p : same_text h (mark h p).
Proof.
  intros i. unfold mark, upd. destruct (Nat.eqb i (snd p)) eqn:E2.
  - apply Nat.eqb_eq in E2. subst i. destruct (Nat.eqb (snd p) (fst p)) eqn:E1.
    + apply Nat.eqb_eq in E1. rewrite E1. reflexivity.
    + reflexivity.
  - destruct (Nat.eqb i (fst p)) eqn:E1; [|reflexivity]. apply Nat.eqb_eq in E1. subst i. reflexivity.
Qed.
Lemma mark_first h p i : w_first (mark h p i) = if Nat.eqb i (fst p) then Some (merged h (fst p) (snd p)) else w_first (h i).
Proof.
  unfold mark, upd. destruct (Nat.eqb i (snd p)) eqn:E2.
  - apply Nat.eqb_eq in E2. subst i. cbn [set_second w_first]. destruct (Nat.eqb (snd p) (fst p)) eqn:E1; reflexivity.
  - destruct (Nat.eqb i (fst p)) eqn:E1; reflexivity.
Qed.
Lemma mark_second h p i : w_second (mark h p i) = if Nat.eqb i (snd p) then Some (merged h (fst p) (snd p)) else w_second (h i).
Proof.
  unfold mark, upd. destruct (Nat.eqb i (snd p)) eqn:E2; [reflexivity|].
  destruct (Nat.eqb i (fst p)) eqn:E1; [|reflexivity]. apply Nat.eqb_eq in E1. subst i. reflexivity.
Qed.

(** The pairs marked while walking through the lines. *)
Fixpoint pairs_from (h : heap) (pl : line) (L : list line) : list (nat * nat) :=
  match L with
  | [] => []
  | l :: t => (if is_hyph (w_text (h (last pl 0))) then [(last pl 0, hd 0 l)] else []) ++ pairs_from h l t
  end.
Definition pairs (h : heap) (L : list line) : list (nat * nat) :=
  match L with [] => [] | l :: t => pairs_from h l t end.

Lemma pairs_from_same h h' pl L : same_text h h' -> pairs_from h' pl L = pairs_from h pl L.
Proof.
  intros H. revert pl; induction L as [|l L IH]; intros pl; cbn [pairs_from]; [reflexivity|].
  rewrite (same_text_text h h') by assumption. rewrite IH. reflexivity.
Qed.

Lemma dehyph_line_mark h pl l : l <> [] ->
  dehyph_line (h, Some pl) l =
  (if is_hyph (w_text (h (last pl 0))) then mark h (last pl 0, hd 0 l) else h, Some l).
Proof.
  intros Hl. destruct l as [|w l]; [congruence|]. cbn [dehyph_line hd]. unfold is_hyph.
  destruct (1 <? length (w_text (h (last pl 0)))); cbn [andb]; [|reflexivity].
  destruct (Ascii.eqb (last (w_text (h (last pl 0))) "000"%char) "-"%char); [|reflexivity].
  unfold mark, merged. cbn [fst snd]. rewrite firstn_stem. reflexivity.
Qed.

Lemma fold_marks h pl L : Forall (fun l => l <> []) L ->
  fst (fold_left dehyph_line L (h, Some pl)) = fold_left mark (pairs_from h pl L) h.
Proof.
  revert h pl; induction L as [|l L IH]; intros h pl HF; [reflexivity|].
  inversion HF as [|? ? Hl HL]; subst. cbn [fold_left]. rewrite dehyph_line_mark by assumption.
  cbn [pairs_from]. rewrite IH by assumption.
  destruct (is_hyph (w_text (h (last pl 0)))).
  - cbn [app fold_left]. rewrite (pairs_from_same h) by apply mark_same. reflexivity.
  - reflexivity.
Qed.
Lemma dehyph_pairs d h : dehyphenate d h = fold_left mark (pairs h (text_lines d)) h.
Proof.
  rewrite dehyph_flat, fold_skip_empty, <- text_lines_all.
  assert (HF : Forall (fun l => l <> []) (text_lines d)) by (apply Forall_forall; intros l; apply text_lines_nonempty).
  destruct (text_lines d) as [|l L]; [reflexivity|]. inversion HF as [|? ? Hl HL]; subst.
  cbn [fold_left pairs]. destruct l as [|w l]; [congruence|]. cbn [dehyph_line]. apply fold_marks. assumption.
Qed.
Lemma marks_same ps h : same_text h (fold_left mark ps h).
Proof.
  revert h; induction ps as [|p ps IH]; intros h; [apply same_text_refl|]. cbn [fold_left].
  eapply same_text_trans; [apply mark_same|apply IH].
Qed.

(** The pairs are exactly the broken pairs. *)
Lemma last_opt_last (l : list nat) w : last_opt l = Some w -> last l 0 = w /\ l <> [].
Proof.
  unfold last_opt. destruct (rev l) as [|x t] eqn:E; [discriminate|]. intros [= ->].
  assert (l = rev t ++ [w]) by (rewrite <- (rev_involutive l), E; reflexivity). subst. rewrite last_last.
  split; [reflexivity|]. intros H. apply app_eq_nil in H. destruct H; discriminate.
Qed.
Lemma last_last_opt (l : list nat) : l <> [] -> last_opt l = Some (last l 0).
Proof.
  intros H. rewrite (app_removelast_last 0 H) at 1. unfold last_opt. rewrite rev_unit. reflexivity.
Qed.
Lemma hd_hd_error (l : list nat) : l <> [] -> hd_error l = Some (hd 0 l).
Proof. destruct l; [congruence|reflexivity]. Qed.

Lemma adjacent_cons {A} (x : A) l a b : adjacent (x :: l) a b <-> (x = a /\ hd_error l = Some b) \/ adjacent l a b.
Proof.
  unfold adjacent. split.
  - intros (p & q & E). destruct p as [|y p].
    + left. cbn in E. injection E as -> ->. split; reflexivity.
    + right. cbn in E. injection E as -> ->. exists p, q. reflexivity.
  - intros [[-> H]|(p & q & ->)].
    + destruct l as [|y l]; [discriminate|]. injection H as ->. exists [], l. reflexivity.
    + exists (x :: p), q. reflexivity.
Qed.
Lemma adjacent_nil {A} (a b : A) : ~ adjacent [] a b.
Proof. intros (p & q & E). destruct p; discriminate. Qed.

Lemma pairs_from_spec h pl L a b : pl <> [] -> Forall (fun l => l <> []) L ->
  In (a, b) (pairs_from h pl L) <->
  exists l1 l2, adjacent (pl :: L) l1 l2 /\ last_opt l1 = Some a /\ hd_error l2 = Some b /\ hyphenated (w_text (h a)).
Proof.
  revert pl; induction L as [|l L IH]; intros pl Hpl HF; cbn [pairs_from].
  - split; [intros []|]. intros (l1 & l2 & H & _). apply adjacent_cons in H. destruct H as [[_ H]|H]; [discriminate|].
    destruct (adjacent_nil _ _ H).
  - inversion HF as [|? ? Hl HL]; subst. rewrite in_app_iff, (IH l Hl HL). split.
    + intros [H|(l1 & l2 & H & R)].
      * destruct (is_hyph (w_text (h (last pl 0)))) eqn:E; [|destruct H]. destruct H as [[= <- <-]|[]].
        exists pl, l. split; [apply adjacent_cons; left; split; reflexivity|].
        rewrite last_last_opt, hd_hd_error by assumption. split; [reflexivity|]. split; [reflexivity|].
        apply is_hyph_spec. assumption.
      * exists l1, l2. split; [apply adjacent_cons; right; assumption|assumption].
    + intros (l1 & l2 & H & Ha & Hb & Hh). apply adjacent_cons in H. destruct H as [[<- H]|H].
      * left. cbn in H. injection H as <-. apply last_opt_last in Ha. destruct Ha as [Ha _]. rewrite Ha.
        apply is_hyph_spec in Hh. rewrite Hh. destruct l; [congruence|]. cbn in Hb |- *. left. congruence.
      * right. exists l1, l2. auto.
Qed.
Lemma pairs_spec d h a b : In (a, b) (pairs h (text_lines d)) <-> broken_pair d h a b.
Proof.
  unfold broken_pair.
  assert (HF : Forall (fun l => l <> []) (text_lines d)) by (apply Forall_forall; intros l; apply text_lines_nonempty).
  destruct (text_lines d) as [|l L]; cbn [pairs].
  - split; [intros []|]. intros (l1 & l2 & H & _). destruct (adjacent_nil _ _ H).
  - inversion HF as [|? ? Hl HL]; subst. apply pairs_from_spec; assumption.
Qed.

(** With distinct words, the pairs are determined by either component. *)
Lemma adjacent_concat (L : list (list nat)) l1 l2 a b : adjacent L l1 l2 -> last_opt l1 = Some a -> hd_error l2 = Some b ->
  adjacent (concat L) a b.
Proof.
  intros (p & q & ->) Ha Hb. apply last_opt_last in Ha. destruct Ha as [Ha Hne]. destruct l2 as [|y l2]; [discriminate|].
  injection Hb as ->. rewrite concat_app. cbn [concat].
  rewrite (app_removelast_last 0 Hne), Ha. exists (concat p ++ removelast l1), (l2 ++ concat q).
  rewrite <- !app_assoc. reflexivity.
Qed.
Lemma adjacent_in {A} (l : list A) a b : adjacent l a b -> In a l /\ In b l.
Proof. intros (p & q & ->). split; apply in_or_app; right; [left|right; left]; reflexivity. Qed.
Lemma adjacent_fun {A} (l : list A) a b b' : NoDup l -> adjacent l a b -> adjacent l a b' -> b = b'.
Proof.
  induction l as [|x l IH]; intros ND H H'; [destruct (adjacent_nil _ _ H)|].
  inversion ND as [|? ? Hx ND']; subst. apply adjacent_cons in H. apply adjacent_cons in H'.
  destruct H as [[-> H]|H], H' as [[E H']|H'].
  - congruence.
  - apply adjacent_in in H'. tauto.
  - subst. apply adjacent_in in H. tauto.
  - apply IH; assumption.
Qed.
Lemma adjacent_inj {A} (l : list A) a a' b : NoDup l -> adjacent l a b -> adjacent l a' b -> a = a'.
Proof.
  induction l as [|x l IH]; intros ND H H'; [destruct (adjacent_nil _ _ H)|].
  inversion ND as [|? ? Hx ND']; subst. apply adjacent_cons in H. apply adjacent_cons in H'.
  destruct H as [[-> H]|H], H' as [[E H']|H'].
  - congruence.
  - exfalso. destruct l as [|y l]; [discriminate|]. injection H as ->.
    clear -H' ND'. inversion ND' as [|? ? Hb _]; subst. apply adjacent_cons in H'. destruct H' as [[_ H']|H'].
    + destruct l; [discriminate|]. injection H' as ->. apply Hb. left. reflexivity.
    + apply adjacent_in in H'. tauto.
  - exfalso. destruct l as [|y l]; [discriminate|]. injection H' as ->.
    clear -H ND'. inversion ND' as [|? ? Hb _]; subst. apply adjacent_cons in H. destruct H as [[_ H]|H].
    + destruct l; [discriminate|]. injection H as ->. apply Hb. left. reflexivity.
    + apply adjacent_in in H. tauto.
  - apply IH; assumption.
Qed.
Lemma broken_adjacent d h a b : broken_pair d h a b -> adjacent (doc_words d) a b.
Proof. intros (l1 & l2 & H & Ha & Hb & _). eapply adjacent_concat; eassumption. Qed.
Lemma broken_fun d h a b b' : NoDup (doc_words d) -> broken_pair d h a b -> broken_pair d h a b' -> b = b'.
Proof. intros ND H H'. eapply adjacent_fun; [exact ND| |]; eapply broken_adjacent; eassumption. Qed.
Lemma broken_inj d h a a' b : NoDup (doc_words d) -> broken_pair d h a b -> broken_pair d h a' b -> a = a'.
Proof. intros ND H H'. eapply adjacent_inj; [exact ND| |]; eapply broken_adjacent; eassumption. Qed.

(** Final marks. *)
Lemma marks_first ps h i m : w_first (fold_left mark ps h i) = Some m ->
  w_first (h i) = Some m \/ exists b, In (i, b) ps /\ m = merged h i b.
Proof.
  revert h; induction ps as [|[a b] ps IH]; intros h H; [left; exact H|]. cbn [fold_left] in H. apply IH in H.
  destruct H as [H|(b' & Hb & ->)].
  - rewrite mark_first in H. cbn [fst snd] in H. destruct (Nat.eqb i a) eqn:E; [|left; exact H].
    apply Nat.eqb_eq in E. subst a. right. exists b. split; [left; reflexivity|congruence].
  - right. exists b'. split; [right; assumption|]. apply merged_same, mark_same.
Qed.
Lemma marks_second ps h i m : w_second (fold_left mark ps h i) = Some m ->
  w_second (h i) = Some m \/ exists a, In (a, i) ps /\ m = merged h a i.
Proof.
  revert h; induction ps as [|[a b] ps IH]; intros h H; [left; exact H|]. cbn [fold_left] in H. apply IH in H.
  destruct H as [H|(b' & Hb & ->)].
  - rewrite mark_second in H. cbn [fst snd] in H. destruct (Nat.eqb i b) eqn:E; [|left; exact H].
    apply Nat.eqb_eq in E. subst b. right. exists a. split; [left; reflexivity|congruence].
  - right. exists b'. split; [right; assumption|]. apply merged_same, mark_same.
Qed.
Lemma marks_first_keep ps h i m : w_first (h i) = Some m -> exists m', w_first (fold_left mark ps h i) = Some m'.
Proof.
  revert h m; induction ps as [|[a b] ps IH]; intros h m H; [eauto|]. cbn [fold_left].
  destruct (Nat.eqb i a) eqn:E.
  - eapply IH. rewrite mark_first. cbn [fst]. rewrite E. reflexivity.
  - eapply IH. rewrite mark_first. cbn [fst]. rewrite E. eassumption.
Qed.
Lemma marks_second_keep ps h i m : w_second (h i) = Some m -> exists m', w_second (fold_left mark ps h i) = Some m'.
Proof.
  revert h m; induction ps as [|[a b] ps IH]; intros h m H; [eauto|]. cbn [fold_left].
  destruct (Nat.eqb i b) eqn:E.
  - eapply IH. rewrite mark_second. cbn [snd]. rewrite E. reflexivity.
  - eapply IH. rewrite mark_second. cbn [snd]. rewrite E. eassumption.
Qed.
Lemma marks_first_in ps h a b : In (a, b) ps -> exists m, w_first (fold_left mark ps h a) = Some m.
Proof.
  revert h; induction ps as [|p ps IH]; intros h H; [destruct H|]. cbn [fold_left]. destruct H as [->|H].
  - eapply marks_first_keep. rewrite mark_first. cbn [fst]. rewrite Nat.eqb_refl. reflexivity.
  - apply IH. assumption.
Qed.
Lemma marks_second_in ps h a b : In (a, b) ps -> exists m, w_second (fold_left mark ps h b) = Some m.
Proof.
  revert h; induction ps as [|p ps IH]; intros h H; [destruct H|]. cbn [fold_left]. destruct H as [->|H].
  - eapply marks_second_keep. rewrite mark_second. cbn [snd]. rewrite Nat.eqb_refl. reflexivity.
  - apply IH. assumption.
Qed.

(** Nothing but the two marks changes, and marks are only set on broken pairs. *)
Theorem dehyph_frame d h i :
  set_first (set_second (h i) []) [] = set_first (set_second (dehyphenate d h i) []) [] /\
  (~ (exists b, broken_pair d h i b) -> w_first (dehyphenate d h i) = w_first (h i)) /\
  (~ (exists a, broken_pair d h a i) -> w_second (dehyphenate d h i) = w_second (h i)).
Proof.
  rewrite dehyph_pairs. split; [apply marks_same|]. split; intros N.
  - destruct (w_first (fold_left mark (pairs h (text_lines d)) h i)) as [m|] eqn:E.
    + destruct (marks_first _ _ _ _ E) as [H|(b & Hb & _)]; [congruence|]. apply pairs_spec in Hb. destruct N. eauto.
    + destruct (w_first (h i)) eqn:E0; [|reflexivity]. destruct (marks_first_keep (pairs h (text_lines d)) _ _ _ E0). congruence.
  - destruct (w_second (fold_left mark (pairs h (text_lines d)) h i)) as [m|] eqn:E.
    + destruct (marks_second _ _ _ _ E) as [H|(b & Hb & _)]; [congruence|]. apply pairs_spec in Hb. destruct N. eauto.
    + destruct (w_second (h i)) eqn:E0; [|reflexivity]. destruct (marks_second_keep (pairs h (text_lines d)) _ _ _ E0). congruence.
Qed.

(** Which words are marked, and with which text. *)
Theorem dehyph_marks d h : NoDup (doc_words d) -> (forall i, w_first (h i) = None /\ w_second (h i) = None) ->
  forall i m,
  (w_first (dehyphenate d h i) = Some m <-> exists b, broken_pair d h i b /\ m = stem (w_text (h i)) ++ w_text (h b)) /\
  (w_second (dehyphenate d h i) = Some m <-> exists a, broken_pair d h a i /\ m = stem (w_text (h a)) ++ w_text (h i)).
Proof.
  intros ND H0 i m. rewrite dehyph_pairs. split; split.
  - intros H. apply marks_first in H. destruct H as [H|(b & Hb & ->)].
    + destruct (H0 i); congruence.
    + exists b. split; [apply pairs_spec; assumption|reflexivity].
  - intros (b & Hb & ->). pose proof Hb as Hb'. apply pairs_spec in Hb.
    destruct (marks_first_in _ h _ _ Hb) as [m E]. rewrite E. apply marks_first in E.
    destruct E as [E|(b' & Hb2 & ->)]; [destruct (H0 i); congruence|]. apply pairs_spec in Hb2.
    rewrite (broken_fun d h i b' b ND Hb2 Hb'). reflexivity.
  - intros H. apply marks_second in H. destruct H as [H|(b & Hb & ->)].
    + destruct (H0 i); congruence.
    + exists b. split; [apply pairs_spec; assumption|reflexivity].
  - intros (a & Ha & ->). pose proof Ha as Ha'. apply pairs_spec in Ha.
    destruct (marks_second_in _ h _ _ Ha) as [m E]. rewrite E. apply marks_second in E.
    destruct E as [E|(a' & Ha2 & ->)]; [destruct (H0 i); congruence|]. apply pairs_spec in Ha2.
    rewrite (broken_inj d h a' a i ND Ha2 Ha'). reflexivity.
Qed.

(** ** No text is lost, except in chains *)

(** What is written for all words of the document, in order. *)
Definition written (h : heap) (ws : list nat) : list str :=
  map shown (filter (fun w => is_none (w_second w)) (map h ws)).

Section Kept.
Context (h : heap) (txt : nat -> str).
Definition F (i : nat) : bool := is_some (w_first (h i)).
Definition Sd (i : nat) : bool := is_some (w_second (h i)).
Definition contribution (pS pF : bool) (w : nat) : str :=
  if Sd w then (if pS then [] else txt w) else if F w then stem (txt w) else txt w.
Fixpoint contributions (pS pF : bool) (ws : list nat) : list str :=
  match ws with [] => [] | w :: t => contribution pS pF w :: contributions (Sd w) (F w) t end.

Lemma written_contributions : forall ws pS pF,
  (forall w, hd_error ws = Some w -> Sd w = pF) -> (ws = [] -> pF = false) ->
  (forall a b, adjacent ws a b -> Sd b = F a /\ (F a = true -> shown (h a) = stem (txt a) ++ txt b)) ->
  (forall a, F a = false -> shown (h a) = txt a) ->
  (forall a, last_opt ws = Some a -> F a = false) ->
  concat (contributions pS pF ws) = (if pF && negb pS then txt (hd 0 ws) else []) ++ concat (written h ws).
Proof.
  induction ws as [|w t IH]; intros pS pF Hhd Hnil Hadj Hplain Hlast.
  - rewrite (Hnil eq_refl). reflexivity.
  - cbn [contributions concat]. assert (Hw : Sd w = pF) by (apply Hhd; reflexivity).
    assert (IHt : forall pS', concat (contributions pS' (F w) t) = (if F w && negb pS' then txt (hd 0 t) else []) ++ concat (written h t)).
    { intros pS'. apply IH.
      - intros b Hb. apply Hadj. apply adjacent_cons. left. split; [reflexivity|assumption].
      - intros ->. apply Hlast. reflexivity.
      - intros a b H. apply Hadj. apply adjacent_cons. right. assumption.
      - assumption.
      - intros a Ha. apply Hlast. destruct t as [|y t]; [discriminate|].
        unfold last_opt in *. cbn [rev] in *. destruct (rev t); cbn in *; congruence. }
    rewrite IHt. unfold contribution, written. cbn [map filter]. rewrite <- Hw.
    unfold Sd in *. destruct (w_second (h w)) as [m|] eqn:E; cbn [is_some is_none negb andb hd].
    + rewrite andb_false_r. cbn [app]. destruct pS; reflexivity.
    + cbn [map concat app]. rewrite andb_true_r. destruct (F w) eqn:EF; cbn [app].
      * destruct t as [|b t]; [rewrite (Hlast w eq_refl) in EF; discriminate|].
        assert (A : adjacent (w :: b :: t) w b) by (exists [], t; reflexivity).
        destruct (Hadj _ _ A) as [_ HF]. rewrite (HF EF). cbn [hd]. rewrite <- !app_assoc. reflexivity.
      * rewrite (Hplain w EF). reflexivity.
Qed.
End Kept.

Lemma concat_nonempty L : concat (filter nonempty L) = concat L.
Proof. induction L as [|l L IH]; [reflexivity|]. destruct l as [|x l]; cbn; rewrite ?IH; reflexivity. Qed.
Lemma doc_words_blocks d : doc_words d = concat (map (fun b => concat (b_lines b)) (flat_map p_blocks (d_pages d))).
Proof.
  unfold doc_words. rewrite text_lines_all, concat_nonempty. unfold all_lines.
  induction (d_pages d) as [|p ps IH]; [reflexivity|]. cbn [flat_map map concat].
  rewrite concat_app, IH, map_app, concat_app. f_equal.
  induction (p_blocks p) as [|b bs IHb]; [reflexivity|]. cbn [flat_map map concat]. rewrite concat_app, IHb. reflexivity.
Qed.
Lemma written_blocks d h : written h (doc_words d) = concat (map (block_shown h) (flat_map p_blocks (d_pages d))).
Proof.
  rewrite doc_words_blocks. induction (flat_map p_blocks (d_pages d)) as [|b bs IH]; [reflexivity|].
  cbn [map concat]. rewrite <- IH. unfold written, block_shown. rewrite map_app, filter_app, map_app. reflexivity.
Qed.

Lemma adjacent_prev {A} (l1 : list A) w t : forall a b, adjacent (w :: t) a b -> adjacent (l1 ++ w :: t) a b.
Proof. intros a b (p & q & E). exists (l1 ++ p), q. rewrite E, app_assoc. reflexivity. Qed.

Lemma split_before {A} (l : list A) w : In w l -> exists p q, l = p ++ w :: q.
Proof. apply in_split. Qed.

Theorem dehyph_no_loss d h : NoDup (doc_words d) -> (forall i, w_first (h i) = None /\ w_second (h i) = None) ->
  (forall i, In i (doc_words d) -> w_text (h i) = chars_text (w_chars (h i))) ->
  exists ks, Forall2 (contributes d h) (doc_words d) ks /\
    concat (concat (map (block_shown (dehyphenate d h)) (flat_map p_blocks (d_pages d)))) = concat ks.
Proof.
  intros ND H0 HT. set (h' := dehyphenate d h).
  pose proof (dehyph_marks d h ND H0) as HM. fold h' in HM.
  assert (HF : forall i, F h' i = true <-> exists b, broken_pair d h i b).
  { intros i. unfold F. split.
    - destruct (w_first (h' i)) as [m|] eqn:E; [|discriminate]. intros _. apply HM in E. destruct E as (b & Hb & _). eauto.
    - intros (b & Hb). assert (E : w_first (h' i) = Some (stem (w_text (h i)) ++ w_text (h b))) by (apply HM; eauto).
      rewrite E. reflexivity. }
  assert (HS : forall i, Sd h' i = true <-> exists a, broken_pair d h a i).
  { intros i. unfold Sd. split.
    - destruct (w_second (h' i)) as [m|] eqn:E; [|discriminate]. intros _. apply HM in E. destruct E as (b & Hb & _). eauto.
    - intros (b & Hb). assert (E : w_second (h' i) = Some (stem (w_text (h b)) ++ w_text (h i))) by (apply HM; eauto).
      rewrite E. reflexivity. }
  assert (Htxt : forall i, w_text (h' i) = w_text (h i)) by (intros i; apply same_text_text; unfold h'; rewrite dehyph_pairs; apply marks_same).
  assert (Hch : forall i, w_chars (h' i) = w_chars (h i)) by (intros i; apply same_text_chars; unfold h'; rewrite dehyph_pairs; apply marks_same).
  set (txt := fun i => if in_dec Nat.eq_dec i (doc_words d) then w_text (h i) else shown (h' i)).
  exists (contributions h' txt false false (doc_words d)). split.
  - (* each contribution is as described *)
    assert (G : forall ws p pS pF, doc_words d = p ++ ws ->
      (forall w a, hd_error ws = Some w -> last_opt p = Some a -> pS = Sd h' a /\ pF = F h' a) ->
      (p = [] -> pS = false) ->
      Forall2 (contributes d h) ws (contributions h' txt pS pF ws)).
    { induction ws as [|w t IH]; intros p pS pF E Hp Hp0; [constructor|]. cbn [contributions]. constructor.
      - unfold contribution, contributes. unfold txt.
        destruct (in_dec Nat.eq_dec w (doc_words d)) as [_|N]; [|destruct N; rewrite E; apply in_or_app; right; left; reflexivity].
        assert (Hprev : forall a, broken_pair d h a w -> last_opt p = Some a).
        { intros a Ha. apply broken_adjacent in Ha. destruct Ha as (p1 & q1 & E1).
          assert (p = p1 ++ [a]).
          { rewrite E in ND. rewrite E in E1.
            assert (E2 : p ++ w :: t = (p1 ++ [a]) ++ w :: q1) by (rewrite E1, <- app_assoc; reflexivity).
            clear - ND E2. revert E2 ND. generalize (p1 ++ [a]). induction p as [|x p IH]; intros s E2 ND.
            - destruct s as [|y s]; [reflexivity|]. exfalso. cbn in E2. injection E2 as -> ->.
              inversion ND as [|? ? H _]; subst. apply H. apply in_or_app. right. left. reflexivity.
            - destruct s as [|y s].
              + exfalso. cbn in E2. injection E2 as -> <-. inversion ND as [|? ? H _]; subst. apply H.
                apply in_or_app. right. left. reflexivity.
              + cbn in E2. injection E2 as -> E2. f_equal. apply IH; [assumption|]. inversion ND; assumption. }
          subst p. unfold last_opt. rewrite rev_unit. reflexivity. }
        destruct (Sd h' w) eqn:ES.
        + apply HS in ES. destruct ES as (a & Ha). pose proof (Hprev a Ha) as Hla.
          destruct (Hp w a eq_refl Hla) as [-> ->].
          assert (NJ : ~ joined d h w) by (intros [_ N]; apply N; eauto).
          destruct (Sd h' a) eqn:ESa.
          * left. split; [|reflexivity]. apply HS in ESa. destruct ESa as (a' & Ha'). exists a, a'. auto.
          * right. right. split; [|split; [exact NJ|reflexivity]]. intros (x & x' & Hx' & Hx).
            assert (x = a) by (eapply broken_inj; eassumption). subst x.
            assert (Sd h' a = true) by (apply HS; eauto). congruence.
        + assert (NS : ~ exists a, broken_pair d h a w) by (intros N; apply HS in N; congruence).
          assert (NL : ~ lost d h w) by (intros (x & x' & _ & Hx); apply NS; eauto).
          destruct (F h' w) eqn:EF.
          * right. left. apply HF in EF. split; [exact NL|]. split; [split; assumption|reflexivity].
          * right. right. split; [exact NL|]. split; [|reflexivity]. intros [N _]. apply HF in N. congruence.
      - apply (IH (p ++ [w])).
        + rewrite <- app_assoc. assumption.
        + intros w' a _ Ha. unfold last_opt in Ha. rewrite rev_unit in Ha. injection Ha as <-. split; reflexivity.
        + intros N. apply app_eq_nil in N. destruct N; discriminate. }
    apply (G _ []); [reflexivity| |reflexivity]. intros w a _ Ha. discriminate.
  - rewrite <- written_blocks. symmetry. apply written_contributions.
    + intros w Hw. destruct (Sd h' w) eqn:E; [|reflexivity]. apply HS in E. destruct E as (a & Ha).
      apply broken_adjacent in Ha. exfalso. destruct Ha as (p & q & E). destruct p as [|x p]; rewrite E in Hw, ND; cbn in Hw; injection Hw as ->.
      * inversion ND as [|? ? N _]; subst. apply N. left. reflexivity.
      * inversion ND as [|? ? N _]; subst. apply N. apply in_or_app. right. right. left. reflexivity.
    + reflexivity.
    + intros a b Hab. split.
      * destruct (F h' a) eqn:EF.
        { apply HS. apply HF in EF. destruct EF as (b' & Hb'). exists a.
          rewrite (adjacent_fun _ _ _ _ ND Hab (broken_adjacent _ _ _ _ Hb')). assumption. }
        destruct (Sd h' b) eqn:ES; [|reflexivity]. apply HS in ES. destruct ES as (a' & Ha').
        assert (a' = a) by (eapply adjacent_inj; [exact ND|eapply broken_adjacent; exact Ha'|exact Hab]). subst a'.
        assert (F h' a = true) by (apply HF; eauto). congruence.
      * intros EF. apply HF in EF. destruct EF as (b' & Hb').
        assert (b' = b) by (eapply adjacent_fun; [exact ND|eapply broken_adjacent; exact Hb'|exact Hab]). subst b'.
        assert (E : w_first (h' a) = Some (stem (w_text (h a)) ++ w_text (h b))) by (apply HM; eauto).
        unfold shown. rewrite E. destruct (adjacent_in _ _ _ Hab) as [Ia Ib]. unfold txt.
        destruct (in_dec Nat.eq_dec a (doc_words d)); [|tauto]. destruct (in_dec Nat.eq_dec b (doc_words d)); [|tauto]. reflexivity.
    + intros a EF. unfold txt. destruct (in_dec Nat.eq_dec a (doc_words d)) as [Ia|]; [|reflexivity].
      unfold shown. unfold F in EF. destruct (w_first (h' a)); [discriminate|]. rewrite Hch, <- HT by assumption. reflexivity.
    + intros a Ha. destruct (F h' a) eqn:EF; [|reflexivity]. apply HF in EF. destruct EF as (b & Hb). exfalso.
      apply broken_adjacent in Hb. destruct Hb as (p & q & E). apply last_opt_last in Ha. destruct Ha as [Ha _].
      rewrite E in Ha, ND.
      assert (In a (b :: q)).
      { clear - Ha. replace (p ++ a :: b :: q) with ((p ++ [a]) ++ b :: q) in Ha by (rewrite <- app_assoc; reflexivity).
        revert Ha. generalize (p ++ [a]). intros s. induction s as [|x s IH]; intros Ha.
        - cbn [app] in Ha. rewrite <- Ha. assert (N : b :: q <> []) by congruence. rewrite (app_removelast_last 0 N) at 2.
          apply in_or_app. right. left. reflexivity.
        - apply IH. destruct s; cbn in *; assumption. }
      apply NoDup_remove_2 in ND. apply ND. apply in_or_app. right. assumption.
Qed.
