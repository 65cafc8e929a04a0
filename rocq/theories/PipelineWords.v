(** PipelineWords.v - the words of a page hold its characters, and how the words refer to each other. *)
From Coq Require Import ZArith NArith.
From Verif Require Import Base Double Elements Sort XYCut Document Pipeline PipelineSpec PipelineLines PipelineProofs.
From Verif Require Parsing Words WordsSpec LinesSpec PropsWords.

(** ** The words of a page in the list of all words *)
Definition at_words (ws : list word) (i : nat) : word := nth i ws no_word.
Definition good (cfg : Words.words_config) (ws : list word) (p : gpage) : Prop :=
  map plain (flat_map (fun i => w_chars (at_words ws i)) (g_words p)) = map plain (visible_chars p) /\
  (stacks_apart cfg (map (at_words ws) (g_words p)) -> LinesSpec.separate_symbols (at_words ws) (g_words p)).

Lemma map_flat_map {A B C} (f : B -> C) (g : A -> list B) l : map f (flat_map g l) = flat_map (fun x => map f (g x)) l.
Proof. induction l as [|x l IH]; cbn [flat_map map]; [reflexivity|]. rewrite map_app, IH. reflexivity. Qed.
Lemma at_core ws ws' i : map core ws = map core ws' -> core (at_words ws i) = core (at_words ws' i).
Proof. apply core_nth. Qed.
Lemma separate_core h h' l : (forall i, core (h i) = core (h' i)) -> LinesSpec.separate_symbols h l -> LinesSpec.separate_symbols h' l.
Proof.
  intros E (N & A & B & C).
  assert (EO : forall i, w_partOf (h' i) = w_partOf (h i)) by (intros i; specialize (E i); unfold core in E; congruence).
  assert (EP : forall i, w_parts (h' i) = w_parts (h i)) by (intros i; specialize (E i); unfold core in E; congruence).
  split; [exact N|]. split; [|split].
  - intros w p. rewrite !EO, EP. apply A.
  - intros w. rewrite EP. apply B.
  - intros p b. rewrite !EO, EP. apply C.
Qed.
Lemma good_core cfg ws ws' p : map core ws = map core ws' -> good cfg ws p -> good cfg ws' p.
Proof.
  intros E [A B]. split.
  - rewrite <- A, !map_flat_map. apply flat_map_ext. intros i. symmetry. apply core_chars, at_core, E.
  - intros S0. apply (separate_core (at_words ws)); [intros i; apply at_core, E|]. apply B.
    apply (stacks_core cfg (map (at_words ws') (g_words p))); [|reflexivity|exact S0].
    rewrite !map_map. apply map_ext. intros i. symmetry. apply at_core, E.
Qed.
Lemma good_keeps cfg ws p p' : keeps p p' -> good cfg ws p -> good cfg ws p'.
Proof. intros (_ & _ & C & _ & _ & _ & W). unfold good, visible_chars. rewrite C, W. auto. Qed.

(** ** The words of one page *)
Lemma nth_part (pre l post : list word) : map (at_words (pre ++ l ++ post)) (seq (length pre) (length l)) = l.
Proof.
  apply (nth_ext _ _ no_word no_word); [rewrite map_length, seq_length; reflexivity|]. intros k Hk. rewrite map_length, seq_length in Hk.
  rewrite (nth_indep _ no_word (at_words (pre ++ l ++ post) 0)) by (rewrite map_length, seq_length; exact Hk).
  rewrite (map_nth (at_words (pre ++ l ++ post))), seq_nth by exact Hk. unfold at_words.
  rewrite app_nth2 by lia. replace (length pre + k - length pre) with k by lia. apply app_nth1, Hk.
Qed.
Definition same_shape (w w' : word) : Prop := w_pos w' = w_pos w /\ w_text w' = w_text w /\ w_fontSize w' = w_fontSize w /\ w_chars w' = w_chars w.
Lemma belongs_shape cfg ws ws' i j : length ws = length ws' ->
  (forall k w, nth_error ws' k = Some w -> exists w0, nth_error ws k = Some w0 /\ same_shape w0 w) ->
  WordsSpec.belongs cfg ws i j -> WordsSpec.belongs cfg ws' i j.
Proof.
  intros L H (b & Hb & Sy & N & Lj & F).
  assert (Hb' : exists b', nth_error ws' i = Some b').
  { destruct (nth_error ws' i) as [b'|] eqn:E; [eauto|]. apply nth_error_None in E. assert (i < length ws) by (apply nth_error_Some; congruence). lia. }
  destruct Hb' as [b' Hb']. exists b'. split; [exact Hb'|]. destruct (H _ _ Hb') as (b0 & Eb & (P1 & P2 & P3 & P4)). assert (b0 = b) by congruence. subst b0.
  split; [unfold WordsSpec.is_symbol in *; rewrite P2, P4; exact Sy|]. split; [exact N|]. split; [lia|]. intros k w K Hw.
  destruct (H _ _ Hw) as (w0 & Ew & (Q1 & Q2 & Q3 & Q4)). specialize (F k w0 K Ew). unfold WordsSpec.fits in *. rewrite P1, P3, Q1, Q3. exact F.
Qed.
Lemma seq_rev_nodup a n i k : (a + n <= i)%nat -> NoDup (rev (seq a n) ++ seq (S i) k).
Proof.
  intros H. assert (P : Permutation (seq a n ++ seq (S i) k) (rev (seq a n) ++ seq (S i) k)) by (apply Permutation_app_tail, Permutation_rev).
  apply (Permutation_NoDup P). clear P. revert a H. induction n as [|n IH]; intros a H; cbn [seq app]; [apply seq_NoDup|].
  constructor; [|apply IH; lia]. intros X. apply in_app_or in X as [X|X]; apply in_seq in X; lia.
Qed.
Lemma page_good cfg pre ws0 post p :
  concat (map w_chars ws0) = visible_chars p -> (forall w, In w ws0 -> w_parts w = [] /\ w_partOf w = None) ->
  let ws := Words.mergeStackedMathSymbols cfg ws0 in
  good cfg (pre ++ map (shift_word (length pre)) ws ++ post) (set_words (seq (length pre) (length ws)) p).
Proof.
  intros C0 E0 ws. destruct (PropsWords.C24_relation cfg ws0 E0) as [L R]. fold ws in L, R. set (n := length pre).
  assert (LS : length (map (shift_word n) ws) = length ws) by apply map_length.
  assert (NP : map (at_words (pre ++ map (shift_word n) ws ++ post)) (seq n (length ws)) = map (shift_word n) ws)
    by (rewrite <- LS; apply nth_part).
  set (all := pre ++ map (shift_word n) ws ++ post) in *.
  assert (AT : forall k w, nth_error ws k = Some w -> at_words all (n + k) = shift_word n w).
  { intros k w Hw. unfold at_words, all. rewrite app_nth2 by (fold n; lia). fold n. replace (n + k - n) with k by lia.
    rewrite app_nth1 by (rewrite LS; apply nth_error_Some; congruence). apply nth_error_nth. apply map_nth_error, Hw. }
  assert (RR : forall k w, nth_error ws k = Some w -> exists w0, nth_error ws0 k = Some w0 /\ WordsSpec.same_word w0 w /\
    (forall j, In j (w_parts w) <-> WordsSpec.belongs cfg ws0 k j) /\ NoDup (w_parts w) /\
    (forall b, w_partOf w = Some b <-> WordsSpec.belongs cfg ws0 b k /\ forall b', WordsSpec.belongs cfg ws0 b' k -> (b' <= b)%nat) /\
    (w_partOf w = None <-> forall b, ~ WordsSpec.belongs cfg ws0 b k)).
  { intros k w Hw. destruct (nth_error ws0 k) as [w0|] eqn:E; [|apply nth_error_None in E; assert (k < length ws) by (apply nth_error_Some; congruence); lia].
    exists w0. split; [reflexivity|]. destruct (R _ _ E) as (w' & E' & A1 & A2 & A3 & A4 & A5). assert (w' = w) by congruence. subst w'.
    split; [exact A1|]. split; [exact A2|]. split; [|split; [exact A4|exact A5]]. destruct A3 as [-> | (a & x & La & Lx & ->)]; [constructor|]. apply seq_rev_nodup. lia. }
  unfold good. cbn [set_words g_words visible_chars g_chars]. change (visible_chars (set_words (seq n (length ws)) p)) with (visible_chars p). split.
  - f_equal. rewrite <- C0. rewrite flat_map_concat_map.
    rewrite <- (map_map (at_words all) w_chars), NP, map_map. cbn [shift_word w_chars]. f_equal.
    apply (nth_ext _ _ [] []); [rewrite !map_length; exact L|]. intros k Hk. rewrite map_length in Hk.
    destruct (nth_error ws k) as [w|] eqn:E; [|apply nth_error_None in E; lia]. destruct (RR _ _ E) as (w0 & E' & SW & _).
    rewrite (nth_error_nth (map (fun x => w_chars x) ws) k [] (map_nth_error (fun x => w_chars x) k ws E)).
    rewrite (nth_error_nth (map w_chars ws0) k [] (map_nth_error w_chars k ws0 E')).
    destruct SW as (_ & _ & _ & _ & _ & _ & X & _). exact X.
  - change (g_words (set_words (seq n (length ws)) p)) with (seq n (length ws)). rewrite NP. intros [S1 S2].
    assert (BB : forall i j, WordsSpec.belongs cfg ws0 i j -> WordsSpec.belongs cfg (map (shift_word n) ws) i j).
    { intros i j. apply belongs_shape; [rewrite LS; lia|]. intros k w Hw. rewrite nth_error_map in Hw. destruct (nth_error ws k) as [w1|] eqn:E; [|discriminate].
      cbn [option_map] in Hw. injection Hw as <-. destruct (RR _ _ E) as (w0 & E' & (X1 & X2 & X3 & X4 & X5 & X6 & X7 & _) & _). exists w0. split; [exact E'|].
      unfold same_shape. cbn [shift_word w_pos w_text w_fontSize w_chars]. repeat split; assumption. }
    assert (U1 : forall i i' j, WordsSpec.belongs cfg ws0 i j -> WordsSpec.belongs cfg ws0 i' j -> i = i') by (intros i i' j H1 H2; apply (S1 i i' j); apply BB; assumption).
    assert (U2 : forall i j k, WordsSpec.belongs cfg ws0 i j -> ~ WordsSpec.belongs cfg ws0 j k) by (intros i j k H1 H2; apply (S2 i j k); apply BB; assumption).
    assert (BL : forall b j, WordsSpec.belongs cfg ws0 b j -> (b < length ws)%nat /\ (j < length ws)%nat).
    { intros b j (x & Ex & _ & _ & Lj & _). split; [|lia]. rewrite L. apply nth_error_Some. congruence. }
    assert (IN : forall i, In i (seq n (length ws)) -> exists k w, i = n + k /\ nth_error ws k = Some w).
    { intros i Hi. apply in_seq in Hi. exists (i - n). destruct (nth_error ws (i - n)) as [w|] eqn:E; [exists w; split; [lia|reflexivity]|]. apply nth_error_None in E. lia. }
    assert (GET : forall k, (k < length ws)%nat -> exists w, nth_error ws k = Some w).
    { intros k Hk. destruct (nth_error ws k) as [w|] eqn:E; [eauto|]. apply nth_error_None in E. lia. }
    split; [apply seq_NoDup|]. split; [|split].
    + intros i q Hi PO Hq. destruct (IN i Hi) as (k & w & -> & Hw). rewrite (AT _ _ Hw) in PO, Hq. cbn [shift_word w_partOf w_parts] in PO, Hq.
      apply in_map_iff in Hq as (j & <- & Hj). destruct (RR _ _ Hw) as (w0 & _ & _ & A2 & _). apply A2 in Hj. destruct (BL _ _ Hj) as [_ Lj].
      split; [apply in_seq; lia|]. destruct (GET j Lj) as [wj Ej]. rewrite (AT _ _ Ej). cbn [shift_word w_partOf].
      destruct (RR _ _ Ej) as (_ & _ & _ & _ & _ & A4 & _). rewrite (proj2 (A4 k)); [reflexivity|]. split; [exact Hj|]. intros b' Hb'. rewrite (U1 _ _ _ Hb' Hj). lia.
    + intros i Hi. destruct (IN i Hi) as (k & w & -> & Hw). rewrite (AT _ _ Hw). cbn [shift_word w_parts]. destruct (RR _ _ Hw) as (w0 & _ & _ & _ & ND & _).
      clear -ND. induction ND as [|x l Hx _ IH]; cbn [map]; constructor; [|exact IH]. intros X. apply in_map_iff in X as (y & Ey & Hy). apply Hx. replace x with y by lia. exact Hy.
    + intros i b Hi PO. destruct (IN i Hi) as (j & w & -> & Hw). rewrite (AT _ _ Hw) in PO. cbn [shift_word w_partOf] in PO.
      destruct (w_partOf w) as [b0|] eqn:EB; [|discriminate]. cbn [option_map] in PO. injection PO as <-.
      destruct (RR _ _ Hw) as (_ & _ & _ & _ & _ & A4 & _). rewrite EB in A4. destruct (proj1 (A4 b0) eq_refl) as [Hb _]. destruct (BL _ _ Hb) as [Lb _].
      destruct (GET b0 Lb) as [wb Eb]. split; [apply in_seq; lia|]. rewrite (AT _ _ Eb). cbn [shift_word w_partOf w_parts].
      destruct (RR _ _ Eb) as (_ & _ & _ & B2 & _ & _ & B5). split; [rewrite (proj2 B5); [reflexivity|]; intros b' Hb'; exact (U2 _ _ _ Hb' Hb)|].
      apply in_map, B2, Hb.
Qed.

(** ** All pages *)
Lemma place_good cfg ps : forall wss0 pre post ps' ws,
  Forall2 (fun p ws0 => concat (map w_chars ws0) = visible_chars p /\ (forall w, In w ws0 -> w_parts w = [] /\ w_partOf w = None)) ps wss0 ->
  place_words (length pre) ps (map (Words.mergeStackedMathSymbols cfg) wss0) = (ps', ws) ->
  Forall2 (fun p p' => exists l, p' = set_words l p) ps ps' /\ Forall (good cfg (pre ++ ws ++ post)) ps'.
Proof.
  induction ps as [|p ps IH]; intros wss0 pre post ps' ws F H; inversion F as [|? ws0 ? wss1 (C & E) F1]; subst; cbn [place_words map] in H.
  - apply pair_equal_spec in H as [<- <-]. split; constructor.
  - destruct (place_words _ ps _) as [ps1 rest] eqn:ER in H. apply pair_equal_spec in H as [<- <-].
    set (w1 := Words.mergeStackedMathSymbols cfg ws0) in *.
    specialize (IH wss1 (pre ++ map (shift_word (length pre)) w1) post ps1 rest F1). rewrite app_length, map_length in IH. destruct (IH ER) as [A B].
    split; [constructor; [eauto|exact A]|]. constructor.
    + rewrite <- app_assoc. exact (page_good cfg pre ws0 (rest ++ post) p C E).
    + rewrite <- !app_assoc in *. exact B.
Qed.

Section W.
  Context (m : machine) (cfg : Words.words_config) (SANE : sane m) (qs : list Parsing.ppage).
  (** what holds from the detection of words on *)
  Definition inv1 (d : gdoc) : Prop := Forall2 page_of qs (gd_pages d) /\ Forall (good cfg (gd_words d)) (gd_pages d).
  Definition no_text (p : gpage) : Prop := g_segs p = [] /\ g_blocks p = [].
  Lemma words_inv d d' : inv0 qs d -> run_words m cfg d = Ok d' -> inv1 d' /\ Forall no_text (gd_pages d') /\ gd_lines d' = [].
  Proof.
    intros (A & B & C & D) H. unfold run_words in H. destruct (omap _ (gd_pages d)) as [wss| |] eqn:E; try discriminate. cbn [obind] in H.
    destruct (place_words 0 _ _) as [ps ws] eqn:EP. apply Ok_inj in H. subst d'. unfold inv1. cbn [gd_pages gd_words gd_lines].
    apply omap_F2 in E. destruct SANE as (_ & _ & _ & _ & _ & _ & HS & HD & _).
    assert (F : Forall2 (fun p ws0 => concat (map w_chars ws0) = visible_chars p /\ (forall w, In w ws0 -> w_parts w = [] /\ w_partOf w = None)) (gd_pages d) wss).
    { refine (F2_imp _ _ _ _ _ E). intros p ws0 HW.
      destruct (PropsWords.C22_words_partition (m_ordS m) (m_ordD m) (m_wordId m (g_num p)) cfg (g_num p) [] (g_chars p) HS HD) as (ws1 & E1 & C1 & W1 & _).
      rewrite E1 in HW. apply Ok_inj in HW. cbn [app] in HW. subst ws0. split; [exact C1|]. intros w Hw.
      destruct (W1 w Hw) as [_ WO]. unfold WordsSpec.word_of in WO. split; apply WO. }
    destruct (place_good cfg (gd_pages d) wss [] [] ps ws F EP) as [P1 P2]. rewrite app_nil_r in P2. cbn [app] in P2.
    split; [split; [|exact P2]|split; [|exact D]].
    - refine (F2_comp _ _ _ _ _ A _ _ P1). intros q p p' Q (l & ->). apply (page_of_stay _ _ _ Q); reflexivity.
    - apply (F2_Forall _ _ _ _ _ P1 B). intros p p' (l & ->) (_ & S1 & _ & S3). split; assumption.
  Qed.
  Lemma inv1_step d d' : Forall2 keeps (gd_pages d) (gd_pages d') -> map core (gd_words d) = map core (gd_words d') -> inv1 d -> inv1 d'.
  Proof.
    intros K E [A B]. split.
    - refine (F2_comp _ _ _ _ _ A _ _ K). intros q p p' Q KP. exact (page_of_keeps _ _ _ Q KP).
    - apply (F2_Forall _ _ _ _ _ K B). intros p p' KP G. apply (good_core _ _ _ _ E). exact (good_keeps _ _ _ _ KP G).
  Qed.
End W.
