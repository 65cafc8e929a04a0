(** PipelineProofs.v - the characters of the blocks are those of the pages. *)
From Coq Require Import ZArith NArith.
From Verif Require Import Base Double Elements Sort XYCut Document Pipeline PipelineSpec PipelineLines.
From Verif Require Fonts Parsing Statistics Diacritics DiacriticsSpec DiacriticsProofs Words WordsSpec WordsProofs StackedProofs
  PageSegmentation Lines LinesSpec LinesDefined Scripts ScriptsSpec ScriptsProofs Blocks BlocksSpec BlocksCuts Roles RolesProofs ReadingOrder ReadingOrderProofs
  Dehyphenation DehyphenationProofs Cli PropsWords PropsSegmentation PropsBlocks PropsLines ParsingProofs.

Lemma omap_F2 {A B} (f : A -> outcome B) l r : omap f l = Ok r -> Forall2 (fun x y => f x = Ok y) l r.
Proof.
  revert r. induction l as [|x l IH]; cbn [omap]; intros r H; [apply Ok_inj in H; subst; constructor|].
  destruct (f x) as [y| |] eqn:E; try discriminate. cbn [obind] in H. destruct (omap f l) as [ys| |] eqn:E2; try discriminate. cbn [obind] in H.
  apply Ok_inj in H. subst r. constructor; [exact E|apply IH; reflexivity].
Qed.
Lemma F2_Forall {A B} (P : A -> B -> Prop) (Q : A -> Prop) (R : B -> Prop) l l' : Forall2 P l l' -> Forall Q l ->
  (forall x y, P x y -> Q x -> R y) -> Forall R l'.
Proof. induction 1 as [|x y l l' H _ IH]; intros F I; inversion F; subst; constructor; [eapply I; eassumption|apply IH; assumption]. Qed.
Lemma F2_comp {A B C} (P : A -> B -> Prop) (Q : B -> C -> Prop) (R : A -> C -> Prop) l1 l2 : Forall2 P l1 l2 ->
  (forall x y z, P x y -> Q y z -> R x z) -> forall l3, Forall2 Q l2 l3 -> Forall2 R l1 l3.
Proof. intros F I. induction F as [|x y l1 l2 H _ IH]; intros l3 G; inversion G; subst; constructor; [eapply I; eassumption|apply IH; assumption]. Qed.
Lemma F2_imp {A B} (P Q : A -> B -> Prop) l l' : (forall x y, P x y -> Q x y) -> Forall2 P l l' -> Forall2 Q l l'.
Proof. intros I. induction 1; constructor; auto. Qed.
Lemma F2_map_r {A B} (P : A -> B -> Prop) (f : A -> B) l : (forall x, P x (f x)) -> Forall2 P l (map f l).
Proof. intros H. induction l; cbn [map]; constructor; auto. Qed.
Lemma F2_refl {A} (P : A -> A -> Prop) l : (forall x, P x x) -> Forall2 P l l.
Proof. intros H. induction l; constructor; auto. Qed.

(** ** Words up to the flags of their characters and the hyphenation *)
Definition core (w : word) : word :=
  mkWord (w_id w) (w_rank w) (w_pos w) (w_text w) (w_fontName w) (w_fontSize w) (map plain (w_chars w)) (w_partOf w) (w_parts w) None None.
Lemma core_nth ws ws' i : map core ws = map core ws' -> core (nth i ws no_word) = core (nth i ws' no_word).
Proof.
  intros H. change (core (nth i ws no_word)) with (core (nth i ws no_word)).
  assert (E : forall l, core (nth i l no_word) = nth i (map core l) no_word) by (intros l; symmetry; apply (map_nth core l no_word i)).
  rewrite !E, H. reflexivity.
Qed.
Lemma core_chars w w' : core w = core w' -> map plain (w_chars w) = map plain (w_chars w').
Proof. unfold core. congruence. Qed.
Lemma plain_sym cfg w : WordsSpec.is_symbol cfg (core w) <-> WordsSpec.is_symbol cfg w.
Proof.
  unfold WordsSpec.is_symbol. cbn [core w_chars w_text]. split; (intros [(c & Hc & H)|H]; [left|right; exact H]).
  - apply in_map_iff in Hc as (c' & <- & Hc). exists c'. split; [exact Hc|exact H].
  - exists (plain c). split; [apply in_map, Hc|exact H].
Qed.
Lemma belongs_core cfg ws i j : WordsSpec.belongs cfg (map core ws) i j <-> WordsSpec.belongs cfg ws i j.
Proof.
  unfold WordsSpec.belongs. rewrite map_length. split; intros (b & Hb & Sy & N & L & F).
  - rewrite nth_error_map in Hb. destruct (nth_error ws i) as [b0|] eqn:E; [|discriminate]. cbn [option_map] in Hb. injection Hb as <-.
    exists b0. split; [reflexivity|]. split; [apply plain_sym, Sy|]. split; [exact N|]. split; [exact L|]. intros k w K Hw.
    exact (F k (core w) K (map_nth_error core k ws Hw)).
  - exists (core b). split; [rewrite nth_error_map, Hb; reflexivity|]. split; [apply plain_sym, Sy|]. split; [exact N|]. split; [exact L|].
    intros k w K Hw. rewrite nth_error_map in Hw. destruct (nth_error ws k) as [w0|] eqn:E; [|discriminate]. cbn [option_map] in Hw. injection Hw as <-.
    exact (F k w0 K E).
Qed.
Lemma stacks_core cfg ws ws' : map core ws = map core ws' -> WordsSpec.belongs cfg ws = WordsSpec.belongs cfg ws -> stacks_apart cfg ws -> stacks_apart cfg ws'.
Proof.
  intros E _ [A B]. assert (Q : forall i j, WordsSpec.belongs cfg ws' i j -> WordsSpec.belongs cfg ws i j).
  { intros i j H. apply belongs_core. rewrite E. apply belongs_core, H. }
  split; [intros i i' j H1 H2; apply (A i i' j); apply Q; assumption|]. intros i j k H1 H2. apply (B i j k); apply Q; assumption.
Qed.

(** ** What stays the same on a page *)
Definition keeps (p p' : gpage) : Prop :=
  g_num p' = g_num p /\ g_clip p' = g_clip p /\ g_chars p' = g_chars p /\ g_figures p' = g_figures p /\ g_shapes p' = g_shapes p /\
  g_graphics p' = g_graphics p /\ g_words p' = g_words p.
Lemma keeps_refl p : keeps p p. Proof. repeat split. Qed.
Lemma page_of_keeps q p p' : page_of q p -> keeps p p' -> page_of q p'.
Proof. unfold page_of, keeps. intros (A & B & C & D & E & F) (A' & B' & C' & D' & E' & F' & _). rewrite A', B', C', D', E', F'. repeat (split; [assumption|]). assumption. Qed.
Lemma page_of_stay q p p' : page_of q p -> g_num p' = g_num p -> g_clip p' = g_clip p -> g_chars p' = g_chars p -> g_figures p' = g_figures p ->
  g_shapes p' = g_shapes p -> g_graphics p' = g_graphics p -> page_of q p'.
Proof. unfold page_of. intros (A & B & C & D & E & F) -> -> -> -> -> ->. repeat (split; [assumption|]). assumption. Qed.

Section P.
  Context (m : machine) (wcfg : Words.words_config) (SANE : sane m).
  Context (qs : list Parsing.ppage).

  (** ** Before the detection of words *)
  Definition blank (p : gpage) : Prop := g_words p = [] /\ g_segs p = [] /\ g_textLines p = [] /\ g_blocks p = [].
  Definition inv0 (d : gdoc) : Prop :=
    Forall2 page_of qs (gd_pages d) /\ Forall blank (gd_pages d) /\ gd_words d = [] /\ gd_lines d = [].
  Definition fresh_chars (d : gdoc) : Prop := Forall (fun p => DiacriticsSpec.unmerged (g_chars p)) (gd_pages d).

  Lemma place_unmerged k i q : (forall c, i = Parsing.IChar c -> c_markOf c = None /\ c_hasMark c = None) ->
    DiacriticsSpec.unmerged (Parsing.pp_chars q) -> DiacriticsSpec.unmerged (Parsing.pp_chars (Parsing.place k i q)).
  Proof.
    intros Hi H. unfold Parsing.place. destruct (Parsing.same_clip k (Parsing.pp_clip q)).
    - intros c Hc. unfold Parsing.add_page in Hc. cbn [Parsing.pp_chars] in Hc. apply in_app_or in Hc as [Hc|Hc]; [exact (H c Hc)|].
      destruct i as [c'|e|e]; cbn [Parsing.opt_char] in Hc; [|destruct Hc|destruct Hc]. destruct Hc as [<-|[]]. apply Hi. reflexivity.
    - destruct (Parsing.add_figures k i (Parsing.pp_figures q)) as [fs|]; exact H.
  Qed.
  Lemma store_unmerged k mk p p' : (forall n r c, mk n r = Parsing.IChar c -> c_markOf c = None /\ c_hasMark c = None) ->
    Parsing.store k mk p = Ok p' -> Forall (fun q => DiacriticsSpec.unmerged (Parsing.pp_chars q)) (Parsing.pages p) ->
    Forall (fun q => DiacriticsSpec.unmerged (Parsing.pp_chars q)) (Parsing.pages p').
  Proof.
    intros Hm H F. unfold Parsing.store in H. destruct (Parsing.pr_page p) as [q|] eqn:E; [|discriminate].
    destruct (_ =? _)%Z; [discriminate|]. apply Ok_inj in H. subst p'. unfold Parsing.pages in *. cbn [Parsing.pr_done Parsing.pr_page].
    rewrite E in F. apply Forall_app in F as [F1 F2]. apply Forall_app. split; [exact F1|]. constructor; [|constructor].
    inversion F2 as [|? ? F3 _]. subst. apply place_unmerged; [apply Hm|exact F3].
  Qed.
  Lemma parse_unmerged es : forall p p',
    Parsing.handle_all (m_parseFont m) (m_mapUnicode m) (m_fromBytes m) (m_iswspace m) (m_charId m) es p = Ok p' ->
    Forall (fun q => DiacriticsSpec.unmerged (Parsing.pp_chars q)) (Parsing.pages p) ->
    Forall (fun q => DiacriticsSpec.unmerged (Parsing.pp_chars q)) (Parsing.pages p').
  Proof.
    induction es as [|e es IH]; intros p p' H F; cbn [Parsing.handle_all] in H; [apply Ok_inj in H; subst; exact F|].
    destruct (Parsing.handle _ _ _ _ _ p e) as [p1| |] eqn:E; try discriminate. cbn [obind] in H. apply (IH p1 p' H). clear IH H.
    destruct e as [num s| |s|s code nB u uL|s|s|s]; cbn [Parsing.handle] in E.
    - apply Ok_inj in E. subst p1. unfold Parsing.start_page, Parsing.pages at 1. cbn [Parsing.pr_done Parsing.pr_page]. apply Forall_app. split; [exact F|].
      constructor; [intros c []|constructor].
    - apply Ok_inj in E. subst p1. exact F.
    - unfold Parsing.update_font in E. destruct (Parsing.s_font s) as [f|]; [|apply Ok_inj in E; subst p1; exact F].
      destruct (Parsing.find_font _ _) as [i|]; [apply Ok_inj in E; subst p1; exact F|].
      destruct (m_parseFont m (Parsing.pf_info f)) as [i| |]; try discriminate. cbn [obind] in E. apply Ok_inj in E. subst p1. exact F.
    - unfold Parsing.draw_char in E. destruct (Parsing.pr_font p) as [i|]; [|apply Ok_inj in E; subst p1; exact F].
      destruct (Parsing.char_text _ _ _ _) as [[text us]| |]; try discriminate. cbn [obind] in E.
      destruct (Parsing.is_blank _ _ _) as [[]| |]; try discriminate; cbn [obind] in E; [apply Ok_inj in E; subst p1; exact F|].
      destruct (Parsing.s_font s) as [pf|]; [|discriminate].
      destruct (Parsing.char_width _ _ _) as [w| |]; try discriminate. cbn [obind] in E. revert E F. apply store_unmerged.
      intros n r c. destruct (Parsing.char_position _ _ _ _ _ _) as [pos base]. intros [= <-]. split; reflexivity.
    - unfold Parsing.stroke in E. destruct (fold_left _ _ _) as [[[l u] r] d]. revert E F. apply store_unmerged. intros n k c. discriminate.
    - unfold Parsing.stroke in E. destruct (fold_left _ _ _) as [[[l u] r] d]. revert E F. apply store_unmerged. intros n k c. discriminate.
    - unfold Parsing.draw_graphic in E. destruct (Parsing.outside _ _ _ _ _); [apply Ok_inj in E; subst p1; exact F|]. revert E F. apply store_unmerged. intros n k c. discriminate.
  Qed.

  Lemma parsing_inv es d r : Parsing.parse_events (m_parseFont m) (m_mapUnicode m) (m_fromBytes m) (m_iswspace m) (m_charId m) es = Ok r ->
    qs = Parsing.pages r -> run_parsing m es gdoc_init = Ok d -> inv0 d /\ fresh_chars d.
  Proof.
    intros E EQ H. unfold run_parsing in H. rewrite E in H. cbn [obind] in H. apply Ok_inj in H. subst d. unfold inv0. rewrite EQ. clear EQ.
    assert (F : Forall (fun q => DiacriticsSpec.unmerged (Parsing.pp_chars q)) (Parsing.pages r)) by (apply (parse_unmerged _ _ _ E); constructor).
    split; [split; [|split; [|split; reflexivity]]|]; cbn [gd_pages].
    - apply F2_map_r. intros q. unfold page_of, new_page. cbn [g_num g_clip g_figures g_shapes g_graphics g_chars]. repeat (split; [reflexivity|]).
      apply F2_refl. intros c. repeat split.
    - apply Forall_forall. intros p Hp. apply in_map_iff in Hp as (q & <- & _). repeat split.
    - apply Forall_forall. intros p Hp. cbn [gd_pages] in Hp. apply in_map_iff in Hp as (q & <- & Hq). rewrite Forall_forall in F. exact (F q Hq).
  Qed.
  Lemma glyphStats_inv d d' : run_glyphStats m d = Ok d' -> gd_pages d' = gd_pages d /\ gd_words d' = gd_words d /\ gd_lines d' = gd_lines d.
  Proof. unfold run_glyphStats. destruct (Statistics.glyphStatistics _ _ _ _) as [st| |]; try discriminate. cbn [obind]. intros H. apply Ok_inj in H. subst d'. repeat split. Qed.
  Lemma wordStats_inv d d' : run_wordStats m d = Ok d' -> gd_pages d' = gd_pages d /\ gd_words d' = gd_words d /\ gd_lines d' = gd_lines d.
  Proof. unfold run_wordStats. destruct (Statistics.wordStatistics _ _ _) as [st| |]; try discriminate. cbn [obind]. intros H. apply Ok_inj in H. subst d'. repeat split. Qed.
  Lemma lineStats_inv d d' : run_lineStats m d = Ok d' -> gd_pages d' = gd_pages d /\ gd_words d' = gd_words d /\ gd_lines d' = gd_lines d.
  Proof. unfold run_lineStats. destruct (Statistics.lineStatistics _ _ _ _) as [st| |]; try discriminate. cbn [obind]. intros H. apply Ok_inj in H. subst d'. repeat split. Qed.

  Lemma merge_glyphs cs cs' : DiacriticsSpec.unmerged cs -> Diacritics.merge_marks (m_compose m) cs = Ok cs' -> Forall2 DiacriticsSpec.same_glyph cs cs'.
  Proof.
    intros U H. destruct (PropsWords.C21_frame (m_compose m) cs cs' U H) as [L F].
    assert (G : forall i c c', nth_error cs i = Some c -> nth_error cs' i = Some c' -> DiacriticsSpec.same_glyph c c') by (intros i c c' A B; apply (F i c c' A B)).
    clear -L G. revert cs' L G. induction cs as [|c cs IH]; intros [|c' cs'] L G; try discriminate; constructor.
    - apply (G 0); reflexivity.
    - apply IH; [injection L; auto|]. intros i a b A B. apply (G (S i)); assumption.
  Qed.
  Lemma same_glyph_trans a b c : DiacriticsSpec.same_glyph a b -> DiacriticsSpec.same_glyph b c -> DiacriticsSpec.same_glyph a c.
  Proof. unfold DiacriticsSpec.same_glyph. intros H1 H2. decompose [and] H1. decompose [and] H2. repeat split; congruence. Qed.
  Lemma diacritics_inv d d' : inv0 d -> fresh_chars d -> run_diacritics m d = Ok d' -> inv0 d'.
  Proof.
    intros (A & B & C & D) F H. unfold run_diacritics in H. destruct (omap _ (gd_pages d)) as [ps| |] eqn:E; try discriminate. cbn [obind] in H.
    apply Ok_inj in H. subst d'. apply omap_F2 in E. unfold inv0, set_pages. cbn [gd_pages gd_words gd_lines].
    assert (E' : Forall2 (fun p p' => DiacriticsSpec.unmerged (g_chars p) /\ exists cs, Diacritics.merge_marks (m_compose m) (g_chars p) = Ok cs /\ p' = set_chars cs p) (gd_pages d) ps).
    { unfold fresh_chars in F. clear -E F. revert F. induction E as [|p p' l l' H _ IH]; intros F; [constructor|]. inversion F as [|? ? F1 F2]; subst. constructor; [|exact (IH F2)].
      split; [exact F1|]. destruct (Diacritics.merge_marks _ _) as [cs| |]; try discriminate. cbn [obind] in H. apply Ok_inj in H. exists cs. split; [reflexivity|symmetry; exact H]. }
    split; [|split; [|split; [exact C|exact D]]].
    - refine (F2_comp _ _ _ _ _ A _ _ E'). intros q p p' (A1 & A2 & A3 & A4 & A5 & A6) (U & cs & M & ->).
      unfold page_of, set_chars. cbn [g_num g_clip g_figures g_shapes g_graphics g_chars]. repeat (split; [assumption|]).
      refine (F2_comp _ _ _ _ _ A6 _ _ (merge_glyphs _ _ U M)). intros x y z. apply same_glyph_trans.
    - apply (F2_Forall _ _ _ _ _ E' B). intros p p' (_ & cs & _ & ->) BL. exact BL.
  Qed.
End P.
