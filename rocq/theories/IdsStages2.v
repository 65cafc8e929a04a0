(** IdsStages2.v - proofs for C83: the modules behind the detection of words. *)
From Coq Require Import ZArith NArith FunctionalExtensionality.
From Verif Require Import Base Double MathUtils Sort Elements Counter XYCut Document Pipeline IdsSpec IdsXY IdsOrder IdsStages.
From Verif Require Fonts Parsing Statistics Diacritics Words PageSegmentation Lines Scripts Blocks Roles ReadingOrder Dehyphenation Cli.
Local Opaque TOL dZ dadd dsub ddiv dmul dec DBL_MAX DBL_MIN.

Definition Eh (h : heap) : heap := fun i => Ew (h i).
Lemma heap_E ws : word_heap (map Ew ws) = Eh (word_heap ws).
Proof. apply functional_extensionality. intros i. unfold word_heap, Eh. exact (map_nth Ew ws no_word i). Qed.

Lemma w_loop_E mf : forall ws prev s, Statistics.w_loop mf (option_map Ew prev) (map Ew ws) s = Statistics.w_loop mf prev ws s.
Proof.
  induction ws as [|w t IH]; intros prev s; [reflexivity|]. cbn [map Statistics.w_loop]. rewrite <- (IH (Some w)). cbn [option_map]. f_equal.
  destruct prev; reflexivity.
Qed.
Lemma w_pages_E mf : forall ps s, Statistics.w_pages mf (map (map Ew) ps) s = Statistics.w_pages mf ps s.
Proof.
  unfold Statistics.w_pages. induction ps as [|p t IH]; intros s; [reflexivity|]. cbn [map fold_left]. rewrite IH. f_equal. apply (w_loop_E mf p None).
Qed.
Lemma run_wordStats_E m d : lift nameless (run_wordStats m d) = run_wordStats (anon m) (nameless d).
Proof.
  unfold run_wordStats, Statistics.wordStatistics. cbn [anon other_ids m_ordD nameless gd_pages gd_stats gd_words]. rewrite heap_E, !map_map. cbn [anon_page g_words]. cbv zeta.
  replace (map (fun x => map (Eh (word_heap (gd_words d))) (g_words x)) (gd_pages d)) with (map (map Ew) (map (fun x => map (word_heap (gd_words d)) (g_words x)) (gd_pages d)))
    by (rewrite map_map; apply map_ext; intros p; now rewrite map_map).
  rewrite w_pages_E, lift_bind. apply bind_ext. intros st. reflexivity.
Qed.

Lemma page_elems_E ws p : page_elems (map Ew ws) (anon_page p) = page_elems ws p.
Proof. unfold page_elems. rewrite heap_E. cbn [anon_page g_words g_figures g_graphics g_shapes]. rewrite !map_map. reflexivity. Qed.
Lemma run_segmentation_E m d : lift nameless (run_segmentation m d) = run_segmentation (anon m) (nameless d).
Proof.
  unfold run_segmentation. cbv zeta. cbn [anon other_ids m_sortP m_topP nameless gd_pages gd_stats gd_words]. rewrite lift_bind. erewrite <- omap_lift.
  - rewrite bind_lift. apply bind_ext. intros ps. reflexivity.
  - intros p. cbv beta. rewrite page_elems_E, lift_bind. apply bind_ext. intros r. reflexivity.
Qed.

Lemma map_chars {B} (g : character -> B) (h : heap) ws : (forall c, g (Ec c) = g c) -> map g (Lines.chars_of (Eh h) ws) = map g (Lines.chars_of h ws).
Proof.
  intros H. unfold Lines.chars_of, Eh. rewrite !concat_map, !map_map. f_equal. apply map_ext. intros i. cbn [anon_word w_chars]. rewrite map_map. apply map_ext. exact H.
Qed.
Lemma properties_E sW oS oD h : Lines.computeTextLineProperties sW oS oD (Eh h) = Lines.computeTextLineProperties sW oS oD h.
Proof.
  apply functional_extensionality. intros l. unfold Lines.computeTextLineProperties. destruct (Lines.l_words l) as [|w0 t]; [reflexivity|]. cbv zeta.
  change (Lines.wpos (Eh h)) with (Lines.wpos h). change (Lines.word_lt (Eh h)) with (Lines.word_lt h). apply bind_ext. intros ws.
  rewrite (map_chars c_fontName), (map_chars c_fontSize), (map_chars c_base) by reflexivity. reflexivity.
Qed.
Lemma detectTextLines_E sW sL oS oD oR oY acw ab h n ps :
  Lines.detectTextLines sW sL oS oD oR oY acw ab (Eh h) n ps = Lines.detectTextLines sW sL oS oD oR oY acw ab h n ps.
Proof.
  unfold Lines.detectTextLines, Lines.segments_lines, Lines.segment_lines, Lines.rotations_lines, Lines.rotation_lines, Lines.merge_rounds, Lines.merge_round, Lines.mergeTextLines, Lines.createTextLine.
  rewrite (properties_E sW oS oD h). reflexivity.
Qed.
Lemma place_pages_E : forall ps r n k, place_pages n k (map anon_page ps) r = (map anon_page (fst (place_pages n k ps r)), snd (place_pages n k ps r)).
Proof.
  induction ps as [|p ps IH]; intros r n k; [reflexivity|]. destruct r as [|[rp hs] r]; [reflexivity|]. cbn [place_pages map anon_page g_segs].
  destruct (place_lines n k (g_segs p) rp) as [segs ls]. rewrite IH. destruct (place_pages (n + length ls) (k + length segs) ps r) as [ps' rest]. reflexivity.
Qed.
Lemma run_lines_E m d : lift nameless (run_lines m d) = run_lines (anon m) (nameless d).
Proof.
  unfold run_lines. cbn [anon other_ids m_sortW m_sortL m_ordS m_ordD m_ordR m_ordY m_absd nameless gd_pages gd_stats gd_words]. rewrite heap_E, detectTextLines_E, map_map.
  cbn [anon_page g_segs]. rewrite lift_bind. apply bind_ext. intros r. rewrite place_pages_E. destruct (place_pages 0 0 (gd_pages d) r) as [ps ls]. reflexivity.
Qed.
Lemma fill1_E d : nameless (fill_lines1 d) = fill_lines1 (nameless d).
Proof. unfold fill_lines1, nameless, set_pages. cbn [gd_pages gd_fonts gd_stats gd_words gd_lines]. rewrite !map_map. reflexivity. Qed.
Lemma flat_map_map {A B C} (g : A -> B) (f : B -> list C) l : flat_map f (map g l) = flat_map (fun x => f (g x)) l.
Proof. induction l as [|x t IH]; [reflexivity|]. cbn. now rewrite IH. Qed.
Lemma fill2_E d : nameless (fill_lines2 d) = fill_lines2 (nameless d).
Proof.
  unfold fill_lines2, nameless, set_pages. cbn [gd_pages gd_fonts gd_stats gd_words gd_lines]. rewrite !map_map. f_equal. apply map_ext. intros p.
  cbn [anon_page g_blocks]. rewrite flat_map_map. reflexivity.
Qed.

(** ** Scripts *)
Lemma script_chars_E mf base : forall cs b, Scripts.script_chars mf base (map Ec cs) b = (map Ec (fst (Scripts.script_chars mf base cs b)), snd (Scripts.script_chars mf base cs b)).
Proof.
  induction cs as [|c t IH]; intros b; [reflexivity|]. cbn [map Scripts.script_chars]. unfold Scripts.script_char. cbn [anon_char c_fontSize c_base c_pos].
  destruct (smaller _ mf _); [destruct (smaller _ base _); [|destruct (larger _ base _)]|]; rewrite IH; destruct (Scripts.script_chars mf base t _); reflexivity.
Qed.
Lemma upd_E h i w : Eh (upd h i w) = upd (Eh h) i (Ew w).
Proof. apply functional_extensionality. intros j. unfold Eh, upd. destruct (j =? i); reflexivity. Qed.
Lemma script_words_E mf base : forall ws h b, Scripts.script_words mf base ws (Eh h) b = (Eh (fst (Scripts.script_words mf base ws h b)), snd (Scripts.script_words mf base ws h b)).
Proof.
  induction ws as [|w t IH]; intros h b; [reflexivity|]. cbn [Scripts.script_words]. change (w_chars (Eh h w)) with (map Ec (w_chars (h w))). rewrite script_chars_E.
  destruct (Scripts.script_chars mf base (w_chars (h w)) b) as [cs b1]. cbn [fst snd].
  replace (upd (Eh h) w (Scripts.set_chars (Eh h w) (map Ec cs))) with (Eh (upd h w (Scripts.set_chars (h w) cs))) by (rewrite upd_E; reflexivity). apply IH.
Qed.
Lemma detectScripts_E mf : forall ls h, Scripts.detectScripts mf ls (Eh h) = (Eh (fst (Scripts.detectScripts mf ls h)), snd (Scripts.detectScripts mf ls h)).
Proof.
  induction ls as [|l t IH]; intros h; [reflexivity|]. cbn [Scripts.detectScripts]. rewrite script_words_E. destruct (Scripts.script_words mf _ _ h _) as [h1 b]. cbn [fst snd].
  rewrite IH. destruct (Scripts.detectScripts mf t h1) as [h2 t']. reflexivity.
Qed.
Lemma run_scripts_E d : lift nameless (run_scripts d) = run_scripts (nameless d).
Proof.
  unfold run_scripts. cbv zeta. change (gd_lines (nameless d)) with (gd_lines d). change (gd_words (nameless d)) with (map Ew (gd_words d)). change (gd_stats (nameless d)) with (gd_stats d).
  assert (I : segment_line_ids (nameless d) = segment_line_ids d) by (unfold segment_line_ids; cbn [nameless gd_pages]; rewrite flat_map_map; reflexivity).
  rewrite I, heap_E, detectScripts_E, map_length. destruct (Scripts.detectScripts _ _ (word_heap (gd_words d))) as [h sl]. cbn [fst snd lift]. unfold nameless at 1. cbn [gd_pages gd_fonts gd_stats gd_words gd_lines].
  rewrite map_map. reflexivity.
Qed.
Lemma run_lineStats_E m d : lift nameless (run_lineStats m d) = run_lineStats (anon m) (nameless d).
Proof.
  unfold run_lineStats. cbn [anon other_ids m_ordD m_ordF nameless gd_pages gd_stats]. rewrite map_map. cbn [anon_page g_segs]. rewrite lift_bind.
  change (stat_line (mkGDoc (map anon_page (gd_pages d)) (gd_fonts d) (gd_stats d) (map Ew (gd_words d)) (gd_lines d))) with (stat_line d). apply bind_ext. intros st. reflexivity.
Qed.

(** ** Blocks *)
Lemma item_label_E rx h : Blocks.computeIsPrefixedByItemLabel rx (Eh h) = Blocks.computeIsPrefixedByItemLabel rx h.
Proof.
  apply functional_extensionality. intros l. unfold Blocks.computeIsPrefixedByItemLabel. destruct (Blocks.bl_words l) as [|w t]; [reflexivity|].
  change (w_chars (Eh h w)) with (map Ec (w_chars (h w))). destruct (w_chars (h w)); reflexivity.
Qed.
Lemma super_prefix_E : forall cs, Blocks.super_prefix (map Ec cs) = Blocks.super_prefix cs.
Proof. induction cs as [|c t IH]; [reflexivity|]. cbn [map Blocks.super_prefix anon_char c_isSuper c_text]. now rewrite IH. Qed.
Lemma foot_label_E h : Blocks.computeIsPrefixedByFootnoteLabel (Eh h) = Blocks.computeIsPrefixedByFootnoteLabel h.
Proof.
  apply functional_extensionality. intros ls. apply functional_extensionality. intros l. unfold Blocks.computeIsPrefixedByFootnoteLabel. destruct (Blocks.bl_words l) as [|w t]; [reflexivity|].
  change (w_chars (Eh h w)) with (map Ec (w_chars (h w))). cbv zeta. rewrite super_prefix_E. reflexivity.
Qed.
Lemma word_labels_E : forall cs label seen, Blocks.word_labels (map Ec cs) label seen = Blocks.word_labels cs label seen.
Proof.
  induction cs as [|c t IH]; intros label seen; [reflexivity|]. cbn [map Blocks.word_labels anon_char c_isSub c_isSuper c_text].
  destruct (c_text c); now rewrite ?IH.
Qed.
Lemma labels_E h : Blocks.computePotentialFootnoteLabels (Eh h) = Blocks.computePotentialFootnoteLabels h.
Proof.
  apply functional_extensionality. intros l. apply functional_extensionality. intros ls. unfold Blocks.computePotentialFootnoteLabels. f_equal.
  induction (Blocks.bl_words l) as [|w t IH]; [reflexivity|]. cbn [flat_map]. rewrite IH. change (w_chars (Eh h w)) with (map Ec (w_chars (h w))). now rewrite word_labels_E.
Qed.
Lemma first_E bd rx h : Blocks.computeIsFirstLineOfItem rx (Eh h) bd = Blocks.computeIsFirstLineOfItem rx h bd.
Proof. unfold Blocks.computeIsFirstLineOfItem, Blocks.sibling_item. rewrite item_label_E, foot_label_E. reflexivity. Qed.
Lemma detectTextBlocks_E oS oD ab rx h bd fuel ps lh :
  Blocks.detectTextBlocks oS oD ab rx (Eh h) bd fuel ps lh = Blocks.detectTextBlocks oS oD ab rx h bd fuel ps lh.
Proof.
  unfold Blocks.detectTextBlocks, Blocks.final_pages, Blocks.final_blocks, Blocks.final_lines, Blocks.startsBlock, Blocks.rule_centered, Blocks.rule_item, Blocks.computeIsContinuationOfItem.
  rewrite first_E, labels_E. reflexivity.
Qed.
Lemma block_doc_E d : block_doc (nameless d) = block_doc d.
Proof.
  unfold block_doc. cbv zeta. unfold all_fonts. cbn [nameless gd_stats gd_fonts gd_pages]. rewrite flat_map_map, map_map. cbn [anon_page g_segs g_figures].
  f_equal. apply map_ext. intros p. rewrite map_map. reflexivity.
Qed.
Lemma combine_map_l {A B C} (f : A -> B) : forall (l : list A) (r : list C), combine (map f l) r = map (fun x => (f (fst x), snd x)) (combine l r).
Proof. induction l as [|x t IH]; intros [|y r]; [reflexivity..|]. cbn. now rewrite IH. Qed.
Lemma run_blocks_E m d : lift nameless (run_blocks m d) = run_blocks (anon m) (nameless d).
Proof.
  unfold run_blocks. cbn [anon other_ids m_ordS m_ordD m_absd m_labelRegex]. rewrite block_doc_E. cbn [nameless gd_words gd_lines gd_pages gd_fonts gd_stats]. rewrite heap_E, detectTextBlocks_E, map_map.
  cbn [anon_page g_segs]. rewrite lift_bind. apply bind_ext. intros [[pre fin] lh]. cbn [lift]. unfold nameless at 1. cbn [gd_words gd_lines gd_pages gd_fonts gd_stats]. f_equal. f_equal.
  rewrite combine_map_l, !map_map. apply map_ext. intros [p bs]. cbn [fst snd]. unfold anon_page, set_blocks. cbn. rewrite map_app, map_map. reflexivity.
Qed.

(** ** Reading order, dehyphenation *)
Lemma role_page_E h p : role_page (Eh h) (anon_page p) = role_page h p.
Proof. unfold role_page. cbn [anon_page g_clip g_blocks]. rewrite map_map. reflexivity. Qed.
Lemma set_roles_E : forall ps roles, map anon_page (set_roles roles ps) = set_roles roles (map anon_page ps).
Proof.
  induction ps as [|p t IH]; intros roles; [reflexivity|]. cbn [map set_roles]. rewrite IH. cbn [anon_page g_blocks]. rewrite map_length, combine_map_l. f_equal.
  unfold anon_page, set_blocks. cbn. rewrite !map_map. f_equal. apply map_ext. intros [b r]. reflexivity.
Qed.
Lemma combine_map_r {A B C} (f : B -> C) : forall (l : list A) (r : list B), combine l (map f r) = map (fun x => (fst x, f (snd x))) (combine l r).
Proof. induction l as [|x t IH]; intros [|y r]; [reflexivity..|]. cbn. now rewrite IH. Qed.
Lemma doc_page_E m p : fpage (doc_page m p) = doc_page (anon m) (anon_page p).
Proof.
  unfold fpage, doc_page. cbn [p_num p_width p_height p_figures p_shapes p_blocks anon_page g_num g_clip g_figures g_shapes g_blocks]. f_equal. unfold figure_elem.
  rewrite map_length, combine_map_r, !map_map. apply map_ext. intros [i f]. reflexivity.
Qed.
Lemma run_readingOrder_E m d : blind_sort (m_sortR m) -> blind_top (m_topR m) -> lift nameless (run_readingOrder m d) = run_readingOrder (anon m) (nameless d).
Proof.
  intros HS HT. unfold run_readingOrder. cbv zeta. change (m_fromBytes (anon m)) with (m_fromBytes m). change (m_network (anon m)) with (m_network m). change (m_fuel (anon m)) with (m_fuel m).
  change (m_bpe (anon m)) with (m_bpe m). change (m_roles (anon m)) with (m_roles m). change (m_sortR (anon m)) with (m_sortR m). change (m_topR (anon m)) with (m_topR m).
  cbn [nameless gd_words gd_fonts gd_pages gd_stats]. rewrite heap_E.
  replace (map (role_page (Eh (word_heap (gd_words d)))) (map anon_page (gd_pages d))) with (map (role_page (word_heap (gd_words d))) (gd_pages d)) by (rewrite map_map; apply map_ext; intros p; symmetry; apply role_page_E).
  rewrite lift_bind. apply bind_ext. intros roles. rewrite <- set_roles_E.
  replace (map (doc_page (anon m)) (map anon_page (set_roles roles (gd_pages d)))) with (map fpage (map (doc_page m) (set_roles roles (gd_pages d))))
    by (rewrite !map_map; apply map_ext; intros p; apply (doc_page_E m)).
  rewrite <- (pages_fr _ _ HS HT). destruct (ReadingOrder.order_pages _ _ _ _ _) as [[qs|w|w]|]; cbn [rlift option_map lift from_run obind]; [|reflexivity..].
  f_equal. unfold nameless, set_pages. cbn [gd_words gd_lines gd_pages gd_fonts gd_stats]. f_equal. rewrite combine_map_l, combine_map_r, !map_map. apply map_ext. intros [p q]. reflexivity.
Qed.
Lemma dehyph_line_E h pl l : Dehyphenation.dehyph_line (Eh h, pl) l = (Eh (fst (Dehyphenation.dehyph_line (h, pl) l)), snd (Dehyphenation.dehyph_line (h, pl) l)).
Proof.
  unfold Dehyphenation.dehyph_line. destruct l as [|w l]; [reflexivity|]. destruct pl as [pl|]; [|reflexivity]. cbv zeta. change (w_text (Eh h (last pl 0))) with (w_text (h (last pl 0))).
  change (w_text (Eh h w)) with (w_text (h w)). destruct (1 <? _); [|reflexivity]. destruct (Ascii.eqb _ _); [|reflexivity]. cbn [fst snd]. rewrite !upd_E. f_equal. f_equal.
  generalize (firstn (length (w_text (h (last pl 0))) - 1) (w_text (h (last pl 0))) ++ w_text (h w)) as tx. intros tx. unfold upd. destruct (w =? last pl 0); reflexivity.
Qed.
Lemma fold_pair {X} (step : heap * option line -> X -> heap * option line) :
  (forall h pl x, step (Eh h, pl) x = (Eh (fst (step (h, pl) x)), snd (step (h, pl) x))) ->
  forall l h pl, fold_left step l (Eh h, pl) = (Eh (fst (fold_left step l (h, pl))), snd (fold_left step l (h, pl))).
Proof.
  intros H. induction l as [|x t IH]; intros h pl; [reflexivity|]. cbn [fold_left]. rewrite H. destruct (step (h, pl) x) as [h' pl']. apply IH.
Qed.
Lemma dehyphenate_E ps fs fs' h : Dehyphenation.dehyphenate (mkDoc (map fpage ps) fs') (Eh h) = Eh (Dehyphenation.dehyphenate (mkDoc ps fs) h).
Proof.
  unfold Dehyphenation.dehyphenate. cbn [d_pages]. generalize (@None line) as pl. revert h. induction ps as [|p t IH]; intros h pl; [reflexivity|]. cbn [map fold_left fpage p_blocks].
  assert (B : forall bs h pl, fold_left (fun st b => fold_left Dehyphenation.dehyph_line (b_lines b) st) (map Eb bs) (Eh h, pl) =
      (Eh (fst (fold_left (fun st b => fold_left Dehyphenation.dehyph_line (b_lines b) st) bs (h, pl))), snd (fold_left (fun st b => fold_left Dehyphenation.dehyph_line (b_lines b) st) bs (h, pl)))).
  { induction bs as [|b r IHb]; intros h' pl'; [reflexivity|]. cbn [map fold_left anon_block b_lines]. rewrite (fold_pair _ dehyph_line_E).
    destruct (fold_left Dehyphenation.dehyph_line (b_lines b) (h', pl')) as [h1 pl1]. apply IHb. }
  rewrite B. destruct (fold_left _ (p_blocks p) (h, pl)) as [h1 pl1]. apply IH.
Qed.
Lemma run_dehyphenation_E m d : lift nameless (run_dehyphenation m d) = run_dehyphenation (anon m) (nameless d).
Proof.
  unfold run_dehyphenation. cbv zeta. unfold the_document. cbn [nameless gd_words gd_pages gd_fonts gd_stats gd_lines]. rewrite heap_E, map_length.
  replace (map (doc_page (anon m)) (map anon_page (gd_pages d))) with (map fpage (map (doc_page m) (gd_pages d))) by (rewrite !map_map; apply map_ext; intros p; apply doc_page_E).
  rewrite (dehyphenate_E _ (all_fonts d)). cbn [lift]. unfold nameless. cbn [gd_words gd_pages gd_fonts gd_stats gd_lines]. rewrite map_map. reflexivity.
Qed.

(** ** All modules *)
Lemma run_module_E m cfg es x d : blind_sort (m_sortR m) -> blind_top (m_topR m) -> lift nameless (run_module m cfg es x d) = run_module (anon m) cfg es x (nameless d).
Proof.
  intros HS HT. destruct x; cbn [run_module]; [apply run_parsing_E|apply run_glyphStats_E|apply run_diacritics_E|apply run_words_E|apply run_wordStats_E|apply run_segmentation_E|
    apply run_lines_E|apply run_scripts_E|apply run_lineStats_E|apply run_blocks_E|now apply run_readingOrder_E|reflexivity|apply run_dehyphenation_E].
Qed.
Lemma step_E m cfg es c x d : blind_sort (m_sortR m) -> blind_top (m_topR m) -> lift nameless (Cli.step c (run_module m cfg es) x d) = Cli.step c (run_module (anon m) cfg es) x (nameless d).
Proof. intros HS HT. unfold Cli.step. destruct (Bool.eqb _ _); [now apply run_module_E|reflexivity]. Qed.
Lemma process_E m cfg c no es d : blind_sort (m_sortR m) -> blind_top (m_topR m) ->
  up_to_ids (Cli.process c no (run_module m cfg es) fill_lines1 fill_lines2 d) = Cli.process c no (run_module (anon m) cfg es) fill_lines1 fill_lines2 (nameless d).
Proof.
  intros HS HT. unfold Cli.process. destruct no as [code|]; [reflexivity|].
  rewrite <- run_module_E, bind_lift by assumption. destruct (run_module m cfg es Cli.MParsing d) as [d1|w|w]; cbn [obind]; [|reflexivity..].
  rewrite <- step_E, bind_lift by assumption. destruct (Cli.step c _ Cli.MGlyphStats d1) as [d2|w|w]; cbn [obind]; [|reflexivity..].
  rewrite <- step_E, bind_lift by assumption. destruct (Cli.step c _ Cli.MDiacritics d2) as [d3|w|w]; cbn [obind]; [|reflexivity..].
  rewrite <- step_E, bind_lift by assumption. destruct (Cli.step c _ Cli.MWords d3) as [d4|w|w]; cbn [obind]; [|reflexivity..].
  rewrite <- step_E, bind_lift by assumption. destruct (Cli.step c _ Cli.MWordStats d4) as [d5|w|w]; cbn [obind]; [|reflexivity..].
  rewrite <- step_E, bind_lift by assumption. destruct (Cli.step c _ Cli.MSegmentation d5) as [d6|w|w]; cbn [obind]; [|reflexivity..].
  assert (L : lift nameless (if Bool.eqb (Cli.disabled c Cli.MLines) false then do s <- run_module m cfg es Cli.MLines d6; Ok (fill_lines1 s) else Ok d6) =
    (if Bool.eqb (Cli.disabled c Cli.MLines) false then do s <- run_module (anon m) cfg es Cli.MLines (nameless d6); Ok (fill_lines1 s) else Ok (nameless d6))).
  { destruct (Bool.eqb _ _); [|reflexivity]. rewrite <- run_module_E, bind_lift, lift_bind by assumption. apply bind_ext. intros s. cbn [lift]. now rewrite fill1_E. }
  rewrite <- L, bind_lift. destruct (if Bool.eqb (Cli.disabled c Cli.MLines) false then _ else _) as [d7|w|w]; cbn [obind]; [|reflexivity..].
  rewrite <- step_E, bind_lift by assumption. destruct (Cli.step c _ Cli.MScripts d7) as [d8|w|w]; cbn [obind]; [|reflexivity..].
  rewrite <- step_E, bind_lift by assumption. destruct (Cli.step c _ Cli.MLineStats d8) as [d9|w|w]; cbn [obind]; [|reflexivity..].
  rewrite <- step_E, bind_lift by assumption. destruct (Cli.step c _ Cli.MBlocks d9) as [d10|w|w]; cbn [obind]; [|reflexivity..].
  rewrite <- step_E, bind_lift by assumption. destruct (Cli.step c _ Cli.MReadingOrder d10) as [d11|w|w]; cbn [obind]; [|reflexivity..].
  rewrite <- step_E, bind_lift by assumption. destruct (Cli.step c _ Cli.MDehyphenation d11) as [d12|w|w]; cbn [obind]; [|reflexivity..].
  cbn [up_to_ids]. now rewrite fill2_E.
Qed.
