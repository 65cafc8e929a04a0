(** PropsContent.v - the content of the resulting document (C73, C74, C75). *)
From Coq Require Import ZArith NArith.
From Verif Require Import Base Double MathUtils Elements Sort XYCut Document GeometrySpec LinesSpec Pipeline PipelineSpec PipelineLines PipelineProofs PipelineWords PipelineWhole
  PipelineContent PipelineStages ContentSpec SerializationSpec.
From Verif Require Fonts Parsing Statistics DiacriticsSpec Words WordsSpec LinesDefined Roles ReadingOrder ReadingOrderProofs Dehyphenation DehyphenationProofs Serialization Cli TotalWhole
  PropsWords PropsSegmentation PropsOutput PropsPipeline PropsTotal.
Local Opaque TOL dadd dsub ddiv dmul dec DBL_MAX DBL_MIN.

Definition consistent (cfg : Words.words_config) (qs : list Parsing.ppage) (d : gdoc) : Prop :=
  inv3 cfg qs d /\ Forall (made_page (gd_words d)) (gd_pages d) /\ Forall (blocked (gd_words d)) (gd_pages d) /\ word_numbers d.
Lemma consistent_core cfg qs d d' : inv3 cfg qs d' -> map core (gd_words d) = map core (gd_words d') -> gd_pages d' = gd_pages d -> consistent cfg qs d -> consistent cfg qs d'.
Proof.
  intros I E P (_ & A & B & C). split; [exact I|]. split; [apply (made_step d); [rewrite P; apply F2_refl, keeps_refl|exact E|exact A]|]. split.
  - rewrite P. apply Forall_forall. intros p Hp. rewrite Forall_forall in B. exact (blocked_core _ _ _ E (B p Hp)).
  - apply (numbers_step d); [rewrite P; apply F2_refl; reflexivity|apply (f_equal (@length _)) in E; rewrite !map_length in E; symmetry; exact E|exact C].
Qed.
Lemma in_role (bs : list block) : forall part b', In b' (map (fun '(b, r) => with_role r b) (combine bs part)) ->
  exists b, In b bs /\ b_pos b' = b_pos b /\ b_text b' = b_text b /\ b_lines b' = b_lines b /\ b_fontName b' = b_fontName b /\ b_fontSize b' = b_fontSize b.
Proof.
  induction bs as [|b bs IH]; intros [|r part] b' H; cbn [combine map] in H; try destruct H as [<-|H]; try destruct H.
  - exists b. split; [left; reflexivity|repeat split].
  - destruct (IH part b' H) as (b1 & A & B). exists b1. split; [right; exact A|exact B].
Qed.
Lemma consistent_order m cfg qs d d' : sane m -> inv3 cfg qs d' -> run_readingOrder m d = Ok d' -> consistent cfg qs d -> consistent cfg qs d'.
Proof.
  intros SA I H (_ & A & B & C). destruct (readingOrder_parts m d d' H) as (roles & parts & _ & _ & LP & F & EW & _).
  destruct SA as (_ & _ & _ & _ & HS & HT & _).
  assert (K : Forall2 (fun p p' => keeps p p' /\ forall b', In b' (g_blocks p') -> exists b, In b (g_blocks p) /\ b_pos b' = b_pos b /\ b_text b' = b_text b /\ b_lines b' = b_lines b /\ b_fontName b' = b_fontName b /\ b_fontSize b' = b_fontSize b)
                (gd_pages d) (gd_pages d')).
  { clear -LP F HS HT. revert parts LP F. generalize (gd_pages d'). induction (gd_pages d) as [|p ps IH]; intros ps' [|part parts] LP F; try discriminate; inversion F as [|? p' ? ps1 R F1]; subst; constructor; [|exact (IH _ parts (f_equal pred LP) F1)].
    destruct R as (_ & KP & _ & _ & q & O & EB). split; [exact KP|]. intros b' Hb'. rewrite EB in Hb'.
    destruct (PropsSegmentation.C32_permutation _ _ _ _ HS HT _ _ O) as [PM _]. apply (Permutation_in b' (Permutation_sym PM)) in Hb'. exact (in_role _ _ _ Hb'). }
  split; [exact I|]. split; [apply (made_step d); [exact (F2_imp _ _ _ _ (fun x y X => proj1 X) K)|rewrite EW; reflexivity|exact A]|]. split.
  - rewrite EW. apply (F2_Forall _ _ _ _ _ K B). intros p p' [(_ & _ & _ & _ & _ & _ & W) X] BL. exact (blocked_ext _ _ _ W X BL).
  - apply (numbers_step d); [apply keeps_words; exact (F2_imp _ _ _ _ (fun x y X => proj1 X) K)|rewrite EW; reflexivity|exact C].
Qed.
Lemma consistent_lines2 cfg qs d : consistent cfg qs d -> consistent cfg qs (fill_lines2 d).
Proof.
  intros (I & A & B & C). split; [exact (lines2_inv cfg _ _ I)|]. unfold fill_lines2. cbn [set_pages gd_pages gd_words]. split; [|split].
  - apply Forall_forall. intros p Hp. apply in_map_iff in Hp as (p0 & <- & Hp). rewrite Forall_forall in A. exact (A p0 Hp).
  - apply Forall_forall. intros p Hp. apply in_map_iff in Hp as (p0 & <- & Hp). rewrite Forall_forall in B. exact (B p0 Hp).
  - apply (numbers_step d); [cbn [set_pages gd_pages]; apply F2_map_r; reflexivity|reflexivity|exact C].
Qed.
Lemma content_final m cfg c es code d : sane m -> text_enabled c -> process_pdf m cfg c es = Ok (code, d) ->
  exists r, Parsing.parse_events (m_parseFont m) (m_mapUnicode m) (m_fromBytes m) (m_iswspace m) (m_charId m) es = Ok r /\ consistent cfg (Parsing.pages r) d.
Proof.
  intros SA TE H. destruct (stages m cfg c es code d SA TE H) as (r & d9 & da & db & EP & (I9 & M9 & B9 & U9 & Q9) & _ & Ha & Hb & _ & ->). exists r. split; [exact EP|].
  apply consistent_lines2. assert (C9 : consistent cfg (Parsing.pages r) d9) by (split; [exact I9|split; [exact M9|split; [exact B9|exact Q9]]]).
  assert (Ca : consistent cfg (Parsing.pages r) da).
  { destruct Ha as [[_ Ha]|[_ ->]]; [|exact C9]. apply (consistent_order m _ _ d9 da SA (readingOrder_inv m cfg SA _ _ _ I9 Ha) Ha C9). }
  destruct Hb as [[_ Hb]|[_ ->]]; [|exact Ca]. destruct (dehyph_core _ _ _ Hb) as (E1 & E2 & _).
  exact (consistent_core _ _ da db (dehyphenation_inv m cfg _ _ _ (proj1 Ca) Hb) E1 E2 Ca).
Qed.
Lemma chars_on_page m cfg es d r : Parsing.parse_events (m_parseFont m) (m_mapUnicode m) (m_fromBytes m) (m_iswspace m) (m_charId m) es = Ok r ->
  consistent cfg (Parsing.pages r) d -> forall p i c, In p (gd_pages d) -> In i (g_words p) -> In c (w_chars (the_word d i)) ->
  pageNum (c_pos c) = g_num p /\ exists c', In c' (visible_chars p) /\ c_pos c' = c_pos c /\ c_markOf c' = c_markOf c.
Proof.
  intros EP (((PO & GO) & _) & _) p i c Hp Hi Hc.
  rewrite Forall_forall in GO. destruct (GO p Hp) as [G1 _].
  assert (IC : In (PipelineSpec.plain c) (map PipelineSpec.plain (visible_chars p))).
  { rewrite <- G1. apply in_map, in_flat_map. exists i. split; [exact Hi|exact Hc]. }
  apply in_map_iff in IC as (c' & EC & Hc'). assert (E1 : c_pos c' = c_pos c /\ c_markOf c' = c_markOf c) by (split; [exact (f_equal c_pos EC)|exact (f_equal c_markOf EC)]). destruct E1 as [E1 E2].
  split; [|exists c'; split; [exact Hc'|split; assumption]]. rewrite <- E1. apply filter_In in Hc' as [Hc' _].
  assert (ON : Forall on_its_page (Parsing.pages r)) by (apply (parse_num m es _ _ EP); constructor).
  destruct (TotalWhole.F2_in_r _ _ _ _ PO Hp) as (q & Hq & (N & _ & _ & _ & _ & F)). destruct (TotalWhole.F2_in_r _ _ _ _ F Hc') as (c0 & Hc0 & SG).
  rewrite Forall_forall in ON. rewrite N, <- (ON q Hq c0 Hc0). unfold DiacriticsSpec.same_glyph in SG. apply SG.
Qed.
Lemma page_finite m cfg es d r : Parsing.parse_events (m_parseFont m) (m_mapUnicode m) (m_fromBytes m) (m_iswspace m) (m_charId m) es = Ok r ->
  consistent cfg (Parsing.pages r) d -> forall p, In p (gd_pages d) -> (forall ch, In ch (visible_chars p) -> finite_box (c_pos ch)) -> finite_page (gd_words d) p.
Proof.
  intros EP CO p Hp F i Hi. pose proof CO as (_ & MP & _). rewrite Forall_forall in MP. destruct (MP p Hp i Hi) as (_ & MA & _).
  assert (FC : forall ch, In ch (w_chars (at_words (gd_words d) i)) -> finite_box (c_pos ch)).
  { intros ch Hch. destruct (chars_on_page m cfg es d r EP CO p i ch Hp Hi Hch) as (_ & c' & Hc' & E & _). rewrite <- E. exact (F c' Hc'). }
  apply (around_finite _ _ (made_around _ MA FC)). intros q Hq. apply in_map_iff in Hq as (ch & <- & Hch). exact (FC ch Hch).
Qed.
Lemma process_keeps {T} (I : T -> Prop) c run l1 l2 s code s' : (forall s1, run Cli.MParsing s = Ok s1 -> I s1) ->
  (forall x s1 s2, x <> Cli.MParsing -> I s1 -> run x s1 = Ok s2 -> I s2) -> (forall s1, I s1 -> I (l1 s1)) -> (forall s1, I s1 -> I (l2 s1)) ->
  Cli.process c None run l1 l2 s = Ok (code, s') -> I s'.
Proof.
  intros HP HM H1 H2 H. unfold Cli.process in H. destruct (run Cli.MParsing s) as [s0| |] eqn:E0; try discriminate. cbn [obind] in H. pose proof (HP _ eq_refl) as I0.
  assert (ST : forall x s1 s2, x <> Cli.MParsing -> I s1 -> Cli.step c run x s1 = Ok s2 -> I s2).
  { intros x s1 s2 N HI E. unfold Cli.step in E. clear H. destruct (Bool.eqb (Cli.disabled c x) false); [exact (HM _ _ _ N HI E)|apply Ok_inj in E; subst; exact HI]. }
  repeat match type of H with
  | obind (Cli.step c run ?x ?s1) _ = _ => let E := fresh in destruct (Cli.step c run x s1) eqn:E; try discriminate; cbn [obind] in H; apply ST in E; [|discriminate|assumption]
  | obind (if _ then _ else Ok ?s1) _ = _ =>
      destruct (Bool.eqb (Cli.disabled c Cli.MLines) false);
      [destruct (run Cli.MLines s1) eqn:EL; try discriminate; cbn [obind] in H; apply HM in EL; [|discriminate|assumption]; apply H1 in EL|cbn [obind] in H]
  end; apply Ok_inj, pair_equal_spec in H as [_ <-]; apply H2; assumption.
Qed.
Lemma modules_fonts m cfg es x d d' : x <> Cli.MParsing -> run_module m cfg es x d = Ok d' -> gd_fonts d' = gd_fonts d.
Proof.
  intros NP H. destruct x; cbn [run_module] in H; try congruence;
    unfold run_glyphStats, run_diacritics, run_words, run_wordStats, run_segmentation, run_lines, run_scripts, run_lineStats, run_blocks, run_readingOrder, run_dehyphenation in H; cbv zeta in H;
    repeat match type of H with obind ?a _ = _ => let E := fresh in destruct a eqn:E; try discriminate; cbn [obind] in H end;
    repeat match type of H with context [let '(_, _) := ?a in _] => destruct a end;
    apply Ok_inj in H; subst d'; reflexivity.
Qed.

(** ** C73 The parts of the result fit together *)

(** Every word of the document belongs to exactly one page, it is made from characters of this page, and the blocks of a page
    consist of words of the page. *)
Theorem C73_words : forall m wcfg c es code d, sane m -> text_enabled c -> process_pdf m wcfg c es = Ok (code, d) ->
  NoDup (flat_map g_words (gd_pages d)) /\ (forall i, i < length (gd_words d) <-> exists p, In p (gd_pages d) /\ In i (g_words p)) /\
  forall p i, In p (gd_pages d) -> In i (g_words p) ->
    from_chars (g_num p) (the_word d i) /\
    (forall ch, In ch (w_chars (the_word d i)) -> In (PipelineSpec.plain ch) (map PipelineSpec.plain (visible_chars p))).
Proof.
  intros m cfg c es code d SA TE H. destruct (content_final m cfg c es code d SA TE H) as (r & EP & CO). pose proof CO as (((PO & GO) & _) & MP & _ & Q).
  unfold word_numbers in Q. split; [rewrite Q; apply seq_NoDup|]. split.
  { intros i. rewrite <- in_flat_map, Q. split; intros X; [apply in_seq; lia|apply in_seq in X; lia]. }
  intros p i Hp Hi. rewrite Forall_forall in MP, GO. destruct (MP p Hp i Hi) as (_ & MA & _). destruct (GO p Hp) as [G1 _]. split.
  - split; [apply MA|]. split.
    + destruct MA as (_ & (ch & t & EC & PN & RO & WM) & _). exists ch, t. split; [exact EC|]. split; [|split; assumption].
      unfold the_word. unfold at_words in PN. rewrite PN. apply (chars_on_page m cfg es d r EP CO p i ch Hp Hi). unfold the_word, at_words in *. rewrite EC. left. reflexivity.
    + exact (made_around _ MA).
  - intros ch Hch. rewrite <- G1. apply in_map, in_flat_map. exists i. split; [exact Hi|exact Hch].
Qed.
Print Assumptions C73_words.

(** The text of a block is that of its words; if the coordinates of the characters of its page are numbers, all of its lines have
    words, in the direction of the text; and it stands on its page, its box being the smallest one around its words. *)
Theorem C73_blocks : forall m wcfg c es code d, sane m -> text_enabled c -> process_pdf m wcfg c es = Ok (code, d) ->
  forall p b, In p (gd_pages d) -> In b (g_blocks p) ->
    b_lines b <> [] /\ text_from_words d b /\ (forall i, In i (concat (b_lines b)) -> In i (g_words p)) /\
    ((forall ch, In ch (visible_chars p) -> finite_box (c_pos ch)) -> from_words d (g_num p) b).
Proof.
  intros m cfg c es code d SA TE H p b Hp Hb. destruct (content_final m cfg c es code d SA TE H) as (r & EP & CO). pose proof CO as ((_ & IB) & MP & BL & _).
  rewrite Forall_forall in MP, BL, IB. destruct (BL p Hp b Hb) as (A & B & C).
  assert (W : forall i, In i (concat (b_lines b)) -> In i (g_words p)).
  { intros i Hi. assert (X : In i (flat_map (with_parts (word_heap (gd_words d))) (g_words p))).
    { apply (Permutation_in i (Permutation_sym (IB p Hp))), in_flat_map. exists b. split; [exact Hb|exact Hi]. }
    apply in_flat_map in X as (x & Hx & Hw). unfold with_parts in Hw. destruct (w_partOf (word_heap (gd_words d) x)); [destruct Hw|].
    destruct Hw as [<-|Hw]; [exact Hx|]. destruct (MP p Hp x Hx) as (_ & _ & M3). exact (M3 i Hw). }
  split; [exact A|]. split; [exact B|]. split; [exact W|]. intros F.
  pose proof (page_finite m cfg es d r EP CO p Hp F) as FP.
  destruct (C FP) as (C1 & (i & C2 & C3) & C4 & _). split; [exact C1|]. split; [|exact C4].
  rewrite C3. destruct (MP p Hp i (W i C2)) as (_ & (_ & (ch & t & EC & PN & _) & _) & _). unfold word_heap. unfold at_words in PN, EC. rewrite PN.
  apply (chars_on_page m cfg es d r EP CO p i ch Hp (W i C2)). unfold the_word. rewrite EC. left. reflexivity.
Qed.
Print Assumptions C73_blocks.

(** The font of a block is made from the fonts of its characters. *)
Theorem C73_fonts : forall m wcfg c es code d, sane m -> text_enabled c -> process_pdf m wcfg c es = Ok (code, d) ->
  forall p b, In p (gd_pages d) -> In b (g_blocks p) -> (forall ch, In ch (visible_chars p) -> finite_box (c_pos ch)) -> block_fonts (the_word d) b.
Proof.
  intros m cfg c es code d SA TE H p b Hp Hb F. destruct (content_final m cfg c es code d SA TE H) as (r & EP & CO). pose proof CO as (_ & _ & BL & _).
  rewrite Forall_forall in BL. destruct (BL p Hp b Hb) as (_ & _ & C). exact (proj2 (proj2 (proj2 (C (page_finite m cfg es d r EP CO p Hp F))))).
Qed.
Print Assumptions C73_fonts.

(** The pages and the fonts of the result are those that were parsed: same numbers, sizes (from the clip box), figures and shapes. *)
Theorem C73_pages : forall m wcfg c es code d, sane m -> text_enabled c -> process_pdf m wcfg c es = Ok (code, d) ->
  exists r, Parsing.parse_events (m_parseFont m) (m_mapUnicode m) (m_fromBytes m) (m_iswspace m) (m_charId m) es = Ok r /\
    Forall2 (fun q p => p_num p = Parsing.pp_num q /\
        p_width p = dsub (Parsing.k_right (Parsing.pp_clip q)) (Parsing.k_left (Parsing.pp_clip q)) /\
        p_height p = dsub (Parsing.k_lower (Parsing.pp_clip q)) (Parsing.k_upper (Parsing.pp_clip q)) /\
        map e_pos (p_figures p) = map Parsing.fg_pos (Parsing.pp_figures q) /\ p_shapes p = Parsing.pp_shapes q)
      (Parsing.pages r) (d_pages (the_document m d)) /\
    map p_blocks (d_pages (the_document m d)) = map g_blocks (gd_pages d) /\
    Forall2 (fun f f' => fst f' = fst f /\ Document.f_weight (snd f') = Fonts.f_weight (snd f) /\ Document.f_italic (snd f') = Fonts.f_italic (snd f) /\
        Document.f_type3 (snd f') = Fonts.f_type3 (snd f)) (Parsing.pr_fonts r) (d_fonts (the_document m d)).
Proof.
  intros m cfg c es code d SA TE H. destruct (content_final m cfg c es code d SA TE H) as (r & EP & CO). pose proof CO as (((PO & _) & _) & _). exists r. split; [exact EP|].
  assert (EF : gd_fonts d = Parsing.pr_fonts r).
  { unfold process_pdf in H. revert H. apply (process_keeps (fun d => gd_fonts d = Parsing.pr_fonts r)).
    - intros s1 E. cbn [run_module] in E. unfold run_parsing in E. rewrite EP in E. cbn [obind] in E. apply Ok_inj in E. subst s1. reflexivity.
    - intros x s1 s2 N I E. rewrite (modules_fonts _ _ _ _ _ _ N E). exact I.
    - intros s1 I. exact I.
    - intros s1 I. exact I. }
  split; [|split].
  - cbn [the_document d_pages]. clear -PO. induction PO as [|q p qs ps (A & B & C & D & _) _ IH]; cbn [map]; constructor; [|exact IH].
    cbn [doc_page p_num p_width p_height p_figures p_shapes]. rewrite A, B, C, D. split; [reflexivity|]. split; [reflexivity|]. split; [reflexivity|]. split; [|reflexivity].
    clear -m. unfold figure_elem. generalize 0. induction (Parsing.pp_figures q) as [|f fs IF]; intros k; cbn [length seq combine map]; [reflexivity|]. rewrite (IF (S k)). reflexivity.
  - cbn [the_document d_pages]. rewrite map_map. reflexivity.
  - cbn [the_document d_fonts]. unfold all_fonts. rewrite EF. apply F2_map_r. intros x. split; [reflexivity|]. split; [reflexivity|]. split; reflexivity.
Qed.
Print Assumptions C73_pages.

(** ** C74 Roles and reading order of the result *)

(** If the detection of the reading order runs: the roles are predicted for the blocks found so far ([d0]), from the data of
    these blocks; each block gets its role (the roles are in the order of the pages and of the blocks on them); and the blocks
    of each page are only permuted. *)
Theorem C74_roles : forall m wcfg c es code d, sane m -> text_enabled c -> Cli.disabled c Cli.MReadingOrder = false ->
  process_pdf m wcfg c es = Ok (code, d) ->
  exists d0 roles parts, process_pdf m wcfg (PropsTotal.before_roles c) es = Ok (0%Z, d0) /\
    option_map fst (Roles.predict (m_fromBytes m) (font_input d0) (m_network m) (m_fuel m) (m_bpe m) (m_roles m) Roles.new_predictor (role_input d0)) = Some (Ok roles) /\
    roles = concat parts /\ Forall2 (fun p part => length part = length (g_blocks p)) (gd_pages d0) parts /\
    Forall2 (fun ppart p' => Permutation (map (fun br => with_role (snd br) (fst br)) (combine (g_blocks (fst ppart)) (snd ppart))) (g_blocks p'))
      (combine (gd_pages d0) parts) (gd_pages d).
Proof.
  intros m cfg c es code d SA TE RO H. destruct (stages m cfg c es code d SA TE H) as (r & d9 & da & db & EP & _ & E9 & Ha & Hb & _ & ->).
  destruct Ha as [[_ Ha]|[X _]]; [|congruence]. destruct (readingOrder_parts m d9 da Ha) as (roles & parts & PR & EC & LP & F & _).
  exists (fill_lines2 d9), roles, parts. split; [exact E9|]. split; [|split; [exact EC|]].
  - unfold TotalWhole.prediction in PR.
    assert (EI : role_input (fill_lines2 d9) = map (role_page (word_heap (gd_words d9))) (gd_pages d9)) by (unfold role_input, fill_lines2; cbn [set_pages gd_pages gd_words]; rewrite map_map; reflexivity).
    rewrite EI.
    assert (EF : Roles.predict (m_fromBytes m) (font_input (fill_lines2 d9)) = Roles.predict (m_fromBytes m) (fun n => option_map (fun f => (Fonts.f_weight f, Fonts.f_italic f)) (Parsing.find_font n (gd_fonts d9)))).
    { f_equal. apply FunctionalExtensionality.functional_extensionality. intros n. unfold font_input, Parsing.find_font, fill_lines2. cbn [set_pages gd_fonts]. destruct (find _ (gd_fonts d9)); reflexivity. }
    rewrite EF. match type of PR with from_run ?x = _ => destruct x as [[y| |]|]; cbn [from_run] in PR; try discriminate end. apply Ok_inj in PR. rewrite PR. reflexivity.
  - assert (EQ : gd_pages db = gd_pages da) by (destruct Hb as [[_ Hb]|[_ ->]]; [apply (dehyph_core _ _ _ Hb)|reflexivity]).
    unfold fill_lines2. cbn [set_pages gd_pages]. rewrite EQ. destruct SA as (_ & _ & _ & _ & HS & HT & _). clear -F LP HS HT. split.
    + clear HS HT. revert parts LP F. generalize (gd_pages da). induction (gd_pages d9) as [|p ps IH]; intros ps' [|part parts] LP F; try discriminate; cbn [map]; constructor; inversion F as [|? ? ? ? R F1]; subst.
      * destruct R as (L & _). exact L.
      * apply (IH _ parts (f_equal pred LP) F1).
    + revert parts LP F. generalize (gd_pages da). induction (gd_pages d9) as [|p ps IH]; intros ps' [|part parts] LP F; try discriminate; cbn [map combine] in *; inversion F as [|? p' ? ? R F1]; subst; cbn [map]; constructor.
      * destruct R as (_ & _ & _ & _ & q & O & EB). cbn [fst snd set_textLines g_blocks]. rewrite EB.
        destruct (PropsSegmentation.C32_permutation _ _ _ _ HS HT _ _ O) as [PM _]. cbn [doc_page p_blocks set_blocks g_blocks] in PM.
        rewrite <- PM. rewrite (map_ext _ (fun '(b, r) => with_role r b)) by (intros [b r]; reflexivity). reflexivity.
      * apply (IH _ parts (f_equal pred LP) F1).
Qed.
Print Assumptions C74_roles.

(** On a page on which all blocks, figures and shapes have proper boxes, of two blocks the one that comes first is left of the
    other or starts above it (or at the same height). *)
Theorem C74_order : forall m wcfg c es code d, sane m -> text_enabled c -> Cli.disabled c Cli.MReadingOrder = false ->
  process_pdf m wcfg c es = Ok (code, d) ->
  forall p, In p (gd_pages d) ->
    (forall b, In b (g_blocks p) -> proper_box (b_pos b)) -> (forall f, In f (g_figures p) -> proper_box (Parsing.fg_pos f)) ->
    (forall s, In s (g_shapes p) -> proper_box (e_pos s)) ->
  forall l1 b1 l2 b2 l3, g_blocks p = l1 ++ b1 :: l2 ++ b2 :: l3 ->
    dle (rightX (b_pos b1)) (leftX (b_pos b2)) = true \/ dle (upperY (b_pos b1)) (upperY (b_pos b2)) = true.
Proof.
  intros m cfg c es code d SA TE RO H p Hp PB PF PS. destruct (stages m cfg c es code d SA TE H) as (r & d9 & da & db & EP & _ & E9 & Ha & Hb & _ & ->).
  destruct Ha as [[_ Ha]|[X _]]; [|congruence]. destruct (readingOrder_parts m d9 da Ha) as (roles & parts & _ & _ & _ & F & _).
  assert (EQ : gd_pages db = gd_pages da) by (destruct Hb as [[_ Hb]|[_ ->]]; [apply (dehyph_core _ _ _ Hb)|reflexivity]).
  unfold fill_lines2 in Hp. cbn [set_pages gd_pages] in Hp. rewrite EQ in Hp. apply in_map_iff in Hp as (p1 & <- & Hp1).
  destruct (TotalWhole.F2_in_r _ _ _ _ F Hp1) as ([p0 part] & _ & (_ & K & _ & _ & q & O & EB)). cbn [set_textLines g_blocks g_figures g_shapes] in *.
  destruct K as (_ & _ & _ & KF & KS & _ & _). rewrite KF in PF. rewrite KS in PS. rewrite EB in *.
  destruct SA as (_ & _ & _ & _ & HS & HT & _). destruct (PropsSegmentation.C32_permutation _ _ _ _ HS HT _ _ O) as [PM _].
  refine (PropsSegmentation.C56_order _ _ _ _ HS HT _ _ _ O). intros e He. unfold ReadingOrder.ro_elements in He.
  apply in_app_or in He as [He|He]; [|apply in_app_or in He as [He|He]]; apply in_map_iff in He as (x & <- & Hx).
  - apply PB. exact (Permutation_in x PM Hx).
  - cbn [doc_page p_figures set_blocks g_figures g_num] in Hx. unfold figure_elem in Hx. apply in_map_iff in Hx as ([i f] & <- & Hx). apply in_combine_r in Hx. exact (PF f Hx).
  - exact (PS x Hx).
Qed.
Print Assumptions C74_order.

(** ** C75 Dehyphenation and plain text of the result *)

Lemma no_empty {A} (ls : list (list A)) : concat (filter (fun l => negb (match l with [] => true | _ => false end)) ls) = concat ls.
Proof. induction ls as [|[|x l] ls IH]; cbn [filter negb concat]; [reflexivity|exact IH|rewrite IH; reflexivity]. Qed.
Lemma doc_words_perm m cfg qs d : consistent cfg qs d -> (forall p, In p (gd_pages d) -> stacks_apart cfg (page_words d p)) ->
  Permutation (doc_words (the_document m d)) (seq 0 (length (gd_words d))).
Proof.
  intros (((_ & GO) & IB) & _ & _ & Q) AP. unfold word_numbers in Q. rewrite <- Q. unfold doc_words, text_lines, the_document. cbn [d_pages]. rewrite no_empty, map_map. cbn [doc_page p_blocks].
  revert AP GO IB. clear. induction (gd_pages d) as [|p ps IH]; intros AP GO IB; cbn [map concat flat_map]; [constructor|].
  inversion GO as [|? ? [_ G1] G2]; subst. inversion IB as [|? ? B1 B2]; subst. rewrite concat_app. apply Permutation_app; [|exact (IH (fun q Hq => AP q (or_intror Hq)) G2 B2)].
  assert (S0 : LinesSpec.separate_symbols (word_heap (gd_words d)) (g_words p)) by (apply G1; exact (AP p (or_introl eq_refl))).
  apply LinesDefined.separate_perm in S0. unfold in_blocks in B1. rewrite S0, B1. clear.
  induction (g_blocks p) as [|b bs IH]; cbn [map concat flat_map]; [constructor|]. rewrite concat_app. apply Permutation_app_head, IH.
Qed.
Lemma broken_ext D (h h' : heap) a b : (forall i, w_text (h i) = w_text (h' i)) -> broken_pair D h a b <-> broken_pair D h' a b.
Proof. intros E. unfold broken_pair. split; intros (l1 & l2 & A & B & C & X); exists l1, l2; split; [exact A|split; [exact B|split; [exact C|rewrite <- E; exact X]]|exact A|split; [exact B|split; [exact C|rewrite E; exact X]]]. Qed.
Lemma dehyph_stage m cfg c es code d : sane m -> text_enabled c -> process_pdf m cfg c es = Ok (code, d) ->
  exists r da, Parsing.parse_events (m_parseFont m) (m_mapUnicode m) (m_fromBytes m) (m_iswspace m) (m_charId m) es = Ok r /\
    consistent cfg (Parsing.pages r) da /\ consistent cfg (Parsing.pages r) d /\ Forall plain_word (gd_words da) /\ the_document m d = the_document m da /\
    map core (gd_words da) = map core (gd_words d) /\
    (Cli.disabled c Cli.MDehyphenation = false -> forall i, i < length (gd_words d) -> the_word d i = Dehyphenation.dehyphenate (the_document m d) (word_heap (gd_words da)) i) /\
    (Cli.disabled c Cli.MDehyphenation = true -> gd_words d = gd_words da).
Proof.
  intros SA TE H. destruct (content_final m cfg c es code d SA TE H) as (r' & EP' & CD).
  destruct (stages m cfg c es code d SA TE H) as (r & d9 & da & db & EP & (I9 & M9 & B9 & U9 & Q9) & _ & Ha & Hb & _ & ->).
  rewrite EP in EP'. apply Ok_inj in EP'. subst r'. exists r, da. split; [exact EP|].
  assert (C9 : consistent cfg (Parsing.pages r) d9) by (split; [exact I9|split; [exact M9|split; [exact B9|exact Q9]]]).
  assert (Ca : consistent cfg (Parsing.pages r) da).
  { destruct Ha as [[_ Ha]|[_ ->]]; [|exact C9]. apply (consistent_order m _ _ d9 da SA (readingOrder_inv m cfg SA _ _ _ I9 Ha) Ha C9). }
  assert (Ua : Forall plain_word (gd_words da)).
  { destruct Ha as [[_ Ha]|[_ ->]]; [|exact U9]. destruct (readingOrder_parts m d9 da Ha) as (_ & _ & _ & _ & _ & _ & EW & _). rewrite EW. exact U9. }
  assert (ED : forall d0, the_document m (fill_lines2 d0) = the_document m d0) by (intros d0; unfold the_document, all_fonts, fill_lines2; cbn [set_pages gd_pages gd_fonts]; rewrite map_map; reflexivity).
  split; [exact Ca|]. split; [exact CD|]. split; [exact Ua|]. rewrite ED.
  destruct Hb as [[DE Hb]|[DE ->]].
  - destruct (dehyph_core _ _ _ Hb) as (E1 & E2 & E3).
    assert (EDa : the_document m db = the_document m da) by (unfold the_document, all_fonts; rewrite E2, E3; reflexivity). rewrite EDa. split; [reflexivity|]. split; [exact E1|].
    split; [|intros X; congruence]. intros _ i Hi. unfold run_dehyphenation in Hb. apply Ok_inj in Hb. subst db. unfold the_word, fill_lines2 in *. cbn [set_pages gd_words] in *.
    rewrite map_length, seq_length in Hi.
    rewrite (nth_indep _ no_word (Dehyphenation.dehyphenate (the_document m da) (word_heap (gd_words da)) 0)) by (rewrite map_length, seq_length; exact Hi).
    rewrite (map_nth (Dehyphenation.dehyphenate (the_document m da) (word_heap (gd_words da)))), seq_nth by exact Hi. reflexivity.
  - split; [reflexivity|]. split; [reflexivity|]. split; [intros X; congruence|reflexivity].
Qed.

(** A word is marked as the first (second) part of a hyphenated word, with the dehyphenated text, if and only if it ends (starts)
    a line and is followed (preceded) by its other part - in the lines of the final document. If the module is disabled, no word is. *)
Theorem C75_marks : forall m wcfg c es code d, sane m -> text_enabled c -> process_pdf m wcfg c es = Ok (code, d) ->
  (forall p, In p (gd_pages d) -> stacks_apart wcfg (page_words d p)) ->
  (Cli.disabled c Cli.MDehyphenation = false -> forall i, i < length (gd_words d) -> forall t,
    (w_first (the_word d i) = Some t <-> exists b, broken_pair (the_document m d) (the_word d) i b /\ t = stem (w_text (the_word d i)) ++ w_text (the_word d b)) /\
    (w_second (the_word d i) = Some t <-> exists a, broken_pair (the_document m d) (the_word d) a i /\ t = stem (w_text (the_word d a)) ++ w_text (the_word d i))) /\
  (Cli.disabled c Cli.MDehyphenation = true -> forall i, i < length (gd_words d) -> w_first (the_word d i) = None /\ w_second (the_word d i) = None).
Proof.
  intros m cfg c es code d SA TE H AP. destruct (dehyph_stage m cfg c es code d SA TE H) as (r & da & EP & Ca & CD & U & ED & EC & HE & HD). split.
  - intros EN i Hi t. pose proof (doc_words_perm m cfg _ d CD AP) as PM.
    assert (ND : NoDup (doc_words (the_document m d))) by (apply (Permutation_NoDup (Permutation_sym PM)), seq_NoDup).
    assert (H0 : forall i, w_first (word_heap (gd_words da) i) = None /\ w_second (word_heap (gd_words da) i) = None).
    { intros j. unfold word_heap. destruct (Nat.lt_ge_cases j (length (gd_words da))) as [L|L]; [|rewrite nth_overflow by exact L; split; reflexivity].
      rewrite Forall_forall in U. apply U, nth_In, L. }
    pose proof (core_text _ _ EC) as ET. change (word_heap (gd_words d)) with (the_word d) in ET.
    destruct (PropsOutput.C19_marks (the_document m d) (word_heap (gd_words da)) ND H0 i t) as [M1 M2]. rewrite (HE EN i Hi). split.
    + rewrite M1. rewrite <- (HE EN i Hi). split; intros (b & B1 & B2); exists b; (split; [revert B1; apply broken_ext; intros j; rewrite ET; reflexivity|rewrite B2, !ET; reflexivity]).
    + rewrite M2. rewrite <- (HE EN i Hi). split; intros (b & B1 & B2); exists b; (split; [revert B1; apply broken_ext; intros j; rewrite ET; reflexivity|rewrite B2, !ET; reflexivity]).
  - intros DE i Hi. unfold the_word. rewrite (HD DE) in *. rewrite Forall_forall in U. apply U, nth_In, Hi.
Qed.
Print Assumptions C75_marks.

(** The plain text of the result: the words of the blocks with the selected roles. Every word of the document contributes exactly once
    to the words of the blocks, with its text resp. (if it is the first part of a hyphenated word) without the hyphen - except for the
    last part of a word that spans three lines, which is lost. *)
Theorem C75_text : forall m wcfg c es code d, sane m -> text_enabled c -> Cli.disabled c Cli.MDehyphenation = false ->
  process_pdf m wcfg c es = Ok (code, d) -> (forall p, In p (gd_pages d) -> stacks_apart wcfg (page_words d p)) ->
  let D := the_document m d in let h := the_word d in
  (forall roles, Serialization.plain_serialize D h roles [] =
     intercalate [nl; nl] (map (fun b => intercalate [" "%char] (block_shown h b)) (flat_map (selected roles) (d_pages D))) ++ [nl]) /\
  Permutation (doc_words D) (seq 0 (length (gd_words d))) /\
  exists ks, Forall2 (contributes D h) (doc_words D) ks /\
    concat (concat (map (block_shown h) (flat_map g_blocks (gd_pages d)))) = concat ks.
Proof.
  intros m cfg c es code d SA TE EN H AP D h. destruct (dehyph_stage m cfg c es code d SA TE H) as (r & da & EP & Ca & CD & U & ED & EC & HE & _).
  pose proof (doc_words_perm m cfg _ d CD AP) as PM. fold D in PM. split; [intros roles; apply PropsOutput.C17_plain_text|]. split; [exact PM|].
  assert (ND : NoDup (doc_words D)) by (apply (Permutation_NoDup (Permutation_sym PM)), seq_NoDup).
  set (h0 := word_heap (gd_words da)).
  assert (H0 : forall i, w_first (h0 i) = None /\ w_second (h0 i) = None).
  { intros j. unfold h0, word_heap. destruct (Nat.lt_ge_cases j (length (gd_words da))) as [L|L]; [|rewrite nth_overflow by exact L; split; reflexivity].
    rewrite Forall_forall in U. apply U, nth_In, L. }
  assert (LE : length (gd_words da) = length (gd_words d)) by (apply (f_equal (@length _)) in EC; rewrite !map_length in EC; exact EC).
  assert (HT : forall i, In i (doc_words D) -> w_text (h0 i) = chars_text (w_chars (h0 i))).
  { intros i Hi. apply (Permutation_in i PM), in_seq in Hi. destruct Ca as (Ia & Ma & Ba & Qa).
    assert (IP : In i (flat_map g_words (gd_pages da))) by (unfold word_numbers in Qa; rewrite Qa; apply in_seq; lia). apply in_flat_map in IP as (p & Hp & Hi').
    rewrite Forall_forall in Ma. destruct (Ma p Hp i Hi') as (_ & (TX & _) & _). unfold h0. change (word_heap (gd_words da) i) with (at_words (gd_words da) i). rewrite TX.
    unfold chars_text. f_equal. apply map_ext_in. intros ch Hch. destruct (chars_on_page m cfg es da r EP (conj Ia (conj (proj2 (Forall_forall _ _) Ma) (conj Ba Qa))) p i ch Hp Hi' Hch) as (_ & c' & Hc' & _ & EM).
    unfold WordsSpec.shown_text, char_text. apply filter_In in Hc' as [_ Hc']. rewrite EM in Hc'. destruct (c_hasMark ch); [reflexivity|]. destruct (c_markOf ch); [discriminate|reflexivity]. }
  destruct (PropsOutput.C20_no_loss D h0 ND H0 HT) as (ks & F & E). exists ks.
  assert (ET : forall i, w_text (h0 i) = w_text (h i)) by (apply core_text, EC). split.
  - refine (F2_imp _ _ _ _ _ F). intros w k. unfold contributes.
    assert (BR : forall a b, broken_pair D h0 a b <-> broken_pair D h a b) by (intros a b; apply broken_ext, ET).
    assert (LO : lost D h0 w <-> lost D h w) by (unfold lost; split; intros (a & a' & X & Y); exists a, a'; split; apply BR; assumption).
    assert (JO : joined D h0 w <-> joined D h w).
    { unfold joined. split; intros [(b & X) Y]; (split; [exists b; apply BR, X|intros (a & Z); apply Y; exists a; apply BR, Z]). }
    rewrite LO, JO, ET. auto.
  - rewrite <- E. f_equal. f_equal.
    assert (EB : flat_map p_blocks (d_pages D) = flat_map g_blocks (gd_pages d)).
    { unfold D, the_document. cbn [d_pages]. clear. induction (gd_pages d) as [|p ps IH]; cbn [map flat_map]; [reflexivity|rewrite IH; reflexivity]. }
    rewrite EB.
    apply map_ext_in. intros b Hb. unfold block_shown. f_equal. f_equal. apply map_ext_in. intros i Hi. apply (HE EN). fold D.
    assert (ID : In i (doc_words D)).
    { unfold doc_words, text_lines, D, the_document. cbn [d_pages]. rewrite no_empty, map_map. apply in_flat_map in Hb as (p & Hp & Hb). apply in_concat in Hi as (l & Hl & Hi).
      apply in_concat. exists l. split; [|exact Hi]. apply in_concat. exists (concat (map b_lines (g_blocks p))). split; [apply in_map_iff; exists p; split; [reflexivity|exact Hp]|].
      apply in_concat. exists (b_lines b). split; [apply in_map, Hb|exact Hl]. }
    apply (Permutation_in i PM), in_seq in ID. lia.
Qed.
Print Assumptions C75_text.

(** ** Examples *)
Import PropsPipeline.
(** Two lines, "ab-" and "cde", on a page. *)
Definition ex_hyph : list Parsing.event :=
  ex_start 1 ++ [ex_draw 50 700 10 97; ex_draw 51 700 10 98; ex_draw 52 700 10 45; ex_draw 50 690 10 99; ex_draw 51 690 10 100; ex_draw 55 690 10 101].
Definition finite_b (p : position) : bool := is_fin (leftX p) && is_fin (upperY p) && is_fin (rightX p) && is_fin (lowerY p).
Lemma finite_check p : finite_b p = true -> finite_box p.
Proof. unfold finite_b, finite_box. rewrite !andb_true_iff. intros [[[A B] C] D]. repeat match goal with |- _ /\ _ => split end; assumption. Qed.
(** The run succeeds and the hypotheses of C73 to C75 hold for it. *)
Example C75_example : sane ex_machine /\ text_enabled ex_all /\ Cli.disabled ex_all Cli.MReadingOrder = false /\ Cli.disabled ex_all Cli.MDehyphenation = false /\
  exists d, ex_run ex_hyph = Ok (0%Z, d) /\
  (forall p, In p (gd_pages d) -> stacks_apart Words.default_words_config (page_words d p)) /\
  (forall p ch, In p (gd_pages d) -> In ch (visible_chars p) -> finite_box (c_pos ch)) /\
  map (fun w => (w_text w, w_first w, w_second w)) (gd_words d) = [(S_ "ab-", Some (S_ "abcde"), None); (S_ "cde", None, Some (S_ "abcde"))] /\
  map (fun p => (g_num p, map (fun b => (b_lines b, b_text b, b_role b)) (g_blocks p))) (gd_pages d) = [(1%Z, [([[0]; [1]], S_ "ab- cde", 0)])] /\
  Serialization.plain_serialize (the_document ex_machine d) (the_word d) [0] [] = S_ "abcde" ++ [nl].
Proof.
  split; [exact ex_sane|]. split; [repeat split|]. split; [reflexivity|]. split; [reflexivity|].
  assert (H : match ex_run ex_hyph with
    | Ok (c, d) => (c =? 0)%Z && forallb (fun p => apart_b Words.default_words_config (page_words d p) && forallb (fun ch => finite_b (c_pos ch)) (visible_chars p)) (gd_pages d)
    | _ => false end = true) by (vm_compute; reflexivity).
  assert (E : match ex_run ex_hyph with
    | Ok (c, d) => Some (map (fun w => (w_text w, w_first w, w_second w)) (gd_words d), map (fun p => (g_num p, map (fun b => (b_lines b, b_text b, b_role b)) (g_blocks p))) (gd_pages d),
                         Serialization.plain_serialize (the_document ex_machine d) (the_word d) [0] [])
    | _ => None end = Some ([(S_ "ab-", Some (S_ "abcde"), None); (S_ "cde", None, Some (S_ "abcde"))], [(1%Z, [([[0]; [1]], S_ "ab- cde", 0)])], S_ "abcde" ++ [nl])) by (vm_compute; reflexivity).
  destruct (ex_run ex_hyph) as [[c d]| |]; try discriminate. apply andb_true_iff in H as [Hc H]. apply Z.eqb_eq in Hc. subst c. rewrite forallb_forall in H.
  exists d. split; [reflexivity|]. split; [intros p Hp; apply apart_check; specialize (H p Hp); apply andb_true_iff in H; apply H|].
  split; [intros p ch Hp Hch; apply finite_check; specialize (H p Hp); apply andb_true_iff in H as [_ H]; rewrite forallb_forall in H; exact (H ch Hch)|].
  injection E as E1 E2 E3. split; [exact E1|]. split; [exact E2|exact E3].
Qed.
(** A page with two blocks, drawn from bottom to top. *)
Definition ex_two : list Parsing.event :=
  ex_start 1 ++ [ex_draw 50 300 10 99; ex_draw 51 300 10 100; ex_draw 50 700 20 97; ex_draw 52 700 20 98].
Example C73_fonts_example : exists d, ex_run ex_hyph = Ok (0%Z, d) /\
  (forall p b, In p (gd_pages d) -> In b (g_blocks p) ->
     (length (chars_of (the_word d) (concat (b_lines b))) = 6) /\
     (forall c, In c (chars_of (the_word d) (concat (b_lines b))) -> is_nan_d (c_fontSize c) = false /\ is_nan_d (c_base c) = false) /\
     b_fontName b <> [] /\ deq (b_fontSize b) (dZ 10) = true) /\ length (flat_map g_blocks (gd_pages d)) = 1 /\ length (gd_fonts d) = 1.
Proof.
  assert (H : match ex_run ex_hyph with
    | Ok (c, d) => (c =? 0)%Z && forallb (fun p => forallb (fun b => Nat.eqb (length (chars_of (the_word d) (concat (b_lines b)))) 6 &&
        forallb (fun c => negb (is_nan_d (c_fontSize c)) && negb (is_nan_d (c_base c))) (chars_of (the_word d) (concat (b_lines b))) &&
        negb (str_eqb (b_fontName b) []) && deq (b_fontSize b) (dZ 10)) (g_blocks p)) (gd_pages d) && Nat.eqb (length (flat_map g_blocks (gd_pages d))) 1 && Nat.eqb (length (gd_fonts d)) 1
    | _ => false end = true) by (vm_compute; reflexivity).
  destruct (ex_run ex_hyph) as [[c d]| |]; try discriminate. rewrite !andb_true_iff in H. destruct H as (((Hc & H) & L1) & L2). apply Z.eqb_eq in Hc. subst c. rewrite forallb_forall in H.
  exists d. split; [reflexivity|]. split; [|split; [apply Nat.eqb_eq, L1|apply Nat.eqb_eq, L2]]. intros p b Hp Hb. specialize (H p Hp). rewrite forallb_forall in H. specialize (H b Hb).
  rewrite !andb_true_iff in H. destruct H as (((A & B) & C) & D). split; [apply Nat.eqb_eq, A|]. rewrite forallb_forall in B. split; [|split; [|exact D]].
  - intros c Hc. specialize (B c Hc). apply andb_true_iff in B as [B1 B2]. apply negb_true_iff in B1, B2. split; assumption.
  - intros E. rewrite E in C. discriminate.
Qed.
Example C74_example : exists d, ex_run ex_two = Ok (0%Z, d) /\
  (forall p, In p (gd_pages d) -> (forall b, In b (g_blocks p) -> proper_box (b_pos b)) /\ (forall f, In f (g_figures p) -> proper_box (Parsing.fg_pos f)) /\
                                  (forall s, In s (g_shapes p) -> proper_box (e_pos s))) /\
  map w_text (gd_words d) = [S_ "cd"; S_ "ab"] /\ map (fun p => map b_text (g_blocks p)) (gd_pages d) = [[S_ "ab"; S_ "cd"]].
Proof.
  assert (H : match ex_run ex_two with
    | Ok (c, d) => (c =? 0)%Z && forallb (fun p => forallb (fun b => GridProofs.proper_b (b_pos b)) (g_blocks p) && forallb (fun f => GridProofs.proper_b (Parsing.fg_pos f)) (g_figures p) &&
                                                   forallb (fun s => GridProofs.proper_b (e_pos s)) (g_shapes p)) (gd_pages d)
    | _ => false end = true) by (vm_compute; reflexivity).
  assert (E : match ex_run ex_two with
    | Ok (c, d) => Some (map w_text (gd_words d), map (fun p => map b_text (g_blocks p)) (gd_pages d))
    | _ => None end = Some ([S_ "cd"; S_ "ab"], [[S_ "ab"; S_ "cd"]])) by (vm_compute; reflexivity).
  destruct (ex_run ex_two) as [[c d]| |]; try discriminate. apply andb_true_iff in H as [Hc H]. apply Z.eqb_eq in Hc. subst c. rewrite forallb_forall in H.
  exists d. split; [reflexivity|]. split; [|injection E as E1 E2; split; [exact E1|exact E2]].
  intros p Hp. specialize (H p Hp). rewrite !andb_true_iff, !forallb_forall in H. destruct H as [[H1 H2] H3].
  split; [intros b Hb; apply GridProofs.proper_check, (H1 b Hb)|]. split; [intros f Hf; apply GridProofs.proper_check, (H2 f Hf)|intros s Hs; apply GridProofs.proper_check, (H3 s Hs)].
Qed.
