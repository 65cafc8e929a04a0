(** PipelineScripts.v - sub- and superscripts in the resulting document: helper lemmas. *)
From Coq Require Import ZArith NArith.
From Verif Require Import Base Double MathUtils Elements Sort XYCut Document LinesSpec Pipeline PipelineSpec PipelineLines PipelineProofs PipelineWords PipelineWhole
  PipelineContent PipelineStages PipelineStats ContentSpec WiringSpec ScriptsSpec.
From Verif Require Fonts Parsing Statistics DiacriticsSpec Words WordsSpec Lines Scripts ScriptsProofs Blocks LinesDefined Dehyphenation DehyphenationProofs SerializationSpec ReadingOrder
  Cli TotalWhole GeometrySpec PropsWords PropsScripts PropsSegmentation PropsBlocks PropsPipeline PropsContent PropsPages.
Local Opaque TOL dadd dsub ddiv dmul dec DBL_MAX DBL_MIN.

(** ** Characters are not flagged before *)
Definition unflagged (c : character) : Prop := c_isSub c = false /\ c_isSuper c = false.
Definition page_unflagged (q : Parsing.ppage) : Prop := forall c, In c (Parsing.pp_chars q) -> unflagged c.
Lemma place_unflagged k i q : (forall c, i = Parsing.IChar c -> unflagged c) -> page_unflagged q -> page_unflagged (Parsing.place k i q).
Proof.
  intros Hi H. unfold Parsing.place. destruct (Parsing.same_clip k (Parsing.pp_clip q)).
  - intros c Hc. unfold Parsing.add_page in Hc. cbn [Parsing.pp_chars] in Hc. apply in_app_or in Hc as [Hc|Hc]; [exact (H c Hc)|].
    destruct i as [c'|e|e]; cbn [Parsing.opt_char] in Hc; [|destruct Hc|destruct Hc]. destruct Hc as [<-|[]]. apply Hi. reflexivity.
  - destruct (Parsing.add_figures k i (Parsing.pp_figures q)) as [fs|]; exact H.
Qed.
Lemma store_unflagged k mk p p' : (forall n r c, mk n r = Parsing.IChar c -> unflagged c) ->
  Parsing.store k mk p = Ok p' -> Forall page_unflagged (Parsing.pages p) -> Forall page_unflagged (Parsing.pages p').
Proof.
  intros Hm H F. unfold Parsing.store in H. destruct (Parsing.pr_page p) as [q|] eqn:E; [|discriminate].
  destruct (_ =? _)%Z; [discriminate|]. apply Ok_inj in H. subst p'. unfold Parsing.pages in *. cbn [Parsing.pr_done Parsing.pr_page].
  rewrite E in F. apply Forall_app in F as [F1 F2]. apply Forall_app. split; [exact F1|]. constructor; [|constructor].
  inversion F2 as [|? ? F3 _]. subst. apply place_unflagged; [apply Hm|exact F3].
Qed.
Lemma parse_unflagged m es : forall p p',
  Parsing.handle_all (m_parseFont m) (m_mapUnicode m) (m_fromBytes m) (m_iswspace m) (m_charId m) es p = Ok p' ->
  Forall page_unflagged (Parsing.pages p) -> Forall page_unflagged (Parsing.pages p').
Proof.
  induction es as [|e es IH]; intros p p' H F; cbn [Parsing.handle_all] in H; [apply Ok_inj in H; subst; exact F|].
  destruct (Parsing.handle _ _ _ _ _ p e) as [p1| |] eqn:E; try discriminate. cbn [obind] in H. apply (IH p1 p' H). clear IH H.
  destruct e as [num s| |s|s code nB u uL|s|s|s]; cbn [Parsing.handle] in E.
  - apply Ok_inj in E. subst p1. unfold Parsing.start_page, Parsing.pages at 1. cbn [Parsing.pr_done Parsing.pr_page]. apply Forall_app. split; [exact F|].
    constructor; [intros c []|constructor].
  - apply Ok_inj in E. subst p1. exact F.
  - unfold Parsing.update_font in E. destruct (Parsing.s_font s) as [f|]; [|apply Ok_inj in E; subst p1; exact F].
    destruct (Parsing.find_font _ _) as [i|]; [apply Ok_inj in E; subst p1; exact F|].
    destruct (m_parseFont m (Parsing.pf_info f)) as [i| |]; try discriminate. cbn [obind] in E. apply Ok_inj in E. subst p1. exact F.
  - unfold Parsing.draw_char in E. destruct (Parsing.pr_font p) as [i|]; [|apply Ok_inj in E; subst p1; exact F].
    destruct (Parsing.char_text _ _ _ _) as [[text us]| |]; try discriminate. cbn [obind] in E.
    destruct (Parsing.is_blank _ _ _) as [[]| |]; try discriminate; cbn [obind] in E; [apply Ok_inj in E; subst p1; exact F|].
    destruct (Parsing.s_font s) as [pf|]; [|discriminate].
    destruct (Parsing.char_width _ _ _) as [w| |]; try discriminate. cbn [obind] in E. revert E F. apply store_unflagged.
    intros n r c. destruct (Parsing.char_position _ _ _ _ _ _) as [pos base]. intros [= <-]. split; reflexivity.
  - unfold Parsing.stroke in E. destruct (fold_left _ _ _) as [[[l u] r] d]. revert E F. apply store_unflagged. intros n k c. discriminate.
  - unfold Parsing.stroke in E. destruct (fold_left _ _ _) as [[[l u] r] d]. revert E F. apply store_unflagged. intros n k c. discriminate.
  - unfold Parsing.draw_graphic in E. destruct (Parsing.outside _ _ _ _ _); [apply Ok_inj in E; subst p1; exact F|]. revert E F. apply store_unflagged. intros n k c. discriminate.
Qed.
Definition words_unflagged (d : gdoc) : Prop := forall w c, In w (gd_words d) -> In c (w_chars w) -> unflagged c.
Lemma place_words_in ps : forall n wss ps' ws, place_words n ps wss = (ps', ws) -> forall w, In w ws -> exists ws0 w0, In ws0 wss /\ In w0 ws0 /\ w_chars w = w_chars w0.
Proof.
  induction ps as [|p ps IH]; intros n [|w0 wss] ps' ws H w Hw; cbn [place_words] in H; try (apply pair_equal_spec in H as [<- <-]; destruct Hw).
  destruct (place_words _ ps wss) as [ps1 rest] eqn:E. apply pair_equal_spec in H as [<- <-]. apply in_app_or in Hw as [Hw|Hw].
  - apply in_map_iff in Hw as (w1 & <- & H1). exists w0, w1. split; [left; reflexivity|]. split; [exact H1|reflexivity].
  - destruct (IH _ _ _ _ E w Hw) as (a & b & A & B & C). exists a, b. split; [right; exact A|split; assumption].
Qed.
Lemma words_unflagged_run m cfg qs d d' : sane m -> Forall2 page_of qs (gd_pages d) -> Forall page_unflagged qs -> run_words m cfg d = Ok d' -> words_unflagged d'.
Proof.
  intros SA PO PU H. unfold run_words in H. destruct (omap _ (gd_pages d)) as [wss| |] eqn:E; try discriminate. cbn [obind] in H.
  destruct (place_words 0 _ _) as [ps ws] eqn:EP. apply Ok_inj in H. subst d'. intros w c Hw Hc. cbn [gd_words] in Hw.
  apply omap_F2 in E. destruct SA as (_ & _ & _ & _ & _ & _ & HS & HD & _).
  destruct (place_words_in _ _ _ _ _ EP w Hw) as (ws1 & w1 & H1 & H2 & EC). apply in_map_iff in H1 as (ws0 & <- & H0).
  destruct (TotalWhole.F2_in_r _ _ _ _ E H0) as (p & Hp & HWp).
  destruct (PropsWords.C22_words_partition (m_ordS m) (m_ordD m) (m_wordId m (g_num p)) cfg (g_num p) [] (g_chars p) HS HD) as (ws2 & E2 & C2 & W2 & _).
  rewrite E2 in HWp. cbn [app] in HWp. apply Ok_inj in HWp. subst ws2.
  assert (FR : forall x, In x ws0 -> w_parts x = [] /\ w_partOf x = None).
  { intros x Hx. destruct (W2 x Hx) as [_ X]. unfold WordsSpec.word_of in X. tauto. }
  destruct (PropsWords.C24_relation cfg ws0 FR) as [L R]. destruct (In_nth_error _ _ H2) as [k Ek].
  destruct (nth_error ws0 k) as [w0|] eqn:E0; [|apply nth_error_None in E0; assert (k < length (Words.mergeStackedMathSymbols cfg ws0)) by (apply nth_error_Some; congruence); lia].
  destruct (R _ _ E0) as (w' & E' & A1 & _). assert (w' = w1) by congruence. subst w'.
  assert (CW : w_chars w1 = w_chars w0) by (unfold WordsSpec.same_word in A1; tauto).
  assert (IC : In c (visible_chars p)).
  { unfold visible_chars. rewrite <- C2. apply in_concat. exists (w_chars w0). split; [apply in_map, (nth_error_In _ _ E0)|rewrite <- CW, <- EC; exact Hc]. }
  apply filter_In in IC as [IC _]. destruct (TotalWhole.F2_in_r _ _ _ _ PO Hp) as (q & Hq & (_ & _ & _ & _ & _ & F)).
  destruct (TotalWhole.F2_in_r _ _ _ _ F IC) as (c0 & Hc0 & SG). rewrite Forall_forall in PU. destruct (PU q Hq c0 Hc0) as [U1 U2].
  unfold DiacriticsSpec.same_glyph in SG. unfold unflagged. destruct SG as (_ & _ & _ & _ & _ & _ & _ & _ & _ & _ & _ & G1 & G2 & _). rewrite G1, G2. split; assumption.
Qed.
Lemma segmentation_words m d d' : run_segmentation m d = Ok d' -> gd_words d' = gd_words d.
Proof. intros H. unfold run_segmentation in H. destruct (omap _ (gd_pages d)) as [ps| |]; try discriminate. cbn [obind] in H. apply Ok_inj in H. subst d'. reflexivity. Qed.

(** ** From the detection of scripts on *)
Lemma dehyph_chars m d d' : run_dehyphenation m d = Ok d' -> map w_chars (gd_words d') = map w_chars (gd_words d).
Proof.
  intros H. unfold run_dehyphenation in H. apply Ok_inj in H. subst d'. set (h := Dehyphenation.dehyphenate _ _). cbn [gd_words].
  rewrite map_map. apply nth_ext with (d := []) (d' := []); rewrite !map_length, seq_length; [reflexivity|]. intros n Hn.
  rewrite (nth_indep _ [] (w_chars (h 0))) by (rewrite map_length, seq_length; exact Hn). rewrite (map_nth (fun x => w_chars (h x)) (seq 0 (length (gd_words d))) 0 n), seq_nth by exact Hn. cbn [plus].
  change (@nil character) with (w_chars no_word). rewrite (map_nth w_chars (gd_words d) no_word n). unfold h. rewrite DehyphenationProofs.dehyph_pairs.
  pose proof (DehyphenationProofs.marks_same (DehyphenationProofs.pairs (word_heap (gd_words d)) (SerializationSpec.text_lines (the_document m d))) (word_heap (gd_words d)) n) as S0.
  apply (f_equal w_chars) in S0. symmetry. exact S0.
Qed.
Lemma rest_chars m cfg qs c d8 d9 da db : sane m -> inv2 cfg qs d8 -> run_blocks m d8 = Ok d9 -> opt c Cli.MReadingOrder (run_readingOrder m) d9 da ->
  opt c Cli.MDehyphenation (run_dehyphenation m) da db -> map w_chars (gd_words (fill_lines2 db)) = map w_chars (gd_words d8).
Proof.
  intros SA I8 E9 Ea Eb. destruct (blocks_keep m cfg qs d8 d9 SA I8 E9) as (_ & A2 & _). change (gd_words (fill_lines2 db)) with (gd_words db).
  transitivity (map w_chars (gd_words da)).
  - destruct Eb as [[_ Eb]|[_ ->]]; [exact (dehyph_chars _ _ _ Eb)|reflexivity].
  - destruct Ea as [[_ Ea]|[_ ->]]; [|rewrite A2; reflexivity]. destruct (order_keep _ _ _ Ea) as (_ & B2 & _). rewrite B2, A2. reflexivity.
Qed.
(** The lines that contain a word. *)
Lemma scripts_chars d d' : PipelineWhole.numbered d -> words_unflagged d -> run_scripts d = Ok d' ->
  forall i c, In c (w_chars (word_heap (gd_words d') i)) -> i < length (gd_words d) ->
    (c_isSuper c = true <-> exists L, In L (gd_lines d) /\ In i (Lines.l_words (gl_line L)) /\ is_super (Statistics.st_fontSize (gd_stats d)) (Lines.l_base (gl_line L)) c = true) /\
    (c_isSub c = true <-> exists L, In L (gd_lines d) /\ In i (Lines.l_words (gl_line L)) /\ is_sub (Statistics.st_fontSize (gd_stats d)) (Lines.l_base (gl_line L)) c = true).
Proof.
  intros N U H i c Hc Hi. unfold run_scripts in H. destruct (Scripts.detectScripts _ _ _) as [h sl] eqn:E. apply Ok_inj in H. subst d'. cbn [gd_words] in Hc.
  destruct (ScriptsProofs.detect_spec _ _ _ _ _ E) as [HW _]. set (mf := Statistics.st_fontSize (gd_stats d)) in *. set (sls := map _ (segment_line_ids d)) in *.
  assert (EH : word_heap (map h (seq 0 (length (gd_words d)))) i = h i).
  { unfold word_heap. rewrite (nth_indep _ no_word (h 0)) by (rewrite map_length, seq_length; exact Hi). rewrite map_nth, seq_nth by exact Hi. reflexivity. }
  rewrite EH, HW in Hc. cbn [ScriptsProofs.mark_all_word Scripts.set_chars w_chars] in Hc. apply in_map_iff in Hc as (c0 & <- & H0).
  destruct (U (word_heap (gd_words d) i) c0) as [U1 U2]; [apply nth_In; exact Hi|exact H0|].
  assert (B : forall b, In b (bases_of sls i) <-> exists L, In L (gd_lines d) /\ In i (Lines.l_words (gl_line L)) /\ b = Lines.l_base (gl_line L)).
  { intros b. unfold bases_of. rewrite in_map_iff. unfold sls, PipelineWhole.numbered in *. rewrite N. split.
    - intros (x & <- & Hx). apply filter_In in Hx as [Hx1 Hx2]. apply in_map_iff in Hx1 as (k & <- & Hk). apply in_seq in Hk. cbn [Scripts.sl_words] in Hx2. apply existsb_exists in Hx2 as (w & Hw & Ew).
      apply Nat.eqb_eq in Ew. subst w. exists (nth k (gd_lines d) no_line). split; [apply nth_In; lia|]. split; [exact Hw|reflexivity].
    - intros (L & HL & HI & ->). destruct (In_nth _ _ no_line HL) as (k & Hk & <-).
      exists (Scripts.mkSLine (Lines.l_base (gl_line (nth k (gd_lines d) no_line))) (Lines.l_words (gl_line (nth k (gd_lines d) no_line))) (gl_box (nth k (gd_lines d) no_line))).
      split; [reflexivity|]. apply filter_In. split.
      + apply in_map_iff. exists k. split; [reflexivity|apply in_seq; lia].
      + apply existsb_exists. exists i. split; [exact HI|apply Nat.eqb_refl]. }
  assert (X : forall f : double -> bool, existsb f (bases_of sls i) = true <-> exists L, In L (gd_lines d) /\ In i (Lines.l_words (gl_line L)) /\ f (Lines.l_base (gl_line L)) = true).
  { intros f. rewrite existsb_exists. split.
    - intros (b & Hb & Fb). apply B in Hb as (L & A1 & A2 & ->). exists L. repeat split; assumption.
    - intros (L & A1 & A2 & A3). exists (Lines.l_base (gl_line L)). split; [apply B; exists L; repeat split; assumption|exact A3]. }
  unfold ScriptsProofs.mark_all, ScriptsProofs.with_flags, is_super, is_sub, small, raised, lowered. cbn [c_isSuper c_isSub c_fontSize c_base]. rewrite U1, U2. cbn [orb]. split; apply X.
Qed.
(** ** The lines of the blocks *)
Lemma in_perm_nodup {A B} (f : A -> list B) (l : list A) : NoDup (flat_map f l) -> forall i j a b x, nth_error l i = Some a -> nth_error l j = Some b -> In x (f a) -> In x (f b) -> i = j.
Proof.
  induction l as [|y l IH]; intros ND i j a b x Hi Hj Ha Hb; [destruct i; discriminate|]. cbn [flat_map] in ND.
  assert (ND2 : NoDup (flat_map f l)) by (clear -ND; induction (f y) as [|u t IH]; [exact ND|inversion ND; subst; apply IH; assumption]).
  assert (DJ : forall z, In z (f y) -> ~ In z (flat_map f l)).
  { clear -ND. induction (f y) as [|u t IH]; [intros z []|]. cbn [app] in ND. inversion ND as [|? ? N1 N2]; subst. intros z [<-|Hz]; [intros Q; apply N1, in_or_app; right; exact Q|exact (IH N2 z Hz)]. }
  destruct i as [|i], j as [|j]; cbn [nth_error] in *; [reflexivity| | |f_equal; exact (IH ND2 i j a b x Hi Hj Ha Hb)].
  - injection Hi as ->. exfalso. apply (DJ x Ha). apply in_flat_map. exists b. split; [exact (nth_error_In _ _ Hj)|exact Hb].
  - injection Hj as ->. exfalso. apply (DJ x Hb). apply in_flat_map. exists a. split; [exact (nth_error_In _ _ Hi)|exact Ha].
Qed.
Definition block_lines (ls : list gline) (p : gpage) : Prop :=
  Permutation (map (words_of ls) (flat_map sg_lines (g_segs p))) (flat_map b_lines (g_blocks p)).
Lemma blocks_lines m cfg qs d d' : sane m -> inv2 cfg qs d -> run_blocks m d = Ok d' -> Forall (block_lines (gd_lines d)) (gd_pages d').
Proof.
  intros SA (_ & F & N) H. unfold run_blocks in H.
  destruct (Blocks.detectTextBlocks _ _ _ _ _ _ _ _ _) as [[[pre fin] lh]| |] eqn:E; try discriminate. cbn [obind] in H. apply Ok_inj in H. subst d'.
  destruct SA as (_ & _ & _ & _ & _ & _ & HS & HD & _).
  assert (ND : NoDup (concat (map (@concat nat) (map (fun p => map sg_lines (g_segs p)) (gd_pages d))))).
  { unfold PipelineWhole.numbered, segment_line_ids in N. rewrite map_map. replace (concat _) with (flat_map (fun p => flat_map sg_lines (g_segs p)) (gd_pages d)); [rewrite N; apply seq_NoDup|].
    rewrite flat_map_concat_map. f_equal. apply map_ext. intros p. apply flat_map_concat_map. }
  destruct (PropsBlocks.C33_partition _ _ _ _ _ _ _ _ _ _ _ _ HS HD ND E) as (_ & PT & _).
  destruct (PropsBlocks.C33_lines _ _ _ _ _ _ _ _ _ _ _ _ HS HD ND E) as (SC & _). clear E.
  assert (WD : forall l, Blocks.bl_words (lh l) = words_of (gd_lines d) l) by (intros l; destruct (SC l) as (_ & _ & _ & _ & _ & W & _); rewrite W; reflexivity).
  apply F2_map_l in PT. cbn [gd_pages]. clear N ND. induction PT as [|p bs l l' H _ IH]; cbn [combine map]; inversion F as [|? ? F1 F2]; subst; constructor; [|exact (IH F2)].
  destruct F1 as [_ B]. unfold block_lines, set_blocks. cbn [g_segs g_blocks]. rewrite B. cbn [app].
  rewrite (flat_map_concat_map sg_lines), <- H. clear -WD. induction bs as [|b bs IH]; cbn [map concat flat_map new_block b_lines]; [constructor|].
  rewrite map_app. apply Permutation_app; [|exact IH]. rewrite (map_ext _ _ WD). reflexivity.
Qed.
Lemma words_of_ext ls ls' : map gl_line ls = map gl_line ls' -> forall i, words_of ls i = words_of ls' i.
Proof. intros E i. unfold words_of. rewrite (gl_ext _ _ i E). reflexivity. Qed.
Lemma role_lines (bs : list block) : forall part, length part = length bs -> flat_map b_lines (map (fun '(b, r) => with_role r b) (combine bs part)) = flat_map b_lines bs.
Proof. induction bs as [|b bs IH]; intros [|r part] L; try discriminate; [reflexivity|]. cbn [combine map flat_map with_role b_lines]. f_equal. exact (IH part (f_equal pred L)). Qed.
Lemma order_lines m ls d d' : sane m -> run_readingOrder m d = Ok d' -> Forall (block_lines ls) (gd_pages d) -> Forall (block_lines ls) (gd_pages d').
Proof.
  intros SA H FB. destruct (readingOrder_parts m d d' H) as (roles & parts & _ & _ & LP & F & _). destruct SA as (_ & _ & _ & _ & HS & HT & _).
  revert parts LP F FB. generalize (gd_pages d'). induction (gd_pages d) as [|p ps IH]; intros ps' [|part parts] LP F FB; try discriminate; inversion F as [|? p' ? ps1 R F1]; subst; constructor.
  2:{ inversion FB; subst. apply (IH _ parts (f_equal pred LP) F1). assumption. }
  inversion FB as [|? ? B1 _]; subst. destruct R as (L & _ & SG & _ & q & O & EB). unfold block_lines in *. rewrite SG, EB.
  destruct (PropsSegmentation.C32_permutation _ _ _ _ HS HT _ _ O) as [PM _]. cbn [doc_page p_blocks set_blocks g_blocks] in PM.
  rewrite B1, <- (role_lines (g_blocks p) part L). apply Permutation_flat_map. exact PM.
Qed.
Lemma rest_lines m cfg qs c d8 d9 da db : sane m -> inv2 cfg qs d8 -> run_blocks m d8 = Ok d9 -> opt c Cli.MReadingOrder (run_readingOrder m) d9 da ->
  opt c Cli.MDehyphenation (run_dehyphenation m) da db -> Forall (block_lines (gd_lines (fill_lines2 db))) (gd_pages (fill_lines2 db)).
Proof.
  intros SA I8 E9 Ea Eb. pose proof (rest_all m cfg qs c d8 d9 da db SA I8 E9 Ea Eb) as (_ & _ & _ & EL). pose proof (blocks_lines m cfg qs d8 d9 SA I8 E9) as B9.
  assert (Ba : Forall (block_lines (gd_lines d8)) (gd_pages da)) by (destruct Ea as [[_ Ea]|[_ ->]]; [exact (order_lines m _ _ _ SA Ea B9)|exact B9]).
  assert (Bb : Forall (block_lines (gd_lines d8)) (gd_pages db)) by (destruct Eb as [[_ Eb]|[_ ->]]; [destruct (dehyph_core _ _ _ Eb) as (_ & -> & _); exact Ba|exact Ba]).
  assert (EG : map gl_line (gd_lines (fill_lines2 db)) = map gl_line (gd_lines d8)).
  { apply (f_equal (map fst)) in EL. rewrite !map_map in EL. cbn [fst] in EL. exact EL. }
  unfold fill_lines2 at 2. cbn [set_pages gd_pages]. apply Forall_forall. intros p Hp. apply in_map_iff in Hp as (p0 & <- & Hp). rewrite Forall_forall in Bb. specialize (Bb p0 Hp).
  unfold block_lines in *. cbn [set_textLines g_segs g_blocks]. rewrite (map_ext _ _ (words_of_ext _ _ EG)). exact Bb.
Qed.
(** ** The boxes of the lines without sub- and superscripts *)
Lemma place_pages_box ps : forall n k r ps' ls, place_pages n k ps r = (ps', ls) -> Forall (fun l => gl_box l = Scripts.bbox_default) ls.
Proof.
  induction ps as [|p ps IH]; intros n k r ps' ls H; destruct r as [|[rp hs] r]; cbn [place_pages] in H; try (apply pair_equal_spec in H as [_ <-]; constructor).
  destruct (place_lines _ _ _ _) as [segs l1]. destruct (place_pages _ _ ps r) as [ps1 rest] eqn:E. apply pair_equal_spec in H as [_ <-]. apply Forall_app. split; [|exact (IH _ _ _ _ _ E)].
  unfold page_glines. apply Forall_forall. intros l Hl. apply in_map_iff in Hl as ([i [t k0]] & <- & _). reflexivity.
Qed.
Lemma lines_box m d d' : run_lines m d = Ok d' -> Forall (fun l => gl_box l = Scripts.bbox_default) (gd_lines d').
Proof.
  intros H. unfold run_lines in H. destruct (Lines.detectTextLines _ _ _ _ _ _ _ _ _ _ _) as [x| |] eqn:E; try discriminate. cbn [obind] in H.
  destruct (place_pages 0 0 (gd_pages d) x) as [ps ls] eqn:EPP. apply Ok_inj in H. subst d'. cbn [gd_lines]. exact (place_pages_box _ _ _ _ _ _ EPP).
Qed.
Definition with_box (l : gline) (b : Scripts.bbox) : gline := mkGLine (gl_line l) (gl_seg l) (gl_parent l) (gl_prevSib l) (gl_nextSib l) b (gl_left l) (gl_right l).
Lemma update_mid {A} (pre : list A) x y t : update (length pre) y (pre ++ x :: t) = pre ++ y :: t.
Proof. induction pre as [|z pre IH]; cbn [length update app]; [reflexivity|]. f_equal. exact IH. Qed.
Lemma set_boxes bs : forall pre ls, length bs = length ls ->
  fold_left set_box (combine (seq (length pre) (length bs)) bs) (pre ++ ls) = pre ++ map (fun '(l, b) => with_box l b) (combine ls bs).
Proof.
  induction bs as [|b bs IH]; intros pre [|l ls] L; try discriminate; [reflexivity|]. cbn [length seq combine fold_left map].
  assert (E : set_box (pre ++ l :: ls) (length pre, b) = (pre ++ [with_box l b]) ++ ls).
  { unfold set_box. cbn [fst snd]. rewrite nth_error_app2, Nat.sub_diag by lia. cbn [nth_error]. rewrite update_mid, <- app_assoc. reflexivity. }
  rewrite E. specialize (IH (pre ++ [with_box l b]) ls (f_equal pred L)). rewrite app_length in IH. cbn [length] in IH. rewrite Nat.add_1_r in IH. rewrite IH, <- app_assoc. reflexivity.
Qed.
Lemma boxes_nth ls : forall bs k l b, nth_error ls k = Some l -> nth_error bs k = Some b -> nth_error (map (fun '(l, b) => with_box l b) (combine ls bs)) k = Some (with_box l b).
Proof.
  induction ls as [|x ls IH]; intros [|y bs] [|k] l b H1 H2; try discriminate; cbn [nth_error combine map] in *.
  - injection H1 as ->. injection H2 as ->. reflexivity.
  - exact (IH bs k l b H1 H2).
Qed.
Lemma scripts_box d d' : PipelineWhole.numbered d -> run_scripts d = Ok d' ->
  forall k l, nth_error (gd_lines d) k = Some l -> gl_box l = Scripts.bbox_default ->
  (forall w c, In w (Lines.l_words (gl_line l)) -> In c (w_chars (word_heap (gd_words d) w)) -> GeometrySpec.nn_pos (c_pos c)) ->
  exists b, nth_error (gd_lines d') k = Some (with_box l b) /\
    extended_box (Scripts.mkBox DBL_MAX DBL_MAX DBL_MIN DBL_MIN)
      (map c_pos (filter (fun c => negb (is_script (Statistics.st_fontSize (gd_stats d)) (Lines.l_base (gl_line l)) c)) (flat_map (fun w => w_chars (word_heap (gd_words d) w)) (Lines.l_words (gl_line l))))) b.
Proof.
  intros N H k l Hk DB NN. unfold run_scripts in H. destruct (Scripts.detectScripts _ _ _) as [h sl] eqn:E. apply Ok_inj in H. subst d'. cbn [gd_lines].
  assert (LS : length sl = length (gd_lines d)).
  { destruct (PropsScripts.C27_flags _ _ _ _ _ E) as (_ & _ & L). apply (f_equal (@length _)) in L. rewrite !map_length in L. rewrite L. unfold PipelineWhole.numbered in N. rewrite N. apply seq_length. }
  assert (HK : k < length (gd_lines d)) by (apply nth_error_Some; congruence).
  destruct (nth_error sl k) as [l'|] eqn:E'; [|apply nth_error_None in E'; lia].
  assert (ES : nth_error (map (fun i => let l := nth i (gd_lines d) no_line in Scripts.mkSLine (Lines.l_base (gl_line l)) (Lines.l_words (gl_line l)) (gl_box l)) (segment_line_ids d)) k =
    Some (Scripts.mkSLine (Lines.l_base (gl_line l)) (Lines.l_words (gl_line l)) (gl_box l))).
  { unfold PipelineWhole.numbered in N. rewrite N. rewrite (map_nth_error _ k (seq 0 (length (gd_lines d))) (d := k)).
    - rewrite (nth_error_nth _ _ no_line Hk). reflexivity.
    - rewrite (nth_error_nth' _ 0) by (rewrite seq_length; exact HK). rewrite seq_nth by exact HK. reflexivity. }
  pose proof (PropsScripts.C27_base_box _ _ _ _ _ _ _ _ E ES E' DB NN) as X. exists (Scripts.sl_box l'). split; [|exact X].
  pose proof (set_boxes (map Scripts.sl_box sl) [] (gd_lines d)) as SB. rewrite map_length in SB. specialize (SB LS). cbn [length app] in SB. rewrite LS in SB.
  unfold PipelineWhole.numbered in N. rewrite N, SB. apply boxes_nth; [exact Hk|]. apply map_nth_error. exact E'.
Qed.
