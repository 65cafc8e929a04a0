(** PipelineStats.v - which modules leave the statistics, the words, the segments and the lines as they are. *)
From Coq Require Import ZArith NArith.
From Verif Require Import Base Double MathUtils Elements Sort XYCut Document LinesSpec Pipeline PipelineSpec PipelineLines PipelineProofs PipelineWords PipelineWhole
  PipelineContent PipelineStages StatisticsSpec WiringSpec.
From Verif Require Fonts Parsing Statistics DiacriticsSpec Words Lines Scripts Blocks LinesDefined PageSegmentation Cli TotalWhole PropsBlocks PropsPipeline PropsStatistics PropsTotal.
Local Opaque TOL dadd dsub ddiv dmul dec DBL_MAX DBL_MIN.

Definition opt (c : Cli.config) (x : Cli.modul) (f : gdoc -> outcome gdoc) (d d' : gdoc) : Prop :=
  (Cli.disabled c x = false /\ f d = Ok d') \/ (Cli.disabled c x = true /\ d' = d).
Lemma steps m cfg c es code d : sane m -> text_enabled c -> process_pdf m cfg c es = Ok (code, d) ->
  exists r d0 d1 d2 d3 d4 d5 d6 d7 d8 d9 da db,
    Parsing.parse_events (m_parseFont m) (m_mapUnicode m) (m_fromBytes m) (m_iswspace m) (m_charId m) es = Ok r /\
    d0 = mkGDoc (map new_page (Parsing.pages r)) (Parsing.pr_fonts r) Statistics.stats_init [] [] /\
    opt c Cli.MGlyphStats (run_glyphStats m) d0 d1 /\ opt c Cli.MDiacritics (run_diacritics m) d1 d2 /\ run_words m cfg d2 = Ok d3 /\
    opt c Cli.MWordStats (run_wordStats m) d3 d4 /\ run_segmentation m d4 = Ok d5 /\ run_lines m d5 = Ok d6 /\
    opt c Cli.MScripts run_scripts (fill_lines1 d6) d7 /\ opt c Cli.MLineStats (run_lineStats m) d7 d8 /\ run_blocks m d8 = Ok d9 /\
    opt c Cli.MReadingOrder (run_readingOrder m) d9 da /\ opt c Cli.MDehyphenation (run_dehyphenation m) da db /\ d = fill_lines2 db /\
    inv1 cfg (Parsing.pages r) d4 /\ Forall no_text (gd_pages d4) /\ gd_lines d4 = [] /\ Forall segmented (gd_pages d5) /\ inv2 cfg (Parsing.pages r) d8.
Proof.
  intros SA (TW & TS & TL & TB) H. unfold process_pdf, Cli.process in H. cbn [run_module] in H.
  destruct (run_parsing m es gdoc_init) as [d0| |] eqn:E0; try discriminate. cbn [obind] in H.
  assert (EP : exists r, Parsing.parse_events (m_parseFont m) (m_mapUnicode m) (m_fromBytes m) (m_iswspace m) (m_charId m) es = Ok r).
  { unfold run_parsing in E0. destruct (Parsing.parse_events _ _ _ _ _ es) as [r| |]; try discriminate. exists r. reflexivity. }
  destruct EP as [r EP]. destruct (parsing_inv m (Parsing.pages r) es d0 r EP eq_refl E0) as [I0 F0].
  unfold Cli.step in H. rewrite TW, TS, TL, TB in H. cbn [Bool.eqb run_module] in H.
  destruct (if Bool.eqb (Cli.disabled c Cli.MGlyphStats) false then _ else _) as [d1| |] eqn:E1; try discriminate. cbn [obind] in H.
  apply PropsPipeline.run_if in E1.
  assert (I1 : inv0 (Parsing.pages r) d1 /\ fresh_chars d1).
  { destruct E1 as [[_ E1]|[_ ->]]; [|split; assumption]. apply glyphStats_inv in E1 as (P & W & L). unfold inv0, fresh_chars in *. rewrite P, W, L. split; assumption. }
  destruct I1 as [I1 F1].
  destruct (if Bool.eqb (Cli.disabled c Cli.MDiacritics) false then _ else _) as [d2| |] eqn:E2; try discriminate. cbn [obind] in H. apply PropsPipeline.run_if in E2.
  assert (I2 : inv0 (Parsing.pages r) d2).
  { destruct E2 as [[_ E2]|[_ ->]]; [|assumption]. exact (diacritics_inv m _ _ _ I1 F1 E2). }
  destruct (run_words m cfg d2) as [d3| |] eqn:E3; try discriminate. cbn [obind] in H. destruct (words_inv m cfg SA _ _ _ I2 E3) as (I3 & N3 & L3).
  destruct (if Bool.eqb (Cli.disabled c Cli.MWordStats) false then _ else _) as [d4| |] eqn:E4; try discriminate. cbn [obind] in H. apply PropsPipeline.run_if in E4.
  assert (I4 : inv1 cfg (Parsing.pages r) d4 /\ Forall no_text (gd_pages d4) /\ gd_lines d4 = []).
  { destruct E4 as [[_ E4]|[_ ->]]; [|split; [assumption|split; assumption]]. apply wordStats_inv in E4 as (P & W & L). unfold inv1 in *. rewrite P, W, L. split; [assumption|split; assumption]. }
  destruct I4 as (I4 & N4 & L4).
  destruct (run_segmentation m d4) as [d5| |] eqn:E5; try discriminate. cbn [obind] in H. destruct (segmentation_inv m cfg SA _ _ _ I4 N4 E5) as (I5 & G5 & _).
  destruct (run_lines m d5) as [d6| |] eqn:E6; try discriminate. cbn [obind] in H. pose proof (lines1_inv cfg _ _ (lines_inv m cfg SA _ _ _ I5 G5 E6)) as I6.
  destruct (if Bool.eqb (Cli.disabled c Cli.MScripts) false then _ else _) as [d7| |] eqn:E7; try discriminate. cbn [obind] in H. apply PropsPipeline.run_if in E7.
  assert (I7 : inv2 cfg (Parsing.pages r) d7) by (destruct E7 as [[_ E7]|[_ ->]]; [exact (scripts_inv cfg _ _ _ I6 E7)|exact I6]).
  destruct (if Bool.eqb (Cli.disabled c Cli.MLineStats) false then _ else _) as [d8| |] eqn:E8; try discriminate. cbn [obind] in H. apply PropsPipeline.run_if in E8.
  assert (I8 : inv2 cfg (Parsing.pages r) d8).
  { destruct E8 as [[_ E8]|[_ ->]]; [|exact I7]. apply lineStats_inv in E8 as (P & W & L). unfold inv2, inv1, PipelineWhole.numbered, segment_line_ids in *. rewrite P, W, L. exact I7. }
  destruct (run_blocks m d8) as [d9| |] eqn:E9; try discriminate. cbn [obind] in H.
  destruct (if Bool.eqb (Cli.disabled c Cli.MReadingOrder) false then _ else _) as [da| |] eqn:Ea; try discriminate. cbn [obind] in H. apply PropsPipeline.run_if in Ea.
  destruct (if Bool.eqb (Cli.disabled c Cli.MDehyphenation) false then _ else _) as [db| |] eqn:Eb; try discriminate. cbn [obind] in H. apply PropsPipeline.run_if in Eb.
  apply Ok_inj in H. apply pair_equal_spec in H as [_ <-].
  exists r, d0, d1, d2, d3, d4, d5, d6, d7, d8, d9, da, db. split; [exact EP|].
  split. { unfold run_parsing in E0. rewrite EP in E0. cbn [obind] in E0. apply Ok_inj in E0. symmetry. exact E0. }
  repeat (split; [assumption || reflexivity|]). assumption.
Qed.

(** ** What the modules leave alone *)
Definition still (p p' : gpage) : Prop :=
  g_num p' = g_num p /\ g_words p' = g_words p /\ g_figures p' = g_figures p /\ g_graphics p' = g_graphics p /\ g_shapes p' = g_shapes p.
Lemma keeps_still p p' : keeps p p' -> still p p'.
Proof. intros (A & _ & _ & B & C & D & E). unfold still. rewrite A, B, C, D, E. repeat split. Qed.
Lemma still_trans p q s : still p q -> still q s -> still p s.
Proof. unfold still. intros (A & B & C & D & E) (-> & -> & -> & -> & ->). repeat (split; [assumption|]). assumption. Qed.
Definition same_seg (s s' : seg) : Prop := sg_pos s' = sg_pos s /\ sg_words s' = sg_words s.

Lemma place_lines_segs segs : forall n k r segs' ls, length r = length segs -> place_lines n k segs r = (segs', ls) -> Forall2 same_seg segs segs'.
Proof.
  induction segs as [|s segs IH]; intros n k r segs' ls L H; destruct r as [|[gs tb] r]; try discriminate; cbn [place_lines] in H.
  - apply pair_equal_spec in H as [<- _]. constructor.
  - destruct (place_lines _ (S k) segs r) as [segs1 rest] eqn:E. apply pair_equal_spec in H as [<- _]. constructor; [split; reflexivity|exact (IH _ _ _ _ _ (f_equal pred L) E)].
Qed.
Lemma place_pages_segs ps : forall n k r ps' ls, Forall2 (fun p rp => length (fst rp) = length (g_segs p)) ps r -> place_pages n k ps r = (ps', ls) ->
  Forall2 (fun p p' => still p p' /\ Forall2 same_seg (g_segs p) (g_segs p')) ps ps'.
Proof.
  induction ps as [|p ps IH]; intros n k r ps' ls F H; inversion F as [|? [rp hs] ? r' L F']; subst; cbn [place_pages] in H.
  - apply pair_equal_spec in H as [<- _]. constructor.
  - cbn [fst] in L. destruct (place_lines _ _ _ _) as [segs l1] eqn:EL. destruct (place_pages _ _ ps r') as [ps1 rest] eqn:E. apply pair_equal_spec in H as [<- _].
    constructor; [split; [unfold still, set_segs; cbn; repeat split|exact (place_lines_segs _ _ _ _ _ _ L EL)]|exact (IH _ _ _ _ _ F' E)].
Qed.
Lemma lines_keep m d d' : sane m -> run_lines m d = Ok d' ->
  Forall2 (fun p p' => still p p' /\ Forall2 same_seg (g_segs p) (g_segs p')) (gd_pages d) (gd_pages d') /\ gd_words d' = gd_words d /\ gd_stats d' = gd_stats d.
Proof.
  intros SA H. unfold run_lines in H. destruct (Lines.detectTextLines _ _ _ _ _ _ _ _ _ _ _) as [x| |] eqn:E; try discriminate. cbn [obind] in H.
  destruct (place_pages 0 0 (gd_pages d) x) as [ps ls] eqn:EPP. apply Ok_inj in H. subst d'. cbn [gd_pages gd_words gd_stats]. split; [|split; reflexivity].
  destruct SA as (_ & _ & HW & HL & _ & _ & HS & HD & _ & HR & HY). apply (detect_words _ _ _ _ _ _ _ _ HW HL HR HY) in E. apply F2_map_l in E.
  refine (place_pages_segs _ _ _ _ _ _ _ EPP). refine (F2_imp _ _ _ _ _ E). intros p rp (_ & L). rewrite map_length in L. exact L.
Qed.
Lemma blocks_keep m cfg qs d d' : sane m -> inv2 cfg qs d -> run_blocks m d = Ok d' ->
  Forall2 (fun p p' => keeps p p' /\ g_segs p' = g_segs p) (gd_pages d) (gd_pages d') /\ gd_words d' = gd_words d /\ gd_stats d' = gd_stats d /\
  map (fun l => (gl_line l, gl_box l)) (gd_lines d') = map (fun l => (gl_line l, gl_box l)) (gd_lines d).
Proof.
  intros SA (_ & _ & N) H. unfold run_blocks in H. destruct (Blocks.detectTextBlocks _ _ _ _ _ _ _ _ _) as [[[pre fin] lh]| |] eqn:E; try discriminate. cbn [obind] in H. apply Ok_inj in H. subst d'.
  cbn [gd_pages gd_words gd_stats gd_lines]. destruct SA as (_ & _ & _ & _ & _ & _ & HS & HD & _).
  assert (ND : NoDup (concat (map (@concat nat) (map (fun p => map sg_lines (g_segs p)) (gd_pages d))))).
  { unfold PipelineWhole.numbered, segment_line_ids in N. rewrite map_map. replace (concat _) with (flat_map (fun p => flat_map sg_lines (g_segs p)) (gd_pages d)); [rewrite N; apply seq_NoDup|].
    rewrite flat_map_concat_map. f_equal. apply map_ext. intros p. apply flat_map_concat_map. }
  destruct (PropsBlocks.C33_partition _ _ _ _ _ _ _ _ _ _ _ _ HS HD ND E) as (_ & PT & _). apply F2_map_l in PT. split; [|split; [reflexivity|split; [reflexivity|]]].
  - clear -PT. induction PT as [|p bs pl bl H _ IH]; cbn [combine map]; constructor; [|exact IH]. split; [unfold keeps, set_blocks; cbn; repeat split|reflexivity].
  - rewrite map_map. clear. generalize 0. induction (gd_lines d) as [|l ls IH]; intros n; cbn [length seq combine map]; [reflexivity|]. f_equal. apply IH.
Qed.
Lemma order_keep m d d' : run_readingOrder m d = Ok d' ->
  Forall2 (fun p p' => keeps p p' /\ g_segs p' = g_segs p) (gd_pages d) (gd_pages d') /\ gd_words d' = gd_words d /\ gd_stats d' = gd_stats d /\ gd_lines d' = gd_lines d.
Proof.
  intros H. destruct (readingOrder_parts m d d' H) as (roles & parts & _ & _ & LP & F & EW & _ & ES & EL). split; [|split; [exact EW|split; [exact ES|exact EL]]].
  revert parts LP F. generalize (gd_pages d'). induction (gd_pages d) as [|p ps IH]; intros ps' [|part parts] LP F; try discriminate; inversion F as [|? p' ? ps1 R F1]; subst; constructor;
    [|exact (IH _ parts (f_equal pred LP) F1)].
  destruct R as (_ & KP & SG & _). split; assumption.
Qed.
(** Everything that stays from the end of the line statistics on. *)
Definition rest (d d' : gdoc) : Prop :=
  Forall2 (fun p p' => still p p' /\ g_segs p' = g_segs p) (gd_pages d) (gd_pages d') /\ map core (gd_words d') = map core (gd_words d) /\ gd_stats d' = gd_stats d /\
  map (fun l => (gl_line l, gl_box l)) (gd_lines d') = map (fun l => (gl_line l, gl_box l)) (gd_lines d).
Lemma rest_refl d : rest d d.
Proof. split; [apply F2_refl; intros p; split; [repeat split|reflexivity]|split; [reflexivity|split; reflexivity]]. Qed.
Lemma rest_trans a b c : rest a b -> rest b c -> rest a c.
Proof.
  intros (A1 & A2 & A3 & A4) (B1 & B2 & B3 & B4). split; [|split; [congruence|split; [congruence|congruence]]].
  refine (F2_comp _ _ _ _ _ A1 _ _ B1). intros p q s [X Y] [X' Y']. split; [exact (still_trans _ _ _ X X')|congruence].
Qed.
Lemma rest_keeps d d' : Forall2 (fun p p' => keeps p p' /\ g_segs p' = g_segs p) (gd_pages d) (gd_pages d') ->
  Forall2 (fun p p' => still p p' /\ g_segs p' = g_segs p) (gd_pages d) (gd_pages d').
Proof. intros F. refine (F2_imp _ _ _ _ _ F). intros p p' [A B]. split; [exact (keeps_still _ _ A)|exact B]. Qed.
Lemma rest_all m cfg qs c d8 d9 da db : sane m -> inv2 cfg qs d8 -> run_blocks m d8 = Ok d9 -> opt c Cli.MReadingOrder (run_readingOrder m) d9 da ->
  opt c Cli.MDehyphenation (run_dehyphenation m) da db -> rest d8 (fill_lines2 db).
Proof.
  intros SA I8 E9 Ea Eb. destruct (blocks_keep m cfg qs d8 d9 SA I8 E9) as (A1 & A2 & A3 & A4).
  apply (rest_trans _ d9); [split; [exact (rest_keeps _ _ A1)|split; [rewrite A2; reflexivity|split; assumption]]|]. apply (rest_trans _ da).
  { destruct Ea as [[_ Ea]|[_ ->]]; [|apply rest_refl]. destruct (order_keep _ _ _ Ea) as (B1 & B2 & B3 & B4). split; [exact (rest_keeps _ _ B1)|rewrite B2, B3, B4; repeat split]. }
  apply (rest_trans _ db).
  { destruct Eb as [[_ Eb]|[_ ->]]; [|apply rest_refl]. destruct (dehyph_core _ _ _ Eb) as (C1 & C2 & _). unfold run_dehyphenation in Eb. apply Ok_inj in Eb.
    split; [rewrite C2; apply F2_refl; intros p; split; [repeat split|reflexivity]|]. split; [symmetry; exact C1|]. rewrite <- Eb. split; reflexivity. }
  unfold fill_lines2. split; [|split; [reflexivity|split; reflexivity]]. cbn [set_pages gd_pages]. apply F2_map_r. intros p. split; [unfold still; cbn; repeat split|reflexivity].
Qed.
(** ... and from the end of the segmentation to there. *)
Definition early (d d' : gdoc) : Prop :=
  Forall2 (fun p p' => still p p' /\ Forall2 same_seg (g_segs p) (g_segs p')) (gd_pages d) (gd_pages d') /\ map core (gd_words d') = map core (gd_words d) /\
  Statistics.st_charWidth (gd_stats d') = Statistics.st_charWidth (gd_stats d) /\ Statistics.st_charHeight (gd_stats d') = Statistics.st_charHeight (gd_stats d) /\
  Statistics.st_fontSize (gd_stats d') = Statistics.st_fontSize (gd_stats d) /\ Statistics.st_fontName (gd_stats d') = Statistics.st_fontName (gd_stats d) /\
  Statistics.st_wordDist (gd_stats d') = Statistics.st_wordDist (gd_stats d) /\ Statistics.st_estLineDist (gd_stats d') = Statistics.st_estLineDist (gd_stats d) /\
  Statistics.st_wordHeight (gd_stats d') = Statistics.st_wordHeight (gd_stats d).
Lemma same_segs_refl l : Forall2 same_seg l l.
Proof. apply F2_refl. intros s. split; reflexivity. Qed.
Lemma rest_early d d' : rest d d' -> early d d'.
Proof.
  intros (A & B & C & _). split; [|split; [exact B|rewrite C; repeat split]]. refine (F2_imp _ _ _ _ _ A). intros p p' [X Y]. split; [exact X|]. rewrite Y. apply same_segs_refl.
Qed.
Lemma early_trans a b c : early a b -> early b c -> early a c.
Proof.
  intros (A1 & A2 & A3 & A4 & A5 & A6 & A7 & A8 & A9) (B1 & B2 & B3 & B4 & B5 & B6 & B7 & B8 & B9). split.
  { refine (F2_comp _ _ _ _ _ A1 _ _ B1). intros p q s [X Y] [X' Y']. split; [exact (still_trans _ _ _ X X')|]. refine (F2_comp _ _ _ _ _ Y _ _ Y').
    intros u v w [Q1 Q2] [Q3 Q4]. split; congruence. }
  split; [congruence|]. rewrite B3, B4, B5, B6, B7, B8, B9. repeat (split; [assumption|]). assumption.
Qed.
Lemma scripts_early d d' : run_scripts d = Ok d' -> early d d'.
Proof.
  intros H. destruct (core_scripts _ _ H) as (A & _ & B). unfold run_scripts in H. destruct (Scripts.detectScripts _ _ _) as [h sl]. apply Ok_inj in H.
  split; [rewrite B; apply F2_refl; intros p; split; [repeat split|apply same_segs_refl]|]. split; [symmetry; exact A|]. rewrite <- H. repeat split.
Qed.
Lemma lineStats_early m d d' : run_lineStats m d = Ok d' -> early d d'.
Proof.
  intros H. destruct (lineStats_inv m _ _ H) as (P & W & _). split; [rewrite P; apply F2_refl; intros p; split; [repeat split|apply same_segs_refl]|]. split; [rewrite W; reflexivity|].
  unfold run_lineStats in H. match type of H with obind ?x _ = _ => destruct x as [st| |] eqn:E; try discriminate end. cbn [obind] in H. apply Ok_inj in H. subst d'. cbn [set_stats gd_stats].
  unfold Statistics.lineStatistics in E. cbv zeta in E. match type of E with obind ?x _ = _ => destruct x as [ld| |]; try discriminate end. cbn [obind] in E.
  match type of E with obind ?x _ = _ => destruct x as [per| |]; try discriminate end. cbn [obind] in E. apply Ok_inj in E. subst st. repeat split.
Qed.
Lemma early_all m cfg c es code d : sane m -> text_enabled c -> process_pdf m cfg c es = Ok (code, d) ->
  exists r d0 d1 d2 d3 d4 d5 d6 d7 d8,
    Parsing.parse_events (m_parseFont m) (m_mapUnicode m) (m_fromBytes m) (m_iswspace m) (m_charId m) es = Ok r /\
    d0 = mkGDoc (map new_page (Parsing.pages r)) (Parsing.pr_fonts r) Statistics.stats_init [] [] /\
    opt c Cli.MGlyphStats (run_glyphStats m) d0 d1 /\ opt c Cli.MDiacritics (run_diacritics m) d1 d2 /\ run_words m cfg d2 = Ok d3 /\
    opt c Cli.MWordStats (run_wordStats m) d3 d4 /\ run_segmentation m d4 = Ok d5 /\ run_lines m d5 = Ok d6 /\
    opt c Cli.MScripts run_scripts (fill_lines1 d6) d7 /\ opt c Cli.MLineStats (run_lineStats m) d7 d8 /\
    Forall no_text (gd_pages d4) /\ early d5 d /\ rest d8 d.
Proof.
  intros SA TE H. destruct (steps m cfg c es code d SA TE H) as (r & d0 & d1 & d2 & d3 & d4 & d5 & d6 & d7 & d8 & d9 & da & db & EP & E0 & E1 & E2 & E3 & E4 & E5 & E6 & E7 & E8 & E9 & Ea & Eb & ED & _ & N4 & _ & _ & I8).
  pose proof (rest_all m cfg _ c d8 d9 da db SA I8 E9 Ea Eb) as R. rewrite <- ED in R.
  exists r, d0, d1, d2, d3, d4, d5, d6, d7, d8. repeat (split; [assumption|]). split; [|exact R].
  apply (early_trans _ d8); [|exact (rest_early _ _ R)]. apply (early_trans _ d7).
  2:{ destruct E8 as [[_ E8]|[_ ->]]; [exact (lineStats_early _ _ _ E8)|exact (rest_early _ _ (rest_refl _))]. }
  apply (early_trans _ (fill_lines1 d6)).
  2:{ destruct E7 as [[_ E7]|[_ ->]]; [exact (scripts_early _ _ E7)|exact (rest_early _ _ (rest_refl _))]. }
  destruct (lines_keep m d5 d6 SA E6) as (K & W & S0). apply (early_trans _ d6).
  - split; [exact K|]. rewrite W, S0. repeat split.
  - unfold fill_lines1. split; [|repeat split]. cbn [set_pages gd_pages]. apply F2_map_r. intros p. split; [unfold still; cbn; repeat split|apply same_segs_refl].
Qed.
