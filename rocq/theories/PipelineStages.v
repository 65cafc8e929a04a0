(** PipelineStages.v - the document after the detection of the blocks, and the modules behind it. *)
From Coq Require Import ZArith NArith.
From Verif Require Import Base Double MathUtils Elements Sort XYCut Document Pipeline PipelineSpec PipelineLines PipelineProofs PipelineWords PipelineWhole PipelineContent.
From Verif Require Parsing Words WordsSpec Lines LinesSpec Scripts ScriptsProofs Blocks Cli PropsWords PropsPipeline PropsTotal.
Local Opaque TOL dZ dadd dsub ddiv dmul dec DBL_MAX DBL_MIN.

(** ** No word is hyphenated before the dehyphenation *)
Definition plain_word (w : word) : Prop := w_first w = None /\ w_second w = None.
Lemma merge_plain cfg ws0 : (forall w, In w ws0 -> fresh w) -> Forall plain_word ws0 -> Forall plain_word (Words.mergeStackedMathSymbols cfg ws0).
Proof.
  intros E0 F. destruct (PropsWords.C24_relation cfg ws0 (fun w Hw => conj (proj1 (E0 w Hw)) (proj1 (proj2 (E0 w Hw))))) as [L R].
  apply Forall_forall. intros w Hw. destruct (In_nth_error _ _ Hw) as [k Ek].
  destruct (nth_error ws0 k) as [w0|] eqn:E1; [|apply nth_error_None in E1; assert (k < length (Words.mergeStackedMathSymbols cfg ws0)) by (apply nth_error_Some; congruence); lia].
  destruct (R _ _ E1) as (w' & E' & A1 & _). assert (w' = w) by congruence. subst w'. destruct A1 as (_ & _ & _ & _ & _ & _ & _ & P1 & P2).
  rewrite Forall_forall in F. unfold plain_word. rewrite P1, P2. exact (F w0 (nth_error_In _ _ E1)).
Qed.
Lemma place_plain ps : forall n wss ps' ws, Forall (Forall plain_word) wss -> place_words n ps wss = (ps', ws) -> Forall plain_word ws.
Proof.
  induction ps as [|p ps IH]; intros n [|w1 wss] ps' ws F H; cbn [place_words] in H; try (apply pair_equal_spec in H as [_ <-]; constructor).
  destruct (place_words _ ps wss) as [ps1 rest] eqn:E. apply pair_equal_spec in H as [_ <-]. inversion F as [|? ? F1 F2]; subst. apply Forall_app. split; [|exact (IH _ _ _ _ F2 E)].
  apply Forall_forall. intros w Hw. apply in_map_iff in Hw as (w0 & <- & Hw0). rewrite Forall_forall in F1. exact (F1 w0 Hw0).
Qed.
Lemma words_plain m cfg d d' : sane m -> run_words m cfg d = Ok d' -> Forall plain_word (gd_words d').
Proof.
  intros (_ & _ & _ & _ & _ & _ & HS & HD & _) H. unfold run_words in H. destruct (omap _ (gd_pages d)) as [wss| |] eqn:E; try discriminate. cbn [obind] in H.
  destruct (place_words 0 _ _) as [ps ws] eqn:EP. apply Ok_inj in H. subst d'. cbn [gd_words]. apply (place_plain _ _ _ _ _) in EP; [exact EP|].
  apply Forall_forall. intros ws1 H1. apply in_map_iff in H1 as (ws0 & <- & H0). apply omap_F2 in E.
  destruct (TotalWhole.F2_in_r _ _ _ _ E H0) as (p & _ & HW).
  destruct (PropsWords.C22_words_partition (m_ordS m) (m_ordD m) (m_wordId m (g_num p)) cfg (g_num p) [] (g_chars p) HS HD) as (ws1 & E1 & C1 & W1 & _).
  rewrite E1 in HW. apply Ok_inj in HW. cbn [app] in HW. subst ws0. apply merge_plain.
  - intros w Hw. destruct (W1 w Hw) as [_ WO]. destruct WO as (_ & B1 & B2 & B3 & B4 & B5 & B6 & _ & B7 & B8 & _). unfold fresh, made. repeat (split; [assumption|]). assumption.
  - apply Forall_forall. intros w Hw. destruct (W1 w Hw) as [_ WO]. unfold WordsSpec.word_of in WO. split; apply WO.
Qed.
Lemma scripts_plain d d' : Forall plain_word (gd_words d) -> run_scripts d = Ok d' -> Forall plain_word (gd_words d').
Proof.
  intros F H. unfold run_scripts in H. destruct (Scripts.detectScripts _ _ _) as [h sl] eqn:E. apply Ok_inj in H. subst d'. cbn [gd_words].
  destruct (ScriptsProofs.detect_spec _ _ _ _ _ E) as [HW _]. apply Forall_forall. intros w Hw. apply in_map_iff in Hw as (i & <- & Hi). apply in_seq in Hi. rewrite HW.
  rewrite Forall_forall in F. unfold plain_word, ScriptsProofs.mark_all_word, Scripts.set_chars. cbn [w_first w_second]. apply F. unfold word_heap. apply nth_In. lia.
Qed.

(** ** What the detection of the blocks leaves *)
Definition ready (cfg : Words.words_config) (qs : list Parsing.ppage) (d : gdoc) : Prop :=
  inv3 cfg qs d /\ Forall (made_page (gd_words d)) (gd_pages d) /\ Forall (blocked (gd_words d)) (gd_pages d) /\ Forall plain_word (gd_words d) /\
  word_numbers d.
Lemma made_same d d' : gd_pages d' = gd_pages d -> gd_words d' = gd_words d -> Forall (made_page (gd_words d)) (gd_pages d) -> Forall (made_page (gd_words d')) (gd_pages d').
Proof. intros -> ->. auto. Qed.
Lemma core_scripts d d' : run_scripts d = Ok d' -> map core (gd_words d) = map core (gd_words d') /\ map gl_line (gd_lines d) = map gl_line (gd_lines d') /\ gd_pages d' = gd_pages d.
Proof.
  intros H. unfold run_scripts in H. destruct (Scripts.detectScripts _ _ _) as [h sl] eqn:E. apply Ok_inj in H. subst d'. cbn [gd_words gd_lines gd_pages].
  destruct (ScriptsProofs.detect_spec _ _ _ _ _ E) as [HW _]. split; [|split; [symmetry; apply set_box_lines|reflexivity]].
  symmetry. apply core_seq. intros i. rewrite HW. unfold ScriptsProofs.mark_all_word, Scripts.set_chars, core. cbn [w_id w_rank w_pos w_text w_fontName w_fontSize w_chars w_partOf w_parts].
  rewrite map_map. rewrite (map_ext _ plain) by (intros c; apply plain_mark). reflexivity.
Qed.

Lemma stages m cfg c es code d : sane m -> text_enabled c -> process_pdf m cfg c es = Ok (code, d) ->
  exists r d9 da db, Parsing.parse_events (m_parseFont m) (m_mapUnicode m) (m_fromBytes m) (m_iswspace m) (m_charId m) es = Ok r /\
    ready cfg (Parsing.pages r) d9 /\ process_pdf m cfg (PropsTotal.before_roles c) es = Ok (0%Z, fill_lines2 d9) /\
    ((Cli.disabled c Cli.MReadingOrder = false /\ run_readingOrder m d9 = Ok da) \/ (Cli.disabled c Cli.MReadingOrder = true /\ da = d9)) /\
    ((Cli.disabled c Cli.MDehyphenation = false /\ run_dehyphenation m da = Ok db) \/ (Cli.disabled c Cli.MDehyphenation = true /\ db = da)) /\
    code = 0%Z /\ d = fill_lines2 db.
Proof.
  intros SA (TW & TS & TL & TB) H.
  unfold process_pdf, Cli.process in *. cbn [run_module] in *.
  destruct (run_parsing m es gdoc_init) as [d0| |] eqn:E0; try discriminate. cbn [obind] in *.
  assert (EP : exists r, Parsing.parse_events (m_parseFont m) (m_mapUnicode m) (m_fromBytes m) (m_iswspace m) (m_charId m) es = Ok r).
  { unfold run_parsing in E0. destruct (Parsing.parse_events _ _ _ _ _ es) as [r| |]; try discriminate. exists r. reflexivity. }
  destruct EP as [r EP]. exists r.
  destruct (parsing_inv m (Parsing.pages r) es d0 r EP eq_refl E0) as [I0 F0].
  unfold Cli.step in *. unfold PropsTotal.before_roles. cbn [Cli.disabled]. rewrite TW, TS, TL, TB in *. cbn [Bool.eqb run_module] in *.
  destruct (if Bool.eqb (Cli.disabled c Cli.MGlyphStats) false then _ else _) as [d1| |] eqn:E1; try discriminate. cbn [obind] in *.
  assert (I1 : inv0 (Parsing.pages r) d1 /\ fresh_chars d1).
  { apply PropsPipeline.run_if in E1 as [[_ E1]|[_ ->]]; [|split; assumption]. apply glyphStats_inv in E1 as (P & W & L). unfold inv0, fresh_chars in *. rewrite P, W, L. split; assumption. }
  destruct I1 as [I1 F1]. clear E0 E1 I0 F0.
  destruct (if Bool.eqb (Cli.disabled c Cli.MDiacritics) false then _ else _) as [d2| |] eqn:E2; try discriminate. cbn [obind] in *.
  assert (I2 : inv0 (Parsing.pages r) d2).
  { apply PropsPipeline.run_if in E2 as [[_ E2]|[_ ->]]; [|assumption]. exact (diacritics_inv m _ _ _ I1 F1 E2). }
  clear E2 I1 F1. destruct (run_words m cfg d2) as [d3| |] eqn:E3; try discriminate. cbn [obind] in *.
  destruct (words_inv m cfg SA _ _ _ I2 E3) as (I3 & N3 & _). pose proof (words_made m cfg _ _ SA E3) as M3. pose proof (words_plain m cfg _ _ SA E3) as U3. pose proof (words_numbers m cfg _ _ E3) as Q3. clear E3 I2.
  destruct (if Bool.eqb (Cli.disabled c Cli.MWordStats) false then _ else _) as [d4| |] eqn:E4; try discriminate. cbn [obind] in *.
  assert (I4 : (inv1 cfg (Parsing.pages r) d4 /\ Forall no_text (gd_pages d4)) /\ Forall (made_page (gd_words d4)) (gd_pages d4) /\ Forall plain_word (gd_words d4) /\ word_numbers d4).
  { apply PropsPipeline.run_if in E4 as [[_ E4]|[_ ->]]; [|split; [split; assumption|split; [exact M3|split; [exact U3|exact Q3]]]]. apply wordStats_inv in E4 as (P & W & L). unfold inv1, word_numbers in *. rewrite P, W. split; [split; assumption|split; [exact M3|split; [exact U3|exact Q3]]]. }
  destruct I4 as [[I4 N4] [M4 [U4 Q4]]]. clear E4 I3 N3 M3 U3.
  destruct (run_segmentation m d4) as [d5| |] eqn:E5; try discriminate. cbn [obind] in *.
  destruct (segmentation_inv m cfg SA _ _ _ I4 N4 E5) as (I5 & G5 & _).
  assert (K5 : Forall2 keeps (gd_pages d4) (gd_pages d5) /\ gd_words d5 = gd_words d4).
  { unfold run_segmentation in E5. destruct (omap _ (gd_pages d4)) as [ps| |] eqn:EO; try discriminate. cbn [obind] in E5. apply Ok_inj in E5. subst d5. split; [|reflexivity].
    apply omap_F2 in EO. cbn [set_pages gd_pages]. refine (F2_imp _ _ _ _ _ EO). intros p p' H0. destruct (from_run _) as [x| |]; try discriminate. cbn [obind] in H0. apply Ok_inj in H0. subst p'.
    unfold keeps, set_segs. cbn. repeat split. }
  destruct K5 as [K5 W5]. assert (M5 : Forall (made_page (gd_words d5)) (gd_pages d5)) by (apply (made_step d4); [exact K5|rewrite W5; reflexivity|exact M4]).
  assert (U5 : Forall plain_word (gd_words d5)) by (rewrite W5; exact U4). assert (Q5 : word_numbers d5) by (apply (numbers_step d4); [apply keeps_words, K5|rewrite W5; reflexivity|exact Q4]). clear E5 I4 N4 K5 W5 M4 U4.
  destruct (run_lines m d5) as [d6| |] eqn:E6; try discriminate. cbn [obind] in *.
  pose proof (lines1_inv cfg _ _ (lines_inv m cfg SA _ _ _ I5 G5 E6)) as I6. pose proof (lines_made m _ _ SA M5 G5 E6) as L6.
  assert (K6 : Forall2 (fun p p' => g_words p' = g_words p) (gd_pages d5) (gd_pages d6) /\ gd_words d6 = gd_words d5).
  { unfold run_lines in E6. destruct (Lines.detectTextLines _ _ _ _ _ _ _ _ _ _ _) as [x| |] eqn:E; try discriminate. cbn [obind] in E6.
    destruct (place_pages 0 0 (gd_pages d5) x) as [ps ls] eqn:EPP. apply Ok_inj in E6. subst d6. cbn [gd_pages gd_words]. split; [|reflexivity].
    destruct SA as (_ & _ & HW & HL & _ & _ & HS & HD & _ & HR & HY). apply (detect_words _ _ _ _ _ _ _ _ HW HL HR HY) in E. apply F2_map_l in E.
    refine (place_pages_keeps_words _ _ _ _ _ _ _ EPP). clear -E. induction E; cbn [length]; [reflexivity|congruence]. }
  destruct K6 as [K6 W6].
  assert (M6 : Forall (made_page (gd_words d6)) (gd_pages d6)).
  { rewrite W6. apply (F2_Forall _ _ _ _ _ K6 M5). intros p p' EW. unfold made_page. rewrite EW. auto. }
  assert (U6 : Forall plain_word (gd_words d6)) by (rewrite W6; exact U5).
  assert (Q6 : word_numbers d6) by (apply (numbers_step d5); [exact K6|rewrite W6; reflexivity|exact Q5]).
  assert (Q6' : word_numbers (fill_lines1 d6)).
  { apply (numbers_step d6); [|reflexivity|exact Q6]. unfold fill_lines1. cbn [set_pages gd_pages]. apply F2_map_r. reflexivity. }
  clear Q6. rename Q6' into Q6.
  assert (X6 : Forall (made_page (gd_words (fill_lines1 d6))) (gd_pages (fill_lines1 d6)) /\ Forall plain_word (gd_words (fill_lines1 d6)) /\
               Forall (lined (gd_words (fill_lines1 d6)) (gd_lines (fill_lines1 d6))) (gd_pages (fill_lines1 d6))).
  { unfold fill_lines1. cbn [set_pages gd_pages gd_words gd_lines]. split; [|split; [exact U6|]].
    - apply Forall_forall. intros p Hp. apply in_map_iff in Hp as (p0 & <- & Hp). rewrite Forall_forall in M6. exact (M6 p0 Hp).
    - apply Forall_forall. intros p Hp. apply in_map_iff in Hp as (p0 & <- & Hp). rewrite Forall_forall in L6. exact (L6 p0 Hp). }
  clear K6 W6 M6 U6 L6 M5 U5. destruct X6 as (M6 & U6 & L6). set (d6' := fill_lines1 d6) in *. clearbody d6'. clear E6 I5 G5.
  destruct (if Bool.eqb (Cli.disabled c Cli.MScripts) false then _ else _) as [d7| |] eqn:E7; try discriminate. cbn [obind] in *.
  assert (I7 : inv2 cfg (Parsing.pages r) d7 /\ Forall (made_page (gd_words d7)) (gd_pages d7) /\ Forall plain_word (gd_words d7) /\ Forall (lined (gd_words d7) (gd_lines d7)) (gd_pages d7) /\ word_numbers d7).
  { apply PropsPipeline.run_if in E7 as [[_ E7]|[_ ->]]; [|split; [exact I6|split; [exact M6|split; [exact U6|split; [exact L6|exact Q6]]]]]. split; [exact (scripts_inv cfg _ _ _ I6 E7)|].
    destruct (core_scripts _ _ E7) as (C1 & C2 & C3). split; [apply (made_step d6'); [rewrite C3; apply F2_refl, keeps_refl|exact C1|exact M6]|].
    split; [exact (scripts_plain _ _ U6 E7)|]. split; [|apply (numbers_step d6'); [rewrite C3; apply keeps_words, F2_refl, keeps_refl|apply (f_equal (@length _)) in C1; rewrite !map_length in C1; symmetry; exact C1|exact Q6]]. rewrite C3. apply Forall_forall. intros p Hp. rewrite Forall_forall in L6. exact (lined_ext _ _ _ _ _ C1 C2 (L6 p Hp)). }
  destruct I7 as (I7 & M7 & U7 & L7 & Q7).
  clear E7 I6 M6 U6 L6. destruct (if Bool.eqb (Cli.disabled c Cli.MLineStats) false then _ else _) as [d8| |] eqn:E8; try discriminate. cbn [obind] in *.
  assert (I8 : inv2 cfg (Parsing.pages r) d8 /\ Forall (made_page (gd_words d8)) (gd_pages d8) /\ Forall plain_word (gd_words d8) /\ Forall (lined (gd_words d8) (gd_lines d8)) (gd_pages d8) /\ word_numbers d8).
  { apply PropsPipeline.run_if in E8 as [[_ E8]|[_ ->]]; [|split; [exact I7|split; [exact M7|split; [exact U7|split; [exact L7|exact Q7]]]]].
    apply lineStats_inv in E8 as (P & W & L). unfold inv2, inv1, PipelineWhole.numbered, segment_line_ids, word_numbers in *. rewrite P, W, L. split; [exact I7|split; [exact M7|split; [exact U7|split; [exact L7|exact Q7]]]]. }
  destruct I8 as (I8 & M8 & U8 & L8 & Q8). clear E8 I7 M7 U7 L7.
  destruct (run_blocks m d8) as [d9| |] eqn:E9; try discriminate. cbn [obind] in *.
  pose proof (blocks_inv m cfg SA _ _ _ I8 E9) as I9. pose proof (blocks_made m cfg _ _ _ SA M8 L8 I8 E9) as B9.
  assert (K9 : Forall2 keeps (gd_pages d8) (gd_pages d9) /\ gd_words d9 = gd_words d8).
  { unfold run_blocks in E9. destruct (Blocks.detectTextBlocks _ _ _ _ _ _ _ _ _) as [[[pre fin] lh]| |] eqn:E; try discriminate. cbn [obind] in E9. apply Ok_inj in E9. subst d9. split; [|reflexivity]. cbn [gd_pages].
    destruct I8 as (_ & _ & N). destruct SA as (_ & _ & _ & _ & _ & _ & HS & HD & _).
    assert (ND : NoDup (concat (map (@concat nat) (map (fun p => map sg_lines (g_segs p)) (gd_pages d8))))).
    { unfold PipelineWhole.numbered, segment_line_ids in N. rewrite map_map. replace (concat _) with (flat_map (fun p => flat_map sg_lines (g_segs p)) (gd_pages d8)); [rewrite N; apply seq_NoDup|].
      rewrite flat_map_concat_map. f_equal. apply map_ext. intros p. apply flat_map_concat_map. }
    destruct (PropsBlocks.C33_partition _ _ _ _ _ _ _ _ _ _ _ _ HS HD ND E) as (_ & PT & _). apply F2_map_l in PT. clear -PT.
    induction PT as [|p bs pl bl H _ IH]; cbn [combine map]; constructor; [|exact IH]. unfold keeps, set_blocks. cbn. repeat split. }
  destruct K9 as [K9 W9]. assert (M9 : Forall (made_page (gd_words d9)) (gd_pages d9)) by (apply (made_step d8); [exact K9|rewrite W9; reflexivity|exact M8]).
  assert (U9 : Forall plain_word (gd_words d9)) by (rewrite W9; exact U8). assert (Q9 : word_numbers d9) by (apply (numbers_step d8); [apply keeps_words, K9|rewrite W9; reflexivity|exact Q8]). clear E9 I8 M8 U8 L8 K9 W9.
  destruct (if Bool.eqb (Cli.disabled c Cli.MReadingOrder) false then _ else _) as [da| |] eqn:Ea; try discriminate. cbn [obind] in *.
  destruct (if Bool.eqb (Cli.disabled c Cli.MDehyphenation) false then _ else _) as [db| |] eqn:Eb; try discriminate. cbn [obind] in *.
  exists d9, da, db. split; [exact EP|]. split; [split; [exact I9|split; [exact M9|split; [exact B9|split; [exact U9|exact Q9]]]]|]. split; [reflexivity|].
  split; [apply PropsPipeline.run_if in Ea; exact Ea|]. split; [apply PropsPipeline.run_if in Eb; exact Eb|].
  apply Ok_inj in H. apply pair_equal_spec in H as [<- <-]. split; reflexivity.
Qed.
