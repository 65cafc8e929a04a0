(** PropsWired.v - C81, continued: the detection of lines works on the segments of the resulting document, the detection of blocks on
    its lines. *)
From Coq Require Import ZArith NArith.
From Verif Require Import Base Double MathUtils Elements Sort Document LinesSpec Pipeline PipelineSpec PipelineLines PipelineProofs PipelineWords PipelineWhole
  PipelineContent PipelineStages StatisticsSpec WiringSpec PipelineStats WiredSpec PipelineWired.
From Verif Require Fonts Parsing Statistics Words Lines Scripts Blocks ContentSpec PageSegmentation Cli TotalWhole PropsBlocks PropsSegmentation PropsPipeline PropsContent PropsWiring.
Local Opaque TOL dadd dsub ddiv dmul dec DBL_MAX DBL_MIN.

(** The lines of the result, with the segment they stand in, their parents and siblings, and the trim boxes of the segments are what the
    detection of lines finds for the segments and the words of the result. *)
Theorem C81_line_detection : forall m wcfg c es code d, sane m -> text_enabled c -> process_pdf m wcfg c es = Ok (code, d) ->
  exists h r, (forall i, unmarked (h i) = unmarked (the_word d i)) /\
    Lines.detectTextLines (m_sortW m) (m_sortL m) (m_ordS m) (m_ordD m) (m_ordR m) (m_ordY m)
      (Statistics.st_charWidth (gd_stats d)) (m_absd m) h 0 (boxed_words d) = Ok r /\
    found_lines (final_line d) 0 0 (map g_segs (gd_pages d)) r.
Proof.
  intros m cfg c es code d SA TE H.
  destruct (steps m cfg c es code d SA TE H) as (r & d0 & d1 & d2 & d3 & d4 & d5 & d6 & d7 & d8 & d9 & da & db & _ & _ & _ & _ & _ & _ & E5 & E6 & E7 & E8 & E9 & Ea & Eb & ED & _ & N4 & _ & _ & I8).
  destruct (run_lines_found m d5 d6 SA (segmentation_unplaced m _ _ E5 N4) E6) as [(x & EX & FX) _].
  assert (PL : placed d6 d).
  { apply (placed_trans _ (fill_lines1 d6)); [apply fill1_placed|]. apply (placed_trans _ d7); [destruct E7 as [[_ E7]|[_ ->]]; [exact (proj1 (scripts_placed _ _ E7))|apply placed_refl]|].
    apply (placed_trans _ d8); [destruct E8 as [[_ E8]|[_ ->]]; [exact (proj1 (lineStats_placed _ _ _ E8))|apply placed_refl]|]. rewrite ED. exact (late_placed m cfg _ c d8 d9 da db SA I8 E9 Ea Eb). }
  assert (EA : early d5 d).
  { apply (early_trans _ d8); [|rewrite ED; exact (rest_early _ _ (rest_all m cfg _ c d8 d9 da db SA I8 E9 Ea Eb))]. apply (early_trans _ d7).
    2:{ destruct E8 as [[_ E8]|[_ ->]]; [exact (lineStats_early _ _ _ E8)|exact (rest_early _ _ (rest_refl _))]. }
    apply (early_trans _ (fill_lines1 d6)).
    2:{ destruct E7 as [[_ E7]|[_ ->]]; [exact (scripts_early _ _ E7)|exact (rest_early _ _ (rest_refl _))]. }
    destruct (lines_keep m d5 d6 SA E6) as (K & W & S0). apply (early_trans _ d6).
    - split; [exact K|]. rewrite W, S0. repeat split.
    - unfold fill_lines1. split; [|repeat split]. cbn [set_pages gd_pages]. apply F2_map_r. intros p. split; [unfold still; cbn; repeat split|apply same_segs_refl]. }
  exists (word_heap (gd_words d5)), x. pose proof EA as (_ & W & CW & _). split; [|split].
  - intros i. rewrite !core_unmarked. unfold word_heap, the_word. symmetry. exact (core_nth _ _ i W).
  - rewrite CW, <- (boxed_early _ _ EA). exact EX.
  - rewrite (proj1 PL). exact (found_ext _ _ (placed_line _ _ PL) _ _ _ _ FX).
Qed.
Print Assumptions C81_line_detection.

(** The blocks of the result (up to their order and their roles, which the next module determines; the order is the one that it finds,
    with the average character sizes, for these blocks, the figures and the shapes of the page) and the margins of its lines are what
    the detection of blocks finds for the lines of the result, their segments, the statistics, the fonts and the figures. *)
Theorem C81_block_detection : forall m wcfg c es code d, sane m -> text_enabled c -> process_pdf m wcfg c es = Ok (code, d) ->
  exists h bd lh pre fin lh', (forall i, unhyphenated (h i) = unhyphenated (the_word d i)) /\ seen_by_blocks d bd /\ (forall i, seen_line d i (lh i)) /\
    Blocks.detectTextBlocks (m_ordS m) (m_ordD m) (m_absd m) (m_labelRegex m) h bd (S (length (gd_lines d)))
      (map (fun p => map sg_lines (g_segs p)) (gd_pages d)) lh = Ok (pre, fin, lh') /\
    Forall2 (blocks_found m lh') (gd_pages d) fin /\
    (Cli.disabled c Cli.MReadingOrder = true -> Forall2 (fun p ts => Forall2 (found_block m lh' (g_num p)) ts (g_blocks p)) (gd_pages d) fin) /\
    (Cli.disabled c Cli.MReadingOrder = false -> Forall2 (blocks_ordered m (gd_stats d) lh') (gd_pages d) fin) /\
    forall i, i < length (gd_lines d) -> gl_left (final_line d i) = Blocks.bl_left (lh' i) /\ gl_right (final_line d i) = Blocks.bl_right (lh' i).
Proof.
  intros m cfg c es code d SA TE H.
  destruct (C81_line_detection m cfg c es code d SA TE H) as (h0 & r0 & _ & _ & FD).
  destruct (steps m cfg c es code d SA TE H) as (r & d0 & d1 & d2 & d3 & d4 & d5 & d6 & d7 & d8 & d9 & da & db & _ & _ & _ & _ & _ & _ & E5 & E6 & E7 & E8 & E9 & Ea & Eb & ED & _ & N4 & _ & _ & I8).
  destruct (run_lines_found m d5 d6 SA (segmentation_unplaced m _ _ E5 N4) E6) as [_ MG].
  assert (M8 : Forall (fun l => margins l = (dzero, dzero)) (gd_lines d8)).
  { assert (X : map margins (gd_lines d8) = map margins (gd_lines d6)).
    { transitivity (map margins (gd_lines d7)); [destruct E8 as [[_ E8]|[_ ->]]; [exact (proj2 (lineStats_placed _ _ _ E8))|reflexivity]|].
      destruct E7 as [[_ E7]|[_ ->]]; [exact (proj2 (scripts_placed _ _ E7))|reflexivity]. }
    clear -X MG. revert X. generalize (gd_lines d8). induction MG as [|x l A _ IH]; intros [|y l'] X; try discriminate; constructor; cbn [map] in X;
      [exact (eq_trans (f_equal (hd (margins x)) X) A)|exact (IH l' (f_equal (@tl _) X))]. }
  pose proof (late_placed m cfg _ c d8 d9 da db SA I8 E9 Ea Eb) as PL. pose proof (rest_all m cfg _ c d8 d9 da db SA I8 E9 Ea Eb) as RA.
  pose proof (fonts_late m c d8 d9 da db E9 Ea Eb) as FL. pose proof (words_late m cfg _ c d8 d9 da db SA I8 E9 Ea Eb) as WL.
  rewrite <- ED in PL, RA, FL, WL.
  assert (SD : same_doc d8 d).
  { split; [exact (proj1 (proj2 (proj2 RA)))|]. split; [exact FL|]. split; [exact (proj1 PL)|]. destruct RA as (K & _). clear -K.
    induction K as [|p p' l l' [(_ & _ & E & _) _] _ IH]; cbn [map]; [reflexivity|]. rewrite E, IH. reflexivity. }
  pose proof E9 as E9'. unfold run_blocks in E9'. destruct (Blocks.detectTextBlocks _ _ _ _ _ _ _ _ _) as [[[pre fin] lh']| |] eqn:EB; try discriminate.
  cbn [obind] in E9'. apply Ok_inj in E9'. rewrite <- (same_block_doc _ _ SD) in EB.
  assert (LL : length (gd_lines d8) = length (gd_lines d)).
  { destruct PL as [_ X]. apply (f_equal (@length _)) in X. rewrite !map_length in X. symmetry. exact X. }
  assert (SG : map (fun p => map sg_lines (g_segs p)) (gd_pages d8) = map (fun p => map sg_lines (g_segs p)) (gd_pages d)).
  { rewrite <- !(map_map g_segs (map sg_lines)), (proj1 PL). reflexivity. }
  rewrite LL, SG in EB.
  exists (word_heap (gd_words d8)), (block_doc d), (fun i => block_line (nth i (gd_lines d8) no_line)), pre, fin, lh'.
  split; [exact WL|]. split.
  { unfold seen_by_blocks. do 6 (split; [reflexivity|]). split; [reflexivity|]. split; [reflexivity|].
    intros p s i Hp Hs Hi. destruct (found_in _ _ _ _ _ FD (g_segs p) s i (in_map g_segs _ _ Hp) Hs Hi) as (q & EQ & EN). cbn [Nat.add] in EQ.
    unfold block_doc. cbn [Blocks.bd_seg]. rewrite EQ, flat_map_concat_map, EN. reflexivity. }
  split.
  { intros i. pose proof (placed_line _ _ PL i) as X. unfold links in X. apply pair_equal_spec in X as [X X5]. apply pair_equal_spec in X as [X X4]. apply pair_equal_spec in X as [X X3]. apply pair_equal_spec in X as [X1 X2].
    unfold final_line in X1, X2, X3, X4, X5 at 1. unfold seen_line, block_line. cbv zeta.
    cbn [Blocks.bl_pos Blocks.bl_text Blocks.bl_fontName Blocks.bl_fontSize Blocks.bl_maxFontSize Blocks.bl_words Blocks.bl_seg Blocks.bl_prev Blocks.bl_next Blocks.bl_parent Blocks.bl_prevSib Blocks.bl_nextSib Blocks.bl_left Blocks.bl_right].
    unfold final_line in *. rewrite X1, X2, X3, X4, X5. repeat (split; [reflexivity|]).
    assert (MM : margins (nth i (gd_lines d8) no_line) = (dzero, dzero)).
    { destruct (Nat.lt_ge_cases i (length (gd_lines d8))) as [L|L]; [rewrite Forall_forall in M8; exact (M8 _ (nth_In _ _ L))|rewrite nth_overflow by exact L; reflexivity]. }
    apply pair_equal_spec in MM. exact MM. }
  split; [exact EB|].
  assert (B9 : Forall2 (fun p ts => Forall2 (found_block m lh' (g_num p)) ts (g_blocks p)) (gd_pages d9) fin).
  { rewrite <- E9'. cbn [gd_pages]. destruct SA as (_ & _ & _ & _ & _ & _ & HS & HD & _). destruct I8 as (_ & IL & N).
    assert (ND : NoDup (concat (map (@concat nat) (map (fun p => map sg_lines (g_segs p)) (gd_pages d8))))).
    { unfold PipelineWhole.numbered, segment_line_ids in N. rewrite map_map. replace (concat _) with (flat_map (fun p => flat_map sg_lines (g_segs p)) (gd_pages d8)); [rewrite N; apply seq_NoDup|].
      rewrite flat_map_concat_map. f_equal. apply map_ext. intros p. apply flat_map_concat_map. }
    rewrite SG in ND. destruct (PropsBlocks.C33_partition _ _ _ _ _ _ _ _ _ _ _ _ HS HD ND EB) as (_ & PT & _). rewrite <- SG in PT. apply F2_map_l in PT. clear -PT IL.
    induction PT as [|p bs l l' _ _ IH]; cbn [combine map]; inversion IL as [|? ? [_ G0] IL']; subst; constructor; [|exact (IH IL')].
    unfold set_blocks. cbn [g_blocks g_num]. rewrite G0. cbn [app]. clear. induction bs as [|t bs IH]; cbn [map]; constructor; [repeat split|exact IH]. }
  assert (PG : gd_pages d = map (fun p => set_textLines (flat_map b_lines (g_blocks p)) p) (gd_pages da)).
  { rewrite ED. unfold fill_lines2. cbn [set_pages gd_pages]. destruct Eb as [[_ Eb]|[_ ->]]; [rewrite (dehyph_pages _ _ _ Eb)|]; reflexivity. }
  rewrite PG. split; [|split; [|split]].
  - assert (BA : Forall2 (blocks_found m lh') (gd_pages da) fin).
    { destruct Ea as [[_ Ea]|[_ ->]]; [exact (order_found m lh' _ _ _ SA Ea B9)|]. refine (F2_imp _ _ _ _ _ B9). intros p ts X. exists (g_blocks p). split; [reflexivity|exact X]. }
    clear -BA. induction BA as [|p ts l l' X _ IH]; cbn [map]; constructor; [exact X|exact IH].
  - intros DI. destruct Ea as [[X _]|[_ ->]]; [congruence|]. clear -B9. induction B9 as [|p ts l l' X _ IH]; cbn [map]; constructor; [exact X|exact IH].
  - intros DI. destruct Ea as [[_ Ea]|[X _]]; [|congruence]. pose proof (order_exact m lh' _ _ _ Ea B9) as BA.
    assert (ES : gd_stats d9 = gd_stats d).
    { destruct RA as (_ & _ & -> & _). rewrite <- E9'. reflexivity. }
    rewrite ES in BA. clear -BA. induction BA as [|p ts l l' X _ IH]; cbn [map]; constructor; [exact X|exact IH].
  - intros i Hi. apply pair_equal_spec. rewrite ED in *. refine (margins_late m c d8 d9 da db lh' Ea Eb _ i Hi). rewrite <- E9'. reflexivity.
Qed.
Print Assumptions C81_block_detection.

(** The list of text lines of a page of the result is that of the lines of its blocks, in their order. *)
Theorem C81_page_lines : forall m wcfg c es code d, sane m -> text_enabled c -> process_pdf m wcfg c es = Ok (code, d) ->
  forall p, In p (gd_pages d) -> g_textLines p = flat_map b_lines (g_blocks p).
Proof.
  intros m cfg c es code d SA TE H.
  destruct (steps m cfg c es code d SA TE H) as (r & d0 & d1 & d2 & d3 & d4 & d5 & d6 & d7 & d8 & d9 & da & db & _ & _ & _ & _ & _ & _ & _ & _ & _ & _ & _ & _ & _ & -> & _).
  intros p Hp. unfold fill_lines2 in Hp. cbn [set_pages gd_pages] in Hp. apply in_map_iff in Hp as (q & <- & _). reflexivity.
Qed.
Print Assumptions C81_page_lines.

(** ** Example: the document of C75_example, two lines of text in one segment, one block *)
Import PropsPipeline PropsContent.
Example C81_detection_example : sane ex_machine /\ text_enabled ex_all /\
  exists d, ex_run ex_hyph = Ok (0%Z, d) /\
    map (fun p => map sg_lines (g_segs p)) (gd_pages d) = [[[0; 1]]] /\ map (fun p => map b_lines (g_blocks p)) (gd_pages d) = [[[[0]; [1]]]] /\
    map g_textLines (gd_pages d) = [[[0]; [1]]] /\ length (gd_lines d) = 2 /\ gl_prevSib (final_line d 1) = Some 0.
Proof.
  split; [exact ex_sane|]. split; [repeat split|].
  assert (H : match ex_run ex_hyph with Ok (c, d) => (c =? 0)%Z && Nat.eqb (length (gd_lines d)) 2 && match gl_prevSib (final_line d 1) with Some 0 => true | _ => false end | _ => false end = true) by (vm_compute; reflexivity).
  assert (E1 : match ex_run ex_hyph with Ok (_, d) => map (fun p => map sg_lines (g_segs p)) (gd_pages d) | _ => [] end = [[[0; 1]]]) by (vm_compute; reflexivity).
  assert (E2 : match ex_run ex_hyph with Ok (_, d) => map (fun p => map b_lines (g_blocks p)) (gd_pages d) | _ => [] end = [[[[0]; [1]]]]) by (vm_compute; reflexivity).
  assert (E3 : match ex_run ex_hyph with Ok (_, d) => map g_textLines (gd_pages d) | _ => [] end = [[[0]; [1]]]) by (vm_compute; reflexivity).
  destruct (ex_run ex_hyph) as [[c d]| |]; try discriminate. rewrite !andb_true_iff in H. destruct H as [[Hc HL] HS].
  apply Z.eqb_eq in Hc. apply Nat.eqb_eq in HL. subst c. exists d. split; [reflexivity|]. split; [exact E1|]. split; [exact E2|]. split; [exact E3|]. split; [exact HL|].
  destruct (gl_prevSib (final_line d 1)) as [[|n]|]; try discriminate. reflexivity.
Qed.
