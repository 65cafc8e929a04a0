(** PropsWiring.v - C81: the statistics of the resulting document are those of its own characters, words and lines, and the
    page segmentation works on its words, figures, graphics and shapes with these statistics. *)
From Coq Require Import ZArith NArith.
From Verif Require Import Base Double MathUtils Elements Sort Document LinesSpec Pipeline PipelineSpec PipelineLines PipelineProofs PipelineWords PipelineWhole
  PipelineContent PipelineStages StatisticsSpec WiringSpec PipelineStats.
From Verif Require Fonts Parsing Statistics Words Lines Scripts Blocks BlocksSpec ContentSpec PageSegmentation Cli TotalWhole PropsBlocks PropsSegmentation PropsStatistics PropsPipeline.
Local Opaque TOL dadd dsub ddiv dmul dec DBL_MAX DBL_MIN.

Lemma core_w ws ws' : map core ws = map core ws' -> forall i, w_pos (nth i ws no_word) = w_pos (nth i ws' no_word) /\ w_fontSize (nth i ws no_word) = w_fontSize (nth i ws' no_word) /\
  w_rank (nth i ws no_word) = w_rank (nth i ws' no_word).
Proof.
  intros E i. pose proof (core_nth _ _ i E) as C. split; [exact (f_equal w_pos C)|]. split; [exact (f_equal w_fontSize C)|exact (f_equal w_rank C)].
Qed.
(** The word lists of two documents agree in boxes and sizes. *)
Definition similar (a b : list word) : Prop := Forall2 (fun x y => w_pos x = w_pos y /\ w_fontSize x = w_fontSize y) a b.
Lemma pages_similar d d' : early d d' -> Forall2 similar (map (page_words d) (gd_pages d)) (map (page_words d') (gd_pages d')).
Proof.
  intros (K & W & _). induction K as [|p p' ps ps' [(_ & EW & _) _] _ IH]; cbn [map]; constructor; [|exact IH]. unfold page_words, similar. rewrite EW.
  clear -W. induction (g_words p) as [|i l IL]; cbn [map]; [constructor|]. constructor; [|exact IL]. unfold the_word. destruct (core_w _ _ W i) as (A & B & _). split; symmetry; assumption.
Qed.
Lemma similar_concat a b : Forall2 similar a b -> similar (concat a) (concat b).
Proof. induction 1 as [|x y l l' H _ IH]; cbn [concat]; [constructor|]. apply Forall2_app; assumption. Qed.
Lemma similar_pairs l : forall l', similar l l' -> Forall2 (fun e e' => (w_pos (fst e) = w_pos (fst e') /\ w_fontSize (fst e) = w_fontSize (fst e')) /\ w_pos (snd e) = w_pos (snd e') /\ w_fontSize (snd e) = w_fontSize (snd e'))
  (combine l (tl l)) (combine l' (tl l')).
Proof.
  intros l' F. induction F as [|x y l l' H F IH]; cbn [tl combine]; [constructor|]. destruct F as [|x1 y1 l l' H1 F]; cbn [combine]; [constructor|]. constructor; [split; [exact H|exact H1]|exact IH].
Qed.
Lemma similar_neighbours a b : Forall2 similar a b -> Forall2 (fun e e' => (w_pos (fst e) = w_pos (fst e') /\ w_fontSize (fst e) = w_fontSize (fst e')) /\ w_pos (snd e) = w_pos (snd e') /\ w_fontSize (snd e) = w_fontSize (snd e'))
  (neighbours a) (neighbours b).
Proof. unfold neighbours. induction 1 as [|x y l l' H _ IH]; cbn [flat_map]; [constructor|]. apply Forall2_app; [exact (similar_pairs _ _ H)|exact IH]. Qed.
Lemma F2_filter_map {A B} (P : A -> A -> Prop) (f : A -> bool) (g : A -> B) l l' : (forall x y, P x y -> f x = f y /\ g x = g y) -> Forall2 P l l' -> map g (filter f l) = map g (filter f l').
Proof.
  intros H. induction 1 as [|x y l l' X _ IH]; cbn [filter]; [reflexivity|]. destruct (H x y X) as [E1 E2]. rewrite E1. destruct (f y); cbn [map]; [rewrite E2, IH; reflexivity|exact IH].
Qed.
Lemma heights_similar mf a b : Forall2 similar a b -> word_heights mf a = word_heights mf b.
Proof.
  intros F. unfold word_heights. refine (F2_filter_map _ _ _ _ _ _ (similar_concat _ _ F)). intros x y [E1 E2]. unfold body_size. rewrite E1, E2. split; reflexivity.
Qed.
Lemma gaps_similar mf a b : Forall2 similar a b -> word_gaps mf a = word_gaps mf b.
Proof.
  intros F. unfold word_gaps. refine (F2_filter_map _ _ _ _ _ _ (similar_neighbours _ _ F)). intros [x1 x2] [y1 y2] [[E1 E2] [E3 E4]]. cbn [fst snd] in *.
  unfold body_pair, body_size, side_by_side. cbn [fst snd]. rewrite E1, E2, E3, E4. split; reflexivity.
Qed.
Lemma leadings_similar mf a b : Forall2 similar a b -> word_leadings mf a = word_leadings mf b.
Proof.
  intros F. unfold word_leadings. refine (F2_filter_map _ _ _ _ _ _ (similar_neighbours _ _ F)). intros [x1 x2] [y1 y2] [[E1 E2] [E3 E4]]. cbn [fst snd] in *.
  unfold body_pair, body_size, one_below. cbn [fst snd]. rewrite E1, E2, E3, E4. split; reflexivity.
Qed.
Lemma diacritics_stats m d d' : run_diacritics m d = Ok d' -> gd_stats d' = gd_stats d.
Proof. intros H. unfold run_diacritics in H. match type of H with obind ?x _ = _ => destruct x; try discriminate end. cbn [obind] in H. apply Ok_inj in H. subst. reflexivity. Qed.
Lemma words_stats m cfg d d' : run_words m cfg d = Ok d' -> gd_stats d' = gd_stats d.
Proof.
  intros H. unfold run_words in H. match type of H with obind ?x _ = _ => destruct x; try discriminate end. cbn [obind] in H. destruct (place_words _ _ _). apply Ok_inj in H. subst. reflexivity.
Qed.
Lemma segmentation_keep m d d' : run_segmentation m d = Ok d' -> Forall no_text (gd_pages d) ->
  gd_stats d' = gd_stats d /\ gd_words d' = gd_words d /\ Forall2 (fun p p' => still p p' /\
    exists r, PageSegmentation.processPage (m_sortP m) (m_topP m) (PageSegmentation.default_config (PageSegmentation.mkPS (Statistics.st_wordDist (gd_stats d))
      (Statistics.st_charWidth (gd_stats d)) (Statistics.st_charHeight (gd_stats d)))) (page_elems (gd_words d) p) = Some (Ok r) /\ g_segs p' = map new_seg (fst r)) (gd_pages d) (gd_pages d').
Proof.
  intros H N. unfold run_segmentation in H. cbv zeta in H. match type of H with obind ?x _ = _ => destruct x as [ps| |] eqn:E; try discriminate end. cbn [obind] in H. apply Ok_inj in H. subst d'.
  cbn [set_pages gd_stats gd_words gd_pages]. split; [reflexivity|]. split; [reflexivity|]. apply omap_F2 in E. revert N E. generalize (gd_pages d). intros l N E. revert N.
  induction E as [|p p' l l' H _ IH]; intros N; constructor; [|inversion N; subst; apply IH; assumption].
  inversion N as [|? ? [N1 _] _]; subst. match type of H with obind (from_run ?x) _ = _ => destruct x as [[r| |]|] eqn:EP end; try discriminate. cbn [from_run obind] in H. apply Ok_inj in H. subst p'.
  split; [unfold still, set_segs; cbn; repeat split|]. exists r. split; [reflexivity|]. unfold set_segs. cbn [g_segs]. rewrite N1. reflexivity.
Qed.

(** ** C81 *)
(** The text body: font name and font size are those that most characters have, and the average size is that of all characters
    (as they were parsed). Without the calculation they are empty and 0. *)
Theorem C81_glyphs : forall m wcfg c es code d, sane m -> text_enabled c -> process_pdf m wcfg c es = Ok (code, d) ->
  exists r, Parsing.parse_events (m_parseFont m) (m_mapUnicode m) (m_fromBytes m) (m_iswspace m) (m_charId m) es = Ok r /\
    let st := gd_stats d in let cs := flat_map Parsing.pp_chars (Parsing.pages r) in
    (Cli.disabled c Cli.MGlyphStats = false -> cs <> [] -> (Z.of_nat (length cs) < 2 ^ 31)%Z ->
       most_frequent str_eqb (Statistics.st_fontName st) (map c_fontName cs) /\
       ((forall ch, In ch cs -> is_nan_d (c_fontSize ch) = false) -> most_frequent deq (Statistics.st_fontSize st) (map c_fontSize cs)) /\
       average_of (Statistics.st_charWidth st) (map (fun ch => getWidth (c_pos ch)) cs) /\
       average_of (Statistics.st_charHeight st) (map (fun ch => getHeight (c_pos ch)) cs)) /\
    (Cli.disabled c Cli.MGlyphStats = true \/ cs = [] ->
       Statistics.st_fontName st = [] /\ Statistics.st_fontSize st = dzero /\ Statistics.st_charWidth st = dzero /\ Statistics.st_charHeight st = dzero).
Proof.
  intros m cfg c es code d SA TE H. destruct (early_all m cfg c es code d SA TE H) as (r & d0 & d1 & d2 & d3 & d4 & d5 & d6 & d7 & d8 & EP & E0 & E1 & E2 & E3 & E4 & E5 & _ & _ & _ & N4 & EA & _).
  exists r. split; [exact EP|]. intros st cs.
  assert (FW : Statistics.st_fontName st = Statistics.st_fontName (gd_stats d1) /\ Statistics.st_fontSize st = Statistics.st_fontSize (gd_stats d1) /\
               Statistics.st_charWidth st = Statistics.st_charWidth (gd_stats d1) /\ Statistics.st_charHeight st = Statistics.st_charHeight (gd_stats d1)).
  { destruct EA as (_ & _ & A1 & A2 & A3 & A4 & _). unfold st. rewrite A1, A2, A3, A4. destruct (segmentation_keep m _ _ E5 N4) as (S5 & _). rewrite S5.
    assert (S2 : gd_stats d2 = gd_stats d1) by (destruct E2 as [[_ E2]|[_ ->]]; [exact (diacritics_stats _ _ _ E2)|reflexivity]).
    pose proof (words_stats _ _ _ _ E3) as S3. rewrite S2 in S3.
    destruct E4 as [[_ E4]|[_ ->]]; [|rewrite S3; repeat split]. unfold run_wordStats in E4.
    destruct (PropsStatistics.C51_words (m_ordD m) (proj1 (proj2 (proj2 (proj2 (proj2 (proj2 (proj2 (proj2 SA))))))))
                (map (fun p => map (word_heap (gd_words d3)) (g_words p)) (gd_pages d3)) (gd_stats d3)) as (st' & ES & _ & _ & _ & B1 & B2 & B3 & B4 & _).
    rewrite ES in E4. cbn [obind] in E4. apply Ok_inj in E4. rewrite <- E4. cbn [set_stats gd_stats]. rewrite B1, B2, B3, B4, S3. repeat split. }
  assert (CS : concat (map g_chars (gd_pages d0)) = cs).
  { rewrite E0. cbn [gd_pages]. rewrite map_map. unfold cs. rewrite flat_map_concat_map. reflexivity. }
  destruct FW as (F1 & F2 & F3 & F4). rewrite F1, F2, F3, F4. split.
  - intros EN NE LC. destruct E1 as [[_ E1]|[X _]]; [|congruence]. unfold run_glyphStats in E1.
    destruct SA as (_ & _ & _ & _ & _ & _ & HS & HD & _).
    assert (LC' : (Z.of_nat (length (concat (map g_chars (gd_pages d0)))) < 2 ^ 31)%Z) by (rewrite CS; exact LC).
    destruct (PropsStatistics.C51_glyphs (m_ordS m) (m_ordD m) HS HD (map g_chars (gd_pages d0)) (gd_stats d0) LC') as (st' & ES & _ & B & _). rewrite CS in B.
    rewrite ES in E1. cbn [obind] in E1. apply Ok_inj in E1. rewrite <- E1. cbn [set_stats gd_stats]. exact (B NE).
  - intros [DI|NE].
    + destruct E1 as [[X _]|[_ ->]]; [congruence|]. rewrite E0. repeat split.
    + destruct E1 as [[_ E1]|[_ ->]]; [|rewrite E0; repeat split]. unfold run_glyphStats in E1. destruct SA as (_ & _ & _ & _ & _ & _ & HS & HD & _).
      assert (LC' : (Z.of_nat (length (concat (map g_chars (gd_pages d0)))) < 2 ^ 31)%Z) by (rewrite CS, NE; reflexivity).
      destruct (PropsStatistics.C51_glyphs (m_ordS m) (m_ordD m) HS HD (map g_chars (gd_pages d0)) (gd_stats d0) LC') as (st' & ES & B & _). rewrite CS in B.
      rewrite ES in E1. cbn [obind] in E1. apply Ok_inj in E1. rewrite <- E1. cbn [set_stats gd_stats]. rewrite (B NE), E0. repeat split.
Qed.
Print Assumptions C81_glyphs.

(** Words: a most frequent height, a most frequent gap and a most frequent leading of the words of the result. *)
Theorem C81_words : forall m wcfg c es code d, sane m -> text_enabled c -> process_pdf m wcfg c es = Ok (code, d) ->
  let st := gd_stats d in let pages := map (page_words d) (gd_pages d) in
  (Cli.disabled c Cli.MWordStats = false ->
     frequent_or (Statistics.st_wordHeight st) dzero (word_heights (Statistics.st_fontSize st) pages) /\
     frequent_or (Statistics.st_wordDist st) dzero (word_gaps (Statistics.st_fontSize st) pages) /\
     frequent_or (Statistics.st_estLineDist st) dzero (word_leadings (Statistics.st_fontSize st) pages)) /\
  (Cli.disabled c Cli.MWordStats = true -> Statistics.st_wordHeight st = dzero /\ Statistics.st_wordDist st = dzero /\ Statistics.st_estLineDist st = dzero).
Proof.
  intros m cfg c es code d SA TE H st pages. destruct (early_all m cfg c es code d SA TE H) as (r & d0 & d1 & d2 & d3 & d4 & d5 & d6 & d7 & d8 & _ & E0 & E1 & E2 & E3 & E4 & E5 & _ & _ & _ & N4 & EA & _).
  pose proof (pages_similar _ _ EA) as SI.
  assert (I3 : Statistics.st_wordHeight (gd_stats d3) = dzero /\ Statistics.st_wordDist (gd_stats d3) = dzero /\ Statistics.st_estLineDist (gd_stats d3) = dzero).
  { rewrite (words_stats _ _ _ _ E3). assert (S2 : gd_stats d2 = gd_stats d1) by (destruct E2 as [[_ E2]|[_ ->]]; [exact (diacritics_stats _ _ _ E2)|reflexivity]). rewrite S2.
    destruct E1 as [[_ E1]|[_ ->]]; [|rewrite E0; repeat split]. unfold run_glyphStats in E1. match type of E1 with obind ?x _ = _ => destruct x as [s1| |] eqn:EG; try discriminate end.
    cbn [obind] in E1. apply Ok_inj in E1. subst d1. cbn [set_stats gd_stats]. unfold Statistics.glyphStatistics in EG.
    match type of EG with obind ?x _ = _ => destruct x as [g| |]; try discriminate end. cbn [obind] in EG. destruct (_ =? 0)%Z; [apply Ok_inj in EG; subst s1; rewrite E0; repeat split|].
    match type of EG with obind ?x _ = _ => destruct x as [g1| |]; try discriminate end. cbn [obind] in EG. match type of EG with obind ?x _ = _ => destruct x as [g2| |]; try discriminate end.
    cbn [obind] in EG. apply Ok_inj in EG. subst s1. rewrite E0. repeat split. }
  destruct EA as (_ & _ & _ & _ & A3 & _ & A5 & A6 & A7). destruct (segmentation_keep m _ _ E5 N4) as (S5 & W5 & K5). rewrite S5 in *. fold st in A3, A5, A6, A7. destruct I3 as (I31 & I32 & I33).
  assert (P5 : map (page_words d5) (gd_pages d5) = map (page_words d4) (gd_pages d4)).
  { clear -W5 K5. unfold page_words, the_word. rewrite W5. induction K5 as [|p p' l l' [(_ & X & _) _] _ IH]; cbn [map]; [reflexivity|]. rewrite X, IH. reflexivity. }
  rewrite P5 in SI. split.
  - intros EN. destruct E4 as [[_ E4]|[X _]]; [|congruence]. pose proof (wordStats_inv m _ _ E4) as (P4 & W4 & _). unfold run_wordStats in E4.
    destruct (PropsStatistics.C51_words (m_ordD m) (proj1 (proj2 (proj2 (proj2 (proj2 (proj2 (proj2 (proj2 SA))))))))
                (map (fun p => map (word_heap (gd_words d3)) (g_words p)) (gd_pages d3)) (gd_stats d3)) as (st' & ES & B1 & B2 & B3 & _ & _ & B4 & _).
    rewrite ES in E4. cbn [obind] in E4. apply Ok_inj in E4.
    assert (PG : map (fun p => map (word_heap (gd_words d3)) (g_words p)) (gd_pages d3) = map (page_words d4) (gd_pages d4)).
    { rewrite P4. unfold page_words, the_word. rewrite W4. reflexivity. }
    assert (SS : gd_stats d4 = st') by (rewrite <- E4; reflexivity).
    rewrite PG, I31, I32, I33 in *. rewrite SS in *. rewrite A3, A5, A6, A7, B4. unfold pages. rewrite <- (heights_similar _ _ _ SI), <- (gaps_similar _ _ _ SI), <- (leadings_similar _ _ _ SI).
    split; [exact B1|]. split; [exact B2|exact B3].
  - intros DI. destruct E4 as [[X _]|[_ ->]]; [congruence|]. rewrite A5, A6, A7. split; [exact I31|]. split; [exact I32|exact I33].
Qed.
Print Assumptions C81_words.

Lemma final_rest d d' : rest d d' -> final_lines d' = concat (map (fun p => map (fun s => map (stat_line d) (sg_lines s)) (g_segs p)) (gd_pages d)).
Proof.
  intros (K & _ & _ & L). unfold final_lines. rewrite flat_map_concat_map. f_equal.
  assert (EQ : forall i, (gl_line (final_line d' i), gl_box (final_line d' i)) = (gl_line (nth i (gd_lines d) no_line), gl_box (nth i (gd_lines d) no_line))).
  { intros i. unfold final_line. rewrite <- (map_nth (fun l => (gl_line l, gl_box l)) (gd_lines d')), <- (map_nth (fun l => (gl_line l, gl_box l)) (gd_lines d)), L. reflexivity. }
  induction K as [|p p' ps ps' [_ S0] _ IH]; cbn [map]; [reflexivity|]. rewrite IH, S0. f_equal. apply map_ext. intros s. apply map_ext. intros i. specialize (EQ i). apply pair_equal_spec in EQ as [E1 E2].
  unfold stat_line. rewrite E1, E2. reflexivity.
Qed.
(** Lines: the distances of the lines of the result. *)
Theorem C81_lines : forall m wcfg c es code d, sane m -> (forall l, Permutation l (m_ordF m l)) -> text_enabled c -> process_pdf m wcfg c es = Ok (code, d) ->
  let st := gd_stats d in let segs := final_lines d in
  (Cli.disabled c Cli.MLineStats = false ->
     (forall e, In e (neighbours segs) -> is_nan_d (Statistics.sn_fontSize (snd e)) = false) ->
     (N.of_nat (length (neighbours segs)) < 2 ^ 32)%N -> (forall x, In x (line_distances segs) -> is_nan_d x = false) ->
     frequent_or (Statistics.st_lineDist st) dzero (line_distances segs) /\
     ForallOrdPairs (fun a b => deq (fst a) (fst b) = false) (Statistics.st_lineDistPer st) /\
     (forall fs x, In (fs, x) (Statistics.st_lineDistPer st) -> most_frequent deq x (distances_at fs segs)) /\
     (forall e, In e (line_pairs segs) -> same_size e = true -> exists fs x, In (fs, x) (Statistics.st_lineDistPer st) /\ deq fs (Statistics.sn_fontSize (snd e)) = true)) /\
  (Cli.disabled c Cli.MLineStats = true -> Statistics.st_lineDist st = dzero /\ Statistics.st_lineDistPer st = []).
Proof.
  intros m cfg c es code d SA HF TE H st segs. destruct (early_all m cfg c es code d SA TE H) as (r & d0 & d1 & d2 & d3 & d4 & d5 & d6 & d7 & d8 & _ & E0 & E1 & E2 & E3 & E4 & E5 & E6 & E7 & E8 & N4 & _ & RE).
  pose proof (final_rest _ _ RE) as FR. fold segs in FR. destruct RE as (_ & _ & SS & _). unfold st. rewrite SS.
  assert (I7 : Statistics.st_lineDist (gd_stats d7) = dzero /\ Statistics.st_lineDistPer (gd_stats d7) = []).
  { assert (S7 : gd_stats d7 = gd_stats d6). { destruct E7 as [[_ E7]|[_ ->]]; [|reflexivity]. unfold run_scripts in E7. destruct (Scripts.detectScripts _ _ _). apply Ok_inj in E7. subst d7. reflexivity. }
    rewrite S7. destruct (lines_keep m d5 d6 SA E6) as (_ & _ & S6). rewrite S6. destruct (segmentation_keep m _ _ E5 N4) as (S5 & _). rewrite S5.
    assert (S4 : Statistics.st_lineDist (gd_stats d4) = Statistics.st_lineDist (gd_stats d3) /\ Statistics.st_lineDistPer (gd_stats d4) = Statistics.st_lineDistPer (gd_stats d3)).
    { destruct E4 as [[_ E4]|[_ ->]]; [|split; reflexivity]. unfold run_wordStats in E4.
      destruct (PropsStatistics.C51_words (m_ordD m) (proj1 (proj2 (proj2 (proj2 (proj2 (proj2 (proj2 (proj2 SA))))))))
                (map (fun p => map (word_heap (gd_words d3)) (g_words p)) (gd_pages d3)) (gd_stats d3)) as (st' & ES & _ & _ & _ & _ & _ & _ & _ & B1 & B2).
      rewrite ES in E4. cbn [obind] in E4. apply Ok_inj in E4. rewrite <- E4. split; assumption. }
    destruct S4 as [S41 S42]. rewrite S41, S42, (words_stats _ _ _ _ E3).
    assert (S2 : gd_stats d2 = gd_stats d1) by (destruct E2 as [[_ E2]|[_ ->]]; [exact (diacritics_stats _ _ _ E2)|reflexivity]). rewrite S2.
    destruct E1 as [[_ E1]|[_ ->]]; [|rewrite E0; repeat split]. unfold run_glyphStats in E1. match type of E1 with obind ?x _ = _ => destruct x as [s1| |] eqn:EG; try discriminate end.
    cbn [obind] in E1. apply Ok_inj in E1. subst d1. cbn [set_stats gd_stats]. unfold Statistics.glyphStatistics in EG.
    match type of EG with obind ?x _ = _ => destruct x as [g| |]; try discriminate end. cbn [obind] in EG. destruct (_ =? 0)%Z; [apply Ok_inj in EG; subst s1; rewrite E0; repeat split|].
    match type of EG with obind ?x _ = _ => destruct x as [g1| |]; try discriminate end. cbn [obind] in EG. match type of EG with obind ?x _ = _ => destruct x as [g2| |]; try discriminate end.
    cbn [obind] in EG. apply Ok_inj in EG. subst s1. rewrite E0. repeat split. }
  destruct I7 as [I71 I72]. split.
  - intros EN H1 H2 H3. destruct E8 as [[_ E8]|[X _]]; [|congruence]. pose proof (lineStats_inv m _ _ E8) as (P8 & _ & L8). unfold run_lineStats in E8.
    assert (FE : concat (map (fun p => map (fun s => map (stat_line d7) (sg_lines s)) (g_segs p)) (gd_pages d7)) = segs).
    { rewrite FR, P8. unfold stat_line. rewrite L8. reflexivity. }
    destruct (PropsStatistics.C51_lines (m_ordD m) (proj1 (proj2 (proj2 (proj2 (proj2 (proj2 (proj2 (proj2 SA)))))))) (m_ordF m) HF
                (map (fun p => map (fun s => map (stat_line d7) (sg_lines s)) (g_segs p)) (gd_pages d7)) (gd_stats d7)) as (st' & ES & B1 & B2 & B3 & B4 & _);
      [rewrite FE; exact H1|rewrite FE; exact H2|rewrite FE; exact H3|exact I72|].
    rewrite FE, I71 in *. rewrite ES in E8. cbn [obind] in E8. apply Ok_inj in E8. rewrite <- E8. cbn [set_stats gd_stats]. split; [exact B1|]. split; [exact B2|]. split; [exact B3|exact B4].
  - intros DI. destruct E8 as [[X _]|[_ ->]]; [congruence|]. split; [exact I71|exact I72].
Qed.
Print Assumptions C81_lines.

(** Segments: those that the page segmentation (C30, C31) finds on the page with the statistics of the result. *)
Theorem C81_segments : forall m wcfg c es code d, sane m -> text_enabled c -> process_pdf m wcfg c es = Ok (code, d) ->
  forall p, In p (gd_pages d) -> exists q r, seen_page d p q /\
    PageSegmentation.processPage (m_sortP m) (m_topP m)
      (PageSegmentation.default_config (PageSegmentation.mkPS (Statistics.st_wordDist (gd_stats d)) (Statistics.st_charWidth (gd_stats d)) (Statistics.st_charHeight (gd_stats d)))) q = Some (Ok r) /\
    Forall2 found_segment (fst r) (g_segs p).
Proof.
  intros m cfg c es code d SA TE H p Hp. destruct (early_all m cfg c es code d SA TE H) as (r & d0 & d1 & d2 & d3 & d4 & d5 & d6 & d7 & d8 & _ & E0 & E1 & E2 & E3 & E4 & E5 & E6 & E7 & E8 & N4 & EA & _).
  destruct EA as (K & W & A1 & A2 & _ & _ & A5 & _). destruct (segmentation_keep m _ _ E5 N4) as (S5 & W5 & K5). rewrite S5 in *. rewrite A1, A2, A5.
  destruct (TotalWhole.F2_in_r _ _ _ _ K Hp) as (p5 & Hp5 & ST & SG). destruct (TotalWhole.F2_in_r _ _ _ _ K5 Hp5) as (p4 & Hp4 & ST4 & (x & EX & ES)).
  pose proof (still_trans _ _ _ ST4 ST) as (_ & T1 & T2 & T3 & T4). rewrite W5 in W.
  exists (page_elems (gd_words d4) p4), x. split; [|split; [exact EX|]].
  - unfold seen_page, page_elems. cbn [PageSegmentation.pp_words PageSegmentation.pp_figures PageSegmentation.pp_graphics PageSegmentation.pp_shapes]. rewrite T1, T2, T3, T4, !map_map.
    split; [apply map_id|]. split; [apply map_ext; intros i; exact (proj1 (core_w _ _ (eq_sym W) i))|].
    split; [apply map_ext; intros i; cbn [PageSegmentation.pe_word]; f_equal; exact (proj2 (proj2 (core_w _ _ (eq_sym W) i)))|].
    split; [reflexivity|]. split; [reflexivity|]. split; [reflexivity|].
    intros e He. rewrite !in_app_iff in He. destruct He as [He|[He|He]]; apply in_map_iff in He as (y & <- & _); reflexivity.
  - rewrite ES in SG. clear -SG. revert SG. generalize (g_segs p). induction (fst x) as [|s l IH]; intros l' SG; inversion SG as [|? s' ? l1 [X Y] SG']; subst; constructor; [|apply IH; exact SG'].
    split; [rewrite X; reflexivity|rewrite Y; reflexivity].
Qed.
Print Assumptions C81_segments.

(** ** Emphasis *)
Lemma font_known d name : Blocks.font_of (block_doc d) name = option_map font_info (Parsing.find_font name (gd_fonts d)).
Proof.
  unfold Blocks.font_of, Parsing.find_font, block_doc, all_fonts. cbn [Blocks.bd_fonts]. induction (gd_fonts d) as [|[n x] l IH]; cbn [map find fst snd]; [reflexivity|].
  destruct (str_eqb n name); [reflexivity|exact IH].
Qed.
Lemma emphasis_here d text name size : BlocksSpec.emphasized (block_doc d) text name size <->
  exists df ef, Parsing.find_font (Statistics.st_fontName (gd_stats d)) (gd_fonts d) = Some df /\ Parsing.find_font name (gd_fonts d) = Some ef /\
    (larger size (Statistics.st_fontSize (gd_stats d)) (dZ 1) = true \/
     (equalOrLarger size (Statistics.st_fontSize (gd_stats d)) (dZ 1) = true /\ larger (dZ (Fonts.f_weight ef)) (dZ (Fonts.f_weight df)) (dZ 100) = true) \/
     (equalOrLarger size (Statistics.st_fontSize (gd_stats d)) (dZ 1) = true /\ Fonts.f_italic ef = true) \/
     ((exists c, In c text /\ BlocksSpec.letter c) /\ forall c, In c text -> ~ BlocksSpec.lower_letter c)).
Proof.
  unfold BlocksSpec.emphasized. change (Blocks.bd_fontName (block_doc d)) with (Statistics.st_fontName (gd_stats d)). change (Blocks.bd_fontSize (block_doc d)) with (Statistics.st_fontSize (gd_stats d)).
  rewrite !font_known. split.
  - intros (df & ef & A & B & C). destruct (Parsing.find_font (Statistics.st_fontName (gd_stats d)) (gd_fonts d)) as [f1|]; [|discriminate].
    destruct (Parsing.find_font name (gd_fonts d)) as [f2|]; [|discriminate]. cbn [option_map] in A, B. injection A as <-. injection B as <-. exists f1, f2. split; [reflexivity|]. split; [reflexivity|exact C].
  - intros (f1 & f2 & A & B & C). rewrite A, B. exists (font_info f1), (font_info f2). split; [reflexivity|]. split; [reflexivity|exact C].
Qed.
Definition same_look (b b' : block) : Prop := b_text b' = b_text b /\ b_fontName b' = b_fontName b /\ b_fontSize b' = b_fontSize b /\ b_emph b' = b_emph b.
Lemma stands_same d d' b b' : gd_stats d' = gd_stats d -> gd_fonts d' = gd_fonts d -> same_look b b' -> (b_emph b = true <-> stands_out d b) -> (b_emph b' = true <-> stands_out d' b').
Proof. intros S0 F0 (A & B & C & D) H. unfold stands_out in *. rewrite S0, F0, A, B, C, D. exact H. Qed.
Lemma blocks_emphasis m cfg qs d d' : sane m -> inv2 cfg qs d -> run_blocks m d = Ok d' -> gd_fonts d' = gd_fonts d /\
  forall p b, In p (gd_pages d') -> In b (g_blocks p) -> (b_emph b = true <-> stands_out d' b).
Proof.
  intros SA I2 H. pose proof (blocks_keep m cfg qs d d' SA I2 H) as (_ & _ & EST & _). destruct I2 as (_ & IL & N).
  unfold run_blocks in H. destruct (Blocks.detectTextBlocks _ _ _ _ _ _ _ _ _) as [[[pre fin] lh]| |] eqn:E; try discriminate. cbn [obind] in H. apply Ok_inj in H. subst d'.
  cbn [gd_pages gd_fonts] in *. split; [reflexivity|]. destruct SA as (_ & _ & _ & _ & _ & _ & HS & HD & _).
  assert (ND : NoDup (concat (map (@concat nat) (map (fun p => map sg_lines (g_segs p)) (gd_pages d))))).
  { unfold PipelineWhole.numbered, segment_line_ids in N. rewrite map_map. replace (concat _) with (flat_map (fun p => flat_map sg_lines (g_segs p)) (gd_pages d)); [rewrite N; apply seq_NoDup|].
    rewrite flat_map_concat_map. f_equal. apply map_ext. intros p. apply flat_map_concat_map. }
  intros p b Hp Hb. apply in_map_iff in Hp as ([p0 bs] & <- & Hpb). unfold set_blocks in Hb. cbn [g_blocks] in Hb.
  assert (G0 : g_blocks p0 = []). { rewrite Forall_forall in IL. exact (proj2 (IL p0 (in_combine_l _ _ _ _ Hpb))). }
  rewrite G0 in Hb. cbn [app] in Hb. apply in_map_iff in Hb as (blk & <- & Hk).
  assert (HC : In blk (concat fin)) by (apply in_concat; exists bs; split; [exact (in_combine_r _ _ _ _ Hpb)|exact Hk]).
  destruct (PropsBlocks.C60_emphasis_and_centering _ _ _ _ _ _ _ _ _ _ _ _ blk HS HD ND E (or_intror HC)) as [X _].
  rewrite emphasis_here in X. exact X.
Qed.
Lemma role_look (bs : list block) : forall part b', In b' (map (fun '(b, r) => ContentSpec.with_role r b) (combine bs part)) -> exists b, In b bs /\ same_look b b'.
Proof.
  induction bs as [|b bs IH]; intros [|r part] b' H; cbn [combine map] in H; try destruct H as [<-|H]; try destruct H.
  - exists b. split; [left; reflexivity|repeat split].
  - destruct (IH part b' H) as (b1 & A & B). exists b1. split; [right; exact A|exact B].
Qed.
(** A block of the result is marked as emphasized exactly if it stands out from the text of the result. *)
Theorem C81_emphasis : forall m wcfg c es code d, sane m -> text_enabled c -> process_pdf m wcfg c es = Ok (code, d) ->
  forall p b, In p (gd_pages d) -> In b (g_blocks p) -> (b_emph b = true <-> stands_out d b).
Proof.
  intros m cfg c es code d SA TE H.
  destruct (steps m cfg c es code d SA TE H) as (r & d0 & d1 & d2 & d3 & d4 & d5 & d6 & d7 & d8 & d9 & da & db & _ & _ & _ & _ & _ & _ & _ & _ & _ & _ & E9 & Ea & Eb & -> & _ & _ & _ & _ & I8).
  destruct (blocks_emphasis m cfg _ d8 d9 SA I8 E9) as (_ & X9).
  assert (Xa : forall p b, In p (gd_pages da) -> In b (g_blocks p) -> (b_emph b = true <-> stands_out da b)).
  { destruct Ea as [[_ Ea]|[_ ->]]; [|exact X9]. destruct (readingOrder_parts m d9 da Ea) as (roles & parts & _ & _ & LP & F & _ & EF & ES & _).
    intros p b Hp Hb. destruct (TotalWhole.F2_in_r _ _ _ _ F Hp) as ([p9 part] & Hc & _ & _ & _ & _ & q & O & EB). cbn [fst snd] in *.
    destruct SA as (_ & _ & _ & _ & HS & HT & _). rewrite EB in Hb.
    destruct (PropsSegmentation.C32_permutation _ _ _ _ HS HT _ _ O) as [PM _]. apply (Permutation_in b (Permutation_sym PM)) in Hb.
    destruct (role_look _ _ _ Hb) as (b9 & Hb9 & SL). exact (stands_same d9 da b9 b ES EF SL (X9 p9 b9 (in_combine_l _ _ _ _ Hc) Hb9)). }
  assert (Xb : forall p b, In p (gd_pages db) -> In b (g_blocks p) -> (b_emph b = true <-> stands_out db b)).
  { destruct Eb as [[_ Eb]|[_ ->]]; [|exact Xa]. destruct (dehyph_core _ _ _ Eb) as (_ & EP & EF). rewrite EP. intros p b Hp Hb.
    refine (stands_same da db b b _ EF _ (Xa p b Hp Hb)); [|repeat split]. unfold run_dehyphenation in Eb. apply Ok_inj in Eb. rewrite <- Eb. reflexivity. }
  intros p b Hp Hb. unfold fill_lines2 in Hp. cbn [set_pages gd_pages] in Hp. apply in_map_iff in Hp as (p0 & <- & Hp). exact (Xb p0 b Hp Hb).
Qed.
Print Assumptions C81_emphasis.

(** ** Example: the document of C75_example, two lines of text of size 10 *)
From Verif Require PropsContent.
Import PropsPipeline PropsContent.
Example C81_example : sane ex_machine /\ text_enabled ex_all /\ (forall l, Permutation l (m_ordF ex_machine l)) /\
  (forall x, In x [Cli.MGlyphStats; Cli.MWordStats; Cli.MLineStats] -> Cli.disabled ex_all x = false) /\
  exists d, ex_run ex_hyph = Ok (0%Z, d) /\
    length (concat (final_lines d)) = 2 /\ (forall l, In l (concat (final_lines d)) -> deq (Statistics.sn_fontSize l) (dZ 10) = true) /\
    length (neighbours (final_lines d)) = 1 /\ length (line_pairs (final_lines d)) = 1 /\
    (forall e, In e (neighbours (final_lines d)) -> is_nan_d (Statistics.sn_fontSize (snd e)) = false) /\
    (forall x, In x (line_distances (final_lines d)) -> is_nan_d x = false) /\
    Statistics.st_fontName (gd_stats d) <> [] /\ deq (Statistics.st_fontSize (gd_stats d)) (dZ 10) = true /\ length (Statistics.st_lineDistPer (gd_stats d)) = 1 /\
    dlt dzero (Statistics.st_charWidth (gd_stats d)) = true /\ map (fun p => map sg_words (g_segs p)) (gd_pages d) = [[[0; 1]]].
Proof.
  split; [exact ex_sane|]. split; [repeat split|]. split; [intros l; reflexivity|]. split; [intros x _; reflexivity|].
  assert (H : match ex_run ex_hyph with
    | Ok (c, d) => (c =? 0)%Z && Nat.eqb (length (concat (final_lines d))) 2 && forallb (fun l => deq (Statistics.sn_fontSize l) (dZ 10)) (concat (final_lines d)) &&
        Nat.eqb (length (neighbours (final_lines d))) 1 && Nat.eqb (length (line_pairs (final_lines d))) 1 &&
        forallb (fun e => negb (is_nan_d (Statistics.sn_fontSize (snd e)))) (neighbours (final_lines d)) &&
        forallb (fun x => negb (is_nan_d x)) (line_distances (final_lines d)) && negb (str_eqb (Statistics.st_fontName (gd_stats d)) []) &&
        deq (Statistics.st_fontSize (gd_stats d)) (dZ 10) && Nat.eqb (length (Statistics.st_lineDistPer (gd_stats d))) 1 &&
        dlt dzero (Statistics.st_charWidth (gd_stats d))
    | _ => false end = true) by (vm_compute; reflexivity).
  assert (E : match ex_run ex_hyph with Ok (_, d) => map (fun p => map sg_words (g_segs p)) (gd_pages d) | _ => [] end = [[[0; 1]]]) by (vm_compute; reflexivity).
  destruct (ex_run ex_hyph) as [[c d]| |]; try discriminate. rewrite !andb_true_iff in H. destruct H as ((((((((((Hc & A) & B) & C) & D) & F) & G) & I) & J) & K) & L).
  apply Z.eqb_eq in Hc. subst c. exists d. split; [reflexivity|]. rewrite forallb_forall in B, F, G. apply Nat.eqb_eq in A, C, D, K.
  split; [exact A|]. split; [exact B|]. split; [exact C|]. split; [exact D|].
  split; [intros e He; apply negb_true_iff, (F e He)|]. split; [intros x Hx; apply negb_true_iff, (G x Hx)|].
  split; [intros X; rewrite X in I; discriminate|]. split; [exact J|]. split; [exact K|]. split; [exact L|exact E].
Qed.
(** A document with a line of text and a heading. *)
Definition ex_heading : list Parsing.event := ex_start 1 ++ [ex_draw 50 300 20 97; ex_draw 52 300 20 98; ex_draw 50 700 10 99; ex_draw 51 700 10 100; ex_draw 52 700 10 101].
Example C81_emphasis_example : sane ex_machine /\ text_enabled ex_all /\
  exists d, ex_run ex_heading = Ok (0%Z, d) /\ map (fun p => map b_emph (g_blocks p)) (gd_pages d) = [[false; true]].
Proof.
  split; [exact ex_sane|]. split; [repeat split|].
  assert (H : match ex_run ex_heading with Ok (c, d) => (c =? 0)%Z | _ => false end = true) by (vm_compute; reflexivity).
  assert (E : match ex_run ex_heading with Ok (_, d) => map (fun p => map b_emph (g_blocks p)) (gd_pages d) | _ => [] end = [[false; true]]) by (vm_compute; reflexivity).
  destruct (ex_run ex_heading) as [[c d]| |]; try discriminate. apply Z.eqb_eq in H. subst c. exists d. split; [reflexivity|exact E].
Qed.
