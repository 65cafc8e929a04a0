(** PropsPages.v - C82: every part of the result lies on the page it belongs to, so that drawing the result never fails. *)
From Coq Require Import ZArith NArith.
From Verif Require Import Base Double MathUtils Elements Sort XYCut XYCutSpec Document LinesSpec Visualization VisualizationSpec Pipeline PipelineSpec PipelineLines PipelineProofs PipelineWords PipelineWhole
  ContentSpec PipelineContent PipelineStages StatisticsSpec WiringSpec PipelineStats PagesSpec PipelinePages PropsContent.
From Verif Require Fonts Parsing Statistics Words Lines Scripts PageSegmentation ReadingOrder Cli TotalWhole DiacriticsSpec PropsSegmentation PropsWiring PropsPipeline PropsProgram PropsVisualization.
Local Opaque TOL dadd dsub ddiv dmul dec DBL_MAX DBL_MIN.

Lemma lines_final m cfg c es code d : sane m -> text_enabled c -> process_pdf m cfg c es = Ok (code, d) ->
  Forall (fun p => lined (gd_words d) (gd_lines d) p /\ forall s i w, In s (g_segs p) -> In i (sg_lines s) -> In w (Lines.l_words (gl_line (final_line d i))) -> In w (g_words p)) (gd_pages d).
Proof.
  intros SA TE H. destruct (steps m cfg c es code d SA TE H) as (r & d0 & d1 & d2 & d3 & d4 & d5 & d6 & d7 & d8 & d9 & da & db & EP & E0 & E1 & E2 & E3 & E4 & E5 & E6 & E7 & E8 & E9 & Ea & Eb & ED & I4 & N4 & _ & G5 & I8).
  destruct (content_final m cfg c es code d SA TE H) as (r' & EP' & CO). rewrite EP in EP'. apply Ok_inj in EP'. subst r'. destruct CO as (_ & MD & _).
  pose proof (rest_all m cfg _ c d8 d9 da db SA I8 E9 Ea Eb) as R. rewrite <- ED in R.
  destruct (early_all m cfg c es code d SA TE H) as (r' & e0 & e1 & e2 & e3 & e4 & e5 & e6 & e7 & e8 & EP' & F0 & F1 & F2 & F3 & F4 & F5 & F6 & F7 & F8 & _ & EA & _).
  assert (SAME : e5 = d5).
  { rewrite EP in EP'. apply Ok_inj in EP'. subst r'. rewrite <- E0 in F0. subst e0.
    assert (OPT : forall x f a b b', opt c x f a b -> opt c x f a b' -> b = b') by (intros x f a b b' [[A B]|[A ->]] [[A' B']|[A' ->]]; congruence).
    pose proof (OPT _ _ _ _ _ F1 E1). subst e1. pose proof (OPT _ _ _ _ _ F2 E2). subst e2. assert (e3 = d3) by congruence. subst e3. pose proof (OPT _ _ _ _ _ F4 E4). subst e4. congruence. }
  subst e5. clear e0 e1 e2 e3 e4 e6 e7 e8 EP' F0 F1 F2 F3 F4 F5 F6 F7 F8.
  assert (M5 : Forall (made_page (gd_words d5)) (gd_pages d5)).
  { destruct EA as (K & W & _). clear -K W MD. symmetry in W. revert MD. induction K as [|p p' ps ps' [(_ & KW & _) _] _ IH]; intros MD; [constructor|]. inversion MD as [|? ? M1 M2]; subst.
    constructor; [|exact (IH M2)]. apply (made_core (gd_words d)); [symmetry; exact W|]. unfold made_page in *. rewrite KW in M1. exact M1. }
  pose proof (lines_made m _ _ SA M5 G5 E6) as L6.
  assert (L6' : Forall (lined (gd_words (fill_lines1 d6)) (gd_lines (fill_lines1 d6))) (gd_pages (fill_lines1 d6))).
  { unfold fill_lines1. cbn [set_pages gd_pages gd_words gd_lines]. apply Forall_forall. intros p Hp. apply in_map_iff in Hp as (p0 & <- & Hp). rewrite Forall_forall in L6. exact (L6 p0 Hp). }
  assert (L7 : Forall (lined (gd_words d7) (gd_lines d7)) (gd_pages d7)).
  { destruct E7 as [[_ E7]|[_ ->]]; [|exact L6']. destruct (core_scripts _ _ E7) as (C1 & C2 & C3). rewrite C3. apply Forall_forall. intros p Hp. rewrite Forall_forall in L6'.
    exact (lined_ext _ _ _ _ _ C1 C2 (L6' p Hp)). }
  assert (L8 : Forall (lined (gd_words d8) (gd_lines d8)) (gd_pages d8)).
  { destruct E8 as [[_ E8]|[_ ->]]; [|exact L7]. apply lineStats_inv in E8 as (P & W & L). rewrite P, W, L. exact L7. }
  destruct R as (K & W & _ & GL). assert (GL' : map gl_line (gd_lines d8) = map gl_line (gd_lines d)).
  { apply (f_equal (map fst)) in GL. rewrite !map_map in GL. cbn [fst] in GL. symmetry. exact GL. }
  destruct I8 as (_ & IL & _). symmetry in W.
  clear -K W GL' IL L8 MD. revert MD IL L8. induction K as [|p p' ps ps' [(_ & KW & _) KS] _ IH]; intros MD IL L8; [constructor|]. inversion MD as [|? ? M1 M2]; inversion IL as [|? ? J1 J2]; inversion L8 as [|? ? Q1 Q2]; subst.
  constructor; [|exact (IH M2 J2 Q2)]. split.
  - pose proof (lined_ext _ _ _ _ _ W GL' Q1) as Q. unfold lined, finite_page in *. rewrite KW, KS. exact Q.
  - intros s i w Hs Hi Hw. rewrite KS in Hs. destruct J1 as [PM _]. assert (IW : In w (flat_map (with_parts (word_heap (gd_words d8))) (g_words p))).
    { apply (Permutation_in w (Permutation_sym PM)), in_flat_map. exists i. split; [apply in_flat_map; exists s; split; assumption|]. unfold words_of, final_line in *.
      rewrite <- (gl_ext _ _ i GL') in Hw. exact Hw. }
    rewrite KW. apply in_flat_map in IW as (j & Hj & Hw'). unfold with_parts in Hw'. destruct (w_partOf (word_heap (gd_words d8) j)); [destruct Hw'|]. destruct Hw' as [<-|Hw']; [exact Hj|].
    assert (M8 : made_page (gd_words d8) p) by (apply (made_core (gd_words d)); [symmetry; exact W|unfold made_page in *; rewrite KW in M1; exact M1]). destruct (M8 j Hj) as (_ & _ & M3). exact (M3 w Hw').
Qed.

(** Characters, figures, shapes, graphics, words and segments. *)
Theorem C82_boxes : forall m wcfg c es code d, sane m -> text_enabled c -> process_pdf m wcfg c es = Ok (code, d) ->
  forall p, In p (gd_pages d) ->
    all_on (g_num p) (map c_pos (g_chars p)) /\ all_on (g_num p) (map Parsing.fg_pos (g_figures p)) /\ all_on (g_num p) (map e_pos (g_shapes p)) /\
    all_on (g_num p) (map e_pos (g_graphics p)) /\ all_on (g_num p) (map (fun i => w_pos (the_word d i)) (g_words p)) /\ all_on (g_num p) (map sg_pos (g_segs p)).
Proof.
  intros m cfg c es code d SA TE H p Hp. destruct (content_final m cfg c es code d SA TE H) as (r & EP & CO). pose proof CO as (((PO & _) & _) & _).
  assert (ON : Forall boxes_on_page (Parsing.pages r)) by (apply (parse_on m es _ _ EP); constructor). rewrite Forall_forall in ON.
  destruct (TotalWhole.F2_in_r _ _ _ _ PO Hp) as (q & Hq & (N & _ & F1 & F2 & F3 & F)). destruct (ON q Hq) as (A & B & C & D).
  assert (W : all_on (g_num p) (map (fun i => w_pos (the_word d i)) (g_words p))).
  { intros x Hx. apply in_map_iff in Hx as (i & <- & Hi). destruct (C73_words m cfg c es code d SA TE H) as (_ & _ & W). destruct (W p i Hp Hi) as ((_ & (ch & t & _ & W1 & _) & _) & _). exact W1. }
  rewrite <- N in A, B, C, D. rewrite <- F1 in D. rewrite <- F2 in B. rewrite <- F3 in C. split; [|split; [exact D|split; [exact B|split; [exact C|split; [exact W|]]]]].
  { intros x Hx. apply in_map_iff in Hx as (ch & <- & Hc). destruct (TotalWhole.F2_in_r _ _ _ _ F Hc) as (c0 & Hc0 & SG). rewrite <- (A (c_pos c0)); [|apply in_map; exact Hc0].
    unfold DiacriticsSpec.same_glyph in SG. apply SG. }
  destruct (PropsWiring.C81_segments m cfg c es code d SA TE H p Hp) as (sp & [segs cuts] & (S1 & S2 & S3 & S4 & S5 & S6 & _) & EX & FS). cbn [fst] in FS.
  destruct SA as (HP & HT & _). destruct (PropsSegmentation.C30_partition _ _ _ HP HT sp segs cuts EX) as [PM NE].
  assert (EL : forall e, In e (PageSegmentation.pp_words sp ++ PageSegmentation.pp_figures sp ++ PageSegmentation.pp_graphics sp ++ PageSegmentation.pp_shapes sp) -> pageNum (PageSegmentation.pe_pos e) = g_num p).
  { intros e He. rewrite !in_app_iff in He. destruct He as [He|[He|[He|He]]]; apply (in_map PageSegmentation.pe_pos) in He.
    - rewrite S2 in He. exact (W _ He).
    - rewrite S4 in He. exact (D _ He).
    - rewrite S5 in He. exact (C _ He).
    - rewrite S6 in He. exact (B _ He). }
  intros x Hx. apply in_map_iff in Hx as (s & <- & Hs). destruct (TotalWhole.F2_in_r _ _ _ _ FS Hs) as (s0 & Hs0 & ES & _). rewrite ES. destruct (NE s0 Hs0) as (e0 & rest & EE & ->).
  apply EL. apply (Permutation_in e0 (Permutation_sym PM)), in_concat. exists (PageSegmentation.seg_elements s0). split; [apply in_map; exact Hs0|rewrite EE; left; reflexivity].
Qed.
Print Assumptions C82_boxes.

(** The lines of the segments, if the coordinates of the characters are numbers. *)
Theorem C82_lines : forall m wcfg c es code d, sane m -> text_enabled c -> process_pdf m wcfg c es = Ok (code, d) ->
  forall p s i, In p (gd_pages d) -> In s (g_segs p) -> In i (sg_lines s) -> let l := gl_line (final_line d i) in
  (forall w, In w (Lines.l_words l) -> In w (g_words p)) /\
  ((forall ch, In ch (visible_chars p) -> finite_box (c_pos ch)) ->
     Lines.l_words l <> [] /\ pageNum (Lines.l_pos l) = g_num p /\ smallest_box (Lines.l_pos l) (map (fun w => w_pos (the_word d w)) (Lines.l_words l)) /\
     exists w, In w (Lines.l_words l) /\ forall l1 x l2 y l3, Lines.l_words l = l1 ++ x :: l2 ++ y :: l3 ->
       read_before (rotation (w_pos (the_word d w))) (w_pos (the_word d y)) (w_pos (the_word d x)) = false).
Proof.
  intros m cfg c es code d SA TE H p s i Hp Hs Hi l. pose proof (lines_final m cfg c es code d SA TE H) as LF. rewrite Forall_forall in LF. destruct (LF p Hp) as [LI LW].
  split; [exact (fun w => LW s i w Hs Hi)|]. intros F. destruct (content_final m cfg c es code d SA TE H) as (r & EP & CO).
  pose proof (page_finite m cfg es d r EP CO p Hp F) as FP. destruct (LI FP i) as (A & (w & B1 & B2 & B3) & C & _); [apply in_flat_map; exists s; split; assumption|].
  split; [exact A|]. destruct (C82_boxes m cfg c es code d SA TE H p Hp) as (_ & _ & _ & _ & W & _). split; [|split; [exact C|exists w; split; [exact B1|exact B3]]].
  change (pageNum (Lines.l_pos (gl_line (final_line d i))) = g_num p). unfold final_line. rewrite B2. apply W. apply (in_map (fun i => w_pos (the_word d i))). exact (LW s i w Hs Hi B1).
Qed.
Print Assumptions C82_lines.

Lemma ro_cuts_here (impl : (ReadingOrder.relem -> ReadingOrder.relem -> bool) -> list ReadingOrder.relem -> list ReadingOrder.relem) top (HI : sort_ok impl) n cw ch el r :
  all_on n (map ReadingOrder.re_pos el) -> ReadingOrder.ro_groups impl top cw ch el = Some (Ok r) -> forall c, In c (snd r) -> cut_page c = n.
Proof.
  intros A H. unfold ReadingOrder.ro_groups in H. cbv zeta in H.
    assert (HE : here ReadingOrder.re_pos n el) by (apply Forall_forall; intros e He; apply A, in_map, He).
    match type of H with rbind (Some ?x) _ = _ => destruct x as [[[ok xg] xc]| |] eqn:EX; try discriminate end. cbn [rbind] in H. destruct (xCut_here _ _ _ (HI) n _ _ _ _ _ _ _ HE EX) as [XG XC].
    match type of H with rbind ?x _ = _ => destruct x as [[r1| |]|] eqn:E1; try discriminate end. cbn [rbind] in H. assert (H' : (fst r1, xc ++ snd r1) = r) by congruence. subst r. cbn [snd].
    apply Forall_forall, Forall_app. split; [exact XC|]. apply (for_groups_here ReadingOrder.re_pos n) in E1; [exact (proj2 E1)|exact XG|]. clear E1 H XG XC EX HE A.
    intros g r' Hg H. cbv beta in H. match type of H with match ?x with _ => _ end = _ => destruct x as [[[ok2 yg] yc]| |] eqn:EY; try discriminate end. cbn [rbind] in H. destruct (yCut_here _ _ (HI) n _ _ _ _ _ _ Hg EY) as [YG YC].
    match type of H with rbind ?x _ = _ => destruct x as [[r2| |]|] eqn:E2; try discriminate end. cbn [rbind] in H. assert (H' : (fst r2, yc ++ snd r2) = r') by congruence. subst r'. cbn [fst snd].
    apply (for_groups_here ReadingOrder.re_pos n) in E2; [|exact YG|]. { destruct E2 as [A2 B2]. split; [exact A2|]. apply Forall_app. split; assumption. }
    intros g2 r2' Hg2. apply (xyCut_here _ _ _ (HI) n). exact Hg2.
Qed.
(** The cuts of both modules lie on the page of the elements. *)
Theorem C82_cuts : forall (impl : forall A, (A -> A -> bool) -> list A -> list A) topP topR n, (forall A, sort_ok (impl A)) ->
  (forall cfg p r, all_on n (map PageSegmentation.pe_pos (PageSegmentation.page_elements p)) ->
     PageSegmentation.processPage (impl _) topP cfg p = Some (Ok r) -> forall c, In c (snd r) -> cut_page c = n) /\
  (forall cw ch p r, all_on n (map ReadingOrder.re_pos (ReadingOrder.ro_elements p)) ->
     ReadingOrder.ro_groups (impl _) topR cw ch (ReadingOrder.ro_elements p) = Some (Ok r) -> forall c, In c (snd r) -> cut_page c = n).
Proof.
  intros impl topP topR n HI. split.
  - intros cfg p r A H. unfold PageSegmentation.processPage in H. match type of H with rbind ?x _ = _ => destruct x as [[x0| |]|] eqn:E; try discriminate end. cbn [rbind] in H.
    assert (H' : (map PageSegmentation.createPageSegment (fst x0), snd x0) = r) by congruence. subst r. cbn [snd]. apply Forall_forall. apply (xyCut_here _ _ _ (HI _) n) in E; [exact (proj2 E)|].
    apply Forall_forall. intros e He. apply A, in_map, He.
  - intros cw ch p r A. exact (ro_cuts_here _ _ (HI _) n cw ch _ r A).
Qed.
Print Assumptions C82_cuts.

Lemma drawn_page {A} (cuts : list (XYCut.cut A)) vs n : (forall c, In c cuts -> cut_page c = n) -> Forall2 drawn_cut cuts vs -> forall v, In v vs -> vc_page v = n.
Proof. intros H F v Hv. destruct (TotalWhole.F2_in_r _ _ _ _ F Hv) as (c & Hc & (E & _)). rewrite E. exact (H c Hc). Qed.
(** Drawing the result of a run never fails. *)
Theorem C82_visualised : forall m wcfg c es code d, sane m -> text_enabled c -> Cli.disabled c Cli.MReadingOrder = false ->
  (forall x y, snd (m_network m x y) <= 14) -> process_pdf m wcfg c es = Ok (code, d) ->
  (forall p ch, In p (gd_pages d) -> In ch (visible_chars p) -> finite_box (c_pos ch)) ->
  forall media enc requested vs, (forall p, In p (gd_pages d) -> media (g_num p) <> None) -> Forall2 (pictured m d) (gd_pages d) vs ->
    exists annots, visualize_all media enc requested vs = Ok annots.
Proof.
  intros m cfg c es code d SA TE RO HN H FI media enc requested vs ME PI.
  assert (DR : drawable media vs).
  { intros v Hv. destruct (TotalWhole.F2_in_r _ _ _ _ PI Hv) as (p & Hp & (P1 & P2 & P3 & P4 & P5 & P6 & P7 & (q & r & SP & EX & FC) & (bs & r' & PB & EO & FO))).
    destruct (C82_boxes m cfg c es code d SA TE H p Hp) as (A1 & A2 & A3 & A4 & A5 & A6). specialize (ME p Hp). specialize (FI p).
    assert (BL : forall b, In b (g_blocks p) -> pageNum (b_pos b) = g_num p).
    { intros b Hb. destruct (C73_blocks m cfg c es code d SA TE H p b Hp Hb) as (_ & _ & _ & FW). apply (FW (fun ch => FI ch Hp)). }
    split; [|split; [|split]].
    - intros x Hx. rewrite P1, P2, P3, P4, P5, !in_app_iff in Hx. assert (E : pageNum x = g_num p) by (destruct Hx as [Hx|[Hx|[Hx|[Hx|Hx]]]]; auto). rewrite E. exact ME.
    - intros g Hg. destruct (TotalWhole.F2_in_r _ _ _ _ P6 Hg) as (s & Hs & E1 & E2). split; [rewrite E1, (A6 (sg_pos s) (in_map sg_pos _ _ Hs)); exact ME|].
      intros x Hx. rewrite E2 in Hx. apply in_map_iff in Hx as (i & <- & Hi). destruct (C82_lines m cfg c es code d SA TE H p s i Hp Hs Hi) as (_ & L). destruct (L (fun ch => FI ch Hp)) as (_ & -> & _). exact ME.
    - intros b Hb. destruct (TotalWhole.F2_in_r _ _ _ _ P7 Hb) as (b0 & Hb0 & E1 & E2). rewrite E1, E2. split; [rewrite (BL b0 Hb0); exact ME|].
      exact (PropsProgram.roles_lt m cfg c es code d SA TE RO HN H p b0 Hp Hb0).
    - intros x Hx. assert (E : vc_page x = g_num p); [|rewrite E; exact ME]. destruct SA as (HP & _ & _ & _ & HR & _). apply in_app_or in Hx as [Hx|Hx].
      + refine (drawn_page _ _ _ _ FC x Hx). intros cu Hc. unfold PageSegmentation.processPage in EX. match type of EX with rbind ?x _ = _ => destruct x as [[x0| |]|] eqn:E; try discriminate end. cbn [rbind] in EX.
        assert (H' : (map PageSegmentation.createPageSegment (fst x0), snd x0) = r) by congruence. subst r. cbn [snd] in *. apply (xyCut_here _ _ _ HP (g_num p)) in E.
        { destruct E as [_ E]. unfold cuts_here in E. rewrite Forall_forall in E. exact (E cu Hc). }
        apply Forall_forall. intros e He. destruct SP as (_ & S2 & _ & S4 & S5 & S6 & _). unfold PageSegmentation.page_elements in He. rewrite !in_app_iff in He.
        destruct He as [He|[He|[He|He]]]; apply (in_map PageSegmentation.pe_pos) in He; [rewrite S2 in He; exact (A5 _ He)|rewrite S4 in He; exact (A2 _ He)|rewrite S5 in He; exact (A4 _ He)|rewrite S6 in He; exact (A3 _ He)].
      + refine (drawn_page _ _ _ _ FO x Hx). refine (ro_cuts_here _ _ HR (g_num p) _ _ _ _ _ EO). intros y Hy. unfold ReadingOrder.ro_elements in Hy. cbn [doc_page set_blocks p_blocks p_figures p_shapes g_num g_figures g_shapes g_blocks] in Hy.
        rewrite !map_app, !map_map, !in_app_iff in Hy. cbn [ReadingOrder.re_pos] in Hy. destruct Hy as [Hy|[Hy|Hy]].
        * apply (Permutation_in y PB) in Hy. apply in_map_iff in Hy as (b & <- & Hb). exact (BL b Hb).
        * apply in_map_iff in Hy as (e & <- & He). unfold figure_elem in He. apply in_map_iff in He as ([k f] & <- & Hf). apply in_combine_r in Hf. cbn [e_pos]. apply A2, in_map, Hf.
        * apply A3, Hy. }
  destruct (PropsVisualization.C80_all media enc requested vs DR) as (ls & E & _). exists (concat ls). exact E.
Qed.
Print Assumptions C82_visualised.

(** There is such a picture of every result. *)
Definition a_cut {A} (c : XYCut.cut A) : vcut := mkVCut [] true (cut_page c) (cut_x1 c) (cut_y1 c) (cut_x2 c) (cut_y2 c) (cut_chosen c).
Theorem C82_picture : forall m wcfg c es code d, sane m -> text_enabled c -> Cli.disabled c Cli.MReadingOrder = false ->
  process_pdf m wcfg c es = Ok (code, d) -> exists vs, Forall2 (pictured m d) (gd_pages d) vs.
Proof.
  intros m cfg c es code d SA TE RO H.
  assert (P : forall p, In p (gd_pages d) -> exists v, pictured m d p v).
  { intros p Hp. destruct (PropsWiring.C81_segments m cfg c es code d SA TE H p Hp) as (q & r & SP & EX & _).
    assert (OR : exists bs r', Permutation (map b_pos bs) (map b_pos (g_blocks p)) /\
      ReadingOrder.ro_groups (m_sortR m) (m_topR m) (Statistics.st_charWidth (gd_stats d)) (Statistics.st_charHeight (gd_stats d)) (ReadingOrder.ro_elements (doc_page m (set_blocks bs p))) = Some (Ok r')).
    { destruct (stages m cfg c es code d SA TE H) as (rr & d9 & da & db & _ & _ & _ & Ha & Hb & _ & ED).
      destruct Ha as [[_ Ha]|[X _]]; [|congruence]. destruct (readingOrder_parts m d9 da Ha) as (roles & parts & _ & _ & _ & F & _ & _ & ST & _).
      assert (EQ : gd_pages db = gd_pages da /\ gd_stats db = gd_stats da).
      { destruct Hb as [[_ Hb]|[_ ->]]; [|split; reflexivity]. split; [apply (dehyph_core _ _ _ Hb)|]. unfold run_dehyphenation in Hb. apply Ok_inj in Hb. subst db. reflexivity. }
      destruct EQ as [EQ ES]. subst d. unfold fill_lines2 in *. cbn [set_pages gd_pages gd_stats] in *. rewrite EQ in Hp. apply in_map_iff in Hp as (p1 & <- & Hp1).
      destruct (TotalWhole.F2_in_r _ _ _ _ F Hp1) as ([p0 part] & _ & (_ & K & _ & _ & q' & O & EB)). rewrite ES, ST.
      destruct SA as (_ & _ & _ & _ & HS & HT & _). destruct (PropsSegmentation.C32_permutation _ _ _ _ HS HT _ _ O) as [PM _].
      destruct K as (K1 & K2 & _ & K3 & K4 & _). set (bs := map (fun '(b, r) => with_role r b) (combine (g_blocks p0) part)) in *.
      unfold ReadingOrder.order_page in O. match type of O with rbind ?x _ = _ => destruct x as [[r1| |]|] eqn:EG; try discriminate end.
      exists bs, r1. split.
      - cbn [set_textLines g_blocks]. rewrite EB. apply Permutation_map. exact PM.
      - rewrite <- EG. unfold doc_page, set_textLines, set_blocks. cbn [g_num g_clip g_figures g_shapes g_blocks]. rewrite K1, K2, K3, K4. reflexivity. }
    destruct OR as (bs & r' & PB & EO).
    assert (DC : forall A (l : list (XYCut.cut A)), Forall2 drawn_cut l (map a_cut l)) by (intros A l; apply F2_map_r; intros x; repeat split).
    exists (mkVPage (map c_pos (g_chars p)) (map Parsing.fg_pos (g_figures p)) (map e_pos (g_shapes p)) (map e_pos (g_graphics p)) (map (fun i => w_pos (the_word d i)) (g_words p))
      (map (fun s => mkVSeg (sg_pos s) (map (fun i => Lines.l_pos (gl_line (final_line d i))) (sg_lines s)) []) (g_segs p)) (map (fun b => mkVBlock (b_pos b) (b_role b)) (g_blocks p))
      (map a_cut (snd r)) (map a_cut (snd r'))).
    unfold pictured. cbn [vp_chars vp_figures vp_shapes vp_graphics vp_words vp_segments vp_blocks vp_segmentCuts vp_readingOrderCuts].
    do 5 (split; [reflexivity|]). split; [apply F2_map_r; intros s; split; reflexivity|]. split; [apply F2_map_r; intros b; split; reflexivity|].
    split; [exists q, r; split; [exact SP|split; [exact EX|apply DC]]|]. exists bs, r'. split; [exact PB|split; [exact EO|apply DC]]. }
  clear H. induction (gd_pages d) as [|p ps IH]; [exists []; constructor|]. destruct (P p (or_introl eq_refl)) as [v Hv]. destruct IH as [vs Hvs]; [intros q Hq; apply P; right; exact Hq|].
  exists (v :: vs). constructor; assumption.
Qed.
Print Assumptions C82_picture.

(** ** Example: the document of C75_example, on page 1 *)
Import PropsPipeline.
Example C82_example : sane ex_machine /\ text_enabled ex_all /\ Cli.disabled ex_all Cli.MReadingOrder = false /\
  exists d, ex_run ex_hyph = Ok (0%Z, d) /\
    (forall p ch, In p (gd_pages d) -> In ch (visible_chars p) -> finite_box (c_pos ch)) /\
    map g_num (gd_pages d) = [1]%Z /\ map (fun p => (length (visible_chars p), length (g_words p), map sg_lines (g_segs p))) (gd_pages d) = [(6, 2, [[0; 1]])].
Proof.
  split; [exact ex_sane|]. split; [repeat split|]. split; [reflexivity|].
  assert (H : match ex_run ex_hyph with
    | Ok (c, d) => (c =? 0)%Z && forallb (fun p => forallb (fun ch => finite_b (c_pos ch)) (visible_chars p)) (gd_pages d)
    | _ => false end = true) by (vm_compute; reflexivity).
  assert (E : match ex_run ex_hyph with
    | Ok (c, d) => (map g_num (gd_pages d), map (fun p => (length (visible_chars p), length (g_words p), map sg_lines (g_segs p))) (gd_pages d)) | _ => ([], []) end = ([1]%Z, [(6, 2, [[0; 1]])])) by (vm_compute; reflexivity).
  destruct (ex_run ex_hyph) as [[c d]| |]; try discriminate. apply andb_true_iff in H as [Hc H]. apply Z.eqb_eq in Hc. subst c. rewrite forallb_forall in H.
  exists d. split; [reflexivity|]. split; [|injection E as E1 E2; split; assumption]. intros p ch Hp Hc. specialize (H p Hp). rewrite forallb_forall in H. exact (finite_check _ (H ch Hc)).
Qed.
