(** PropsScripted.v - C85: sub- and superscripts of the resulting document. *)
From Coq Require Import ZArith NArith.
From Verif Require Import Base Double MathUtils Elements Sort XYCut Document GeometrySpec LinesSpec Pipeline PipelineSpec PipelineLines PipelineProofs PipelineWords PipelineWhole
  PipelineContent PipelineStages PipelineStats ContentSpec WiringSpec ScriptsSpec ScriptedSpec PipelineScripts.
From Verif Require Fonts Parsing Statistics DiacriticsSpec Words Lines LinesDefined Scripts ScriptsProofs Roles Cli TotalWhole PropsScripts PropsLines PropsContent PropsPages PropsPipeline.
Import PropsPipeline.
Local Opaque TOL dadd dsub ddiv dmul dec DBL_MAX DBL_MIN.

(** What the detection of scripts gets to see, and what stays of its result. *)
Lemma scripted m cfg c es code d : sane m -> text_enabled c -> process_pdf m cfg c es = Ok (code, d) ->
  exists d6 d7, opt c Cli.MScripts run_scripts d6 d7 /\ PipelineWhole.numbered d6 /\ words_unflagged d6 /\ Forall (fun l => gl_box l = Scripts.bbox_default) (gd_lines d6) /\
    length (gd_words d6) = length (gd_words d) /\ map w_chars (gd_words d) = map w_chars (gd_words d7) /\ body_fontSize d = Statistics.st_fontSize (gd_stats d6) /\
    map (fun l => (gl_line l, gl_box l)) (gd_lines d) = map (fun l => (gl_line l, gl_box l)) (gd_lines d7) /\ map gl_line (gd_lines d7) = map gl_line (gd_lines d6) /\
    (forall i, map PipelineSpec.plain (w_chars (word_heap (gd_words d6) i)) = map PipelineSpec.plain (w_chars (the_word d i))) /\
    PipelineWhole.numbered d /\ Forall (block_lines (gd_lines d)) (gd_pages d) /\ Forall (fun p => Permutation (flat_map (with_parts (word_heap (gd_words d))) (g_words p)) (flat_map (words_of (gd_lines d)) (flat_map sg_lines (g_segs p)))) (gd_pages d).
Proof.
  intros SA TE H. destruct (steps m cfg c es code d SA TE H) as (r & d0 & d1 & d2 & d3 & d4 & d5 & d6 & d7 & d8 & d9 & da & db & EP & E0 & E1 & E2 & E3 & E4 & E5 & E6 & E7 & E8 & E9 & Ea & Eb & ED & I4 & N4 & _ & G5 & I8).
  destruct (segmentation_inv m cfg SA _ _ _ I4 N4 E5) as (I5 & _ & _). pose proof (lines1_inv cfg _ _ (lines_inv m cfg SA _ _ _ I5 G5 E6)) as I6.
  pose proof (rest_all m cfg _ c d8 d9 da db SA I8 E9 Ea Eb) as R. pose proof (rest_chars m cfg _ c d8 d9 da db SA I8 E9 Ea Eb) as RC. pose proof (rest_lines m cfg _ c d8 d9 da db SA I8 E9 Ea Eb) as RL.
  rewrite <- ED in R, RC, RL.
  assert (U3 : words_unflagged d3).
  { assert (PU : Forall page_unflagged (Parsing.pages r)) by (apply (parse_unflagged m es _ _ EP); constructor).
    assert (PO : Forall2 page_of (Parsing.pages r) (gd_pages d2)).
    { destruct (parsing_inv m (Parsing.pages r) es d0 r EP eq_refl) as [J0 K0]; [unfold run_parsing; rewrite EP, E0; reflexivity|].
      assert (J1 : inv0 (Parsing.pages r) d1 /\ fresh_chars d1).
      { destruct E1 as [[_ E1]|[_ ->]]; [|split; assumption]. apply glyphStats_inv in E1 as (P & W & L). unfold inv0, fresh_chars in *. rewrite P, W, L. split; assumption. }
      destruct J1 as [J1 K1]. destruct E2 as [[_ E2]|[_ ->]]; [exact (proj1 (diacritics_inv m _ _ _ J1 K1 E2))|exact (proj1 J1)]. }
    exact (words_unflagged_run m cfg _ _ _ SA PO PU E3). }
  assert (W4 : gd_words d4 = gd_words d3) by (destruct E4 as [[_ E4]|[_ ->]]; [apply wordStats_inv in E4 as (_ & W & _); exact W|reflexivity]).
  pose proof (segmentation_words m _ _ E5) as W5. destruct (lines_keep m d5 d6 SA E6) as (_ & W6 & _).
  assert (W8 : gd_words d8 = gd_words d7 /\ gd_lines d8 = gd_lines d7 /\ gd_pages d8 = gd_pages d7) by (destruct E8 as [[_ E8]|[_ ->]]; [apply lineStats_inv in E8 as (P & W & L); repeat split; assumption|repeat split]).
  destruct W8 as (W8 & L8 & P8). destruct R as (R1 & R2 & R3 & R4).
  assert (CC : map core (gd_words d7) = map core (gd_words (fill_lines1 d6)) /\ map gl_line (gd_lines d7) = map gl_line (gd_lines (fill_lines1 d6)) /\ gd_pages d7 = gd_pages (fill_lines1 d6)).
  { destruct E7 as [[_ E7]|[_ ->]]; [|repeat split]. destruct (core_scripts _ _ E7) as (A & B & C). repeat split; [symmetry; exact A|symmetry; exact B|exact C]. }
  destruct CC as (C1 & C2 & C3). exists (fill_lines1 d6), d7.
  assert (GL : map gl_line (gd_lines d) = map gl_line (gd_lines d8)) by (apply (f_equal (map fst)) in R4; rewrite !map_map in R4; exact R4).
  assert (SEG : Forall2 (fun p p' => g_words p' = g_words p /\ g_segs p' = g_segs p) (gd_pages d8) (gd_pages d)) by (refine (F2_imp _ _ _ _ _ R1); intros p p' [(_ & X & _) Y]; split; assumption).
  split; [exact E7|]. split; [apply I6|]. split; [intros w ch Hw; apply U3; rewrite <- W4, <- W5, <- W6; exact Hw|]. split; [exact (lines_box m _ _ E6)|]. split.
  { apply (f_equal (@length _)) in C1, R2. rewrite !map_length in C1, R2. rewrite R2, W8. symmetry. exact C1. }
  split; [rewrite <- W8; exact RC|]. split.
  { unfold body_fontSize. rewrite R3. transitivity (Statistics.st_fontSize (gd_stats d7)).
    - destruct E8 as [[_ E8]|[_ ->]]; [apply (lineStats_early _ _ _ E8)|reflexivity].
    - destruct E7 as [[_ E7]|[_ ->]]; [apply (scripts_early _ _ E7)|reflexivity]. }
  split; [rewrite <- L8; exact R4|]. split; [exact C2|]. split.
  { intros i. unfold the_word. change (nth i (gd_words d) no_word) with (word_heap (gd_words d) i). apply core_chars. rewrite R2, W8, C1. reflexivity. }
  assert (EL : length (gd_lines d) = length (gd_lines d8)) by (apply (f_equal (@length _)) in GL; rewrite !map_length in GL; exact GL).
  destruct I8 as (_ & IL8 & N8). split; [|split; [exact RL|]].
  - unfold PipelineWhole.numbered, segment_line_ids in *. rewrite EL, <- N8. clear -SEG. induction SEG as [|p p' l l' [_ E] _ IH]; cbn [flat_map]; [reflexivity|]. rewrite E, IH. reflexivity.
  - refine (F2_Forall _ _ _ _ _ SEG IL8 _). intros p p' [E1' E2'] [PM _]. rewrite E1', E2'. rewrite (flat_map_ext (words_of (gd_lines d)) (words_of (gd_lines d8))) by (apply words_of_ext; exact GL).
    rewrite (flat_map_ext (with_parts (word_heap (gd_words d))) (with_parts (word_heap (gd_words d8)))); [exact PM|]. intros i. pose proof (core_nth _ _ i R2) as E. unfold with_parts, word_heap.
    pose proof (f_equal w_partOf E) as Q1. pose proof (f_equal w_parts E) as Q2. cbn [core w_partOf w_parts] in Q1, Q2. rewrite Q1, Q2. reflexivity.
Qed.
Lemma nth_final d d7 i : map w_chars (gd_words d) = map w_chars (gd_words d7) -> w_chars (the_word d i) = w_chars (word_heap (gd_words d7) i).
Proof. intros E. unfold the_word, word_heap. change (w_chars (nth i (gd_words d) no_word) = w_chars (nth i (gd_words d7) no_word)). rewrite <- !(map_nth w_chars), E. reflexivity. Qed.
(** Every line of the document is on a page, and a word is only in lines of its page. *)
Lemma line_on m cfg c es code d : sane m -> text_enabled c -> process_pdf m cfg c es = Ok (code, d) -> PipelineWhole.numbered d ->
  forall p i, In p (gd_pages d) -> In i (g_words p) -> forall L, In i (words_in L) -> (In L (gd_lines d) <-> In L (lines_on d p)).
Proof.
  intros SA TE H N p i Hp Hi L Hw. unfold lines_on. rewrite in_map_iff. split.
  - intros HL. destruct (In_nth _ _ no_line HL) as (k & Hk & EK). exists k. split; [exact EK|].
    assert (IK : In k (segment_line_ids d)) by (unfold PipelineWhole.numbered in N; rewrite N; apply in_seq; lia). unfold segment_line_ids in IK. apply in_flat_map in IK as (p' & Hp' & IK).
    pose proof (PropsPages.lines_final m cfg c es code d SA TE H) as LF. rewrite Forall_forall in LF. destruct (LF p' Hp') as [_ LW].
    pose proof IK as IK2. apply in_flat_map in IK2 as (s & Hs & Hks). assert (IW : In i (g_words p')).
    { apply (LW s k i Hs Hks). unfold final_line. rewrite EK. exact Hw. }
    destruct (PropsContent.C73_words m cfg c es code d SA TE H) as (ND & _).
    destruct (In_nth_error _ _ Hp) as [a Ha]. destruct (In_nth_error _ _ Hp') as [b Hb]. assert (a = b) by (exact (in_perm_nodup g_words _ ND a b p p' i Ha Hb Hi IW)). subst b. assert (p = p') by congruence. subst p'. exact IK.
  - intros (k & <- & Hk). unfold final_line. apply nth_In.
    assert (IK : In k (segment_line_ids d)) by (unfold segment_line_ids; apply in_flat_map; exists p; split; assumption). unfold PipelineWhole.numbered in N. rewrite N in IK. apply in_seq in IK. lia.
Qed.

(** ** C85 *)

(** A character of a word is flagged as superscript (subscript) exactly if it is set small and above (below) the baseline of a line
    with this word. *)
Theorem C85_flags : forall m wcfg c es code d, sane m -> text_enabled c -> Cli.disabled c Cli.MScripts = false -> process_pdf m wcfg c es = Ok (code, d) ->
  forall p i ch, In p (gd_pages d) -> In i (g_words p) -> In ch (w_chars (the_word d i)) ->
    (c_isSuper ch = true <-> exists L, In L (lines_on d p) /\ In i (words_in L) /\ above_line d L ch) /\
    (c_isSub ch = true <-> exists L, In L (lines_on d p) /\ In i (words_in L) /\ below_line d L ch).
Proof.
  intros m cfg c es code d SA TE EN H p i ch Hp Hi Hc. destruct (scripted m cfg c es code d SA TE H) as (d6 & d7 & OP & N & U & _ & LW & EC & FS & GB & GL & _ & ND & _).
  destruct OP as [[_ E7]|[X _]]; [|congruence]. rewrite (nth_final _ _ i EC) in Hc.
  assert (HI : i < length (gd_words d6)).
  { rewrite LW. destruct (PropsContent.C73_words m cfg c es code d SA TE H) as (_ & X & _). apply X. exists p. split; assumption. }
  destruct (scripts_chars d6 d7 N U E7 i ch Hc HI) as [A B]. rewrite <- FS in A, B.
  assert (G6 : map gl_line (gd_lines d) = map gl_line (gd_lines d6)) by (rewrite <- GL; apply (f_equal (map fst)) in GB; rewrite !map_map in GB; exact GB).
  assert (T : forall P : Lines.tline -> Prop, (exists L, In L (gd_lines d6) /\ In i (Lines.l_words (gl_line L)) /\ P (gl_line L)) <-> (exists L, In L (lines_on d p) /\ In i (words_in L) /\ P (gl_line L))).
  { intros P. split.
    - intros (L & H1 & H2 & H3). apply (in_map gl_line) in H1. rewrite <- G6 in H1. apply in_map_iff in H1 as (L' & EL & HL'). exists L'. unfold words_in. rewrite EL.
      split; [apply (line_on m cfg c es code d SA TE H ND p i Hp Hi); [unfold words_in; rewrite EL; exact H2|exact HL']|split; assumption].
    - intros (L & H1 & H2 & H3). apply (line_on m cfg c es code d SA TE H ND p i Hp Hi L H2) in H1. apply (in_map gl_line) in H1. rewrite G6 in H1. apply in_map_iff in H1 as (L' & EL & HL').
      exists L'. unfold words_in in H2. rewrite EL. repeat split; assumption. }
  split.
  - rewrite A, (T (fun t => is_super (body_fontSize d) (Lines.l_base t) ch = true)). unfold above_line, is_super, small, raised, baseline. setoid_rewrite andb_true_iff. reflexivity.
  - rewrite B, (T (fun t => is_sub (body_fontSize d) (Lines.l_base t) ch = true)). unfold below_line, is_sub, small, lowered, baseline. setoid_rewrite andb_true_iff. reflexivity.
Qed.
Print Assumptions C85_flags.

(** Without the detection of scripts, no character is flagged. *)
Theorem C85_disabled : forall m wcfg c es code d, sane m -> text_enabled c -> Cli.disabled c Cli.MScripts = true -> process_pdf m wcfg c es = Ok (code, d) ->
  forall w ch, In w (gd_words d) -> In ch (w_chars w) -> c_isSuper ch = false /\ c_isSub ch = false.
Proof.
  intros m cfg c es code d SA TE DI H w ch Hw Hc. destruct (scripted m cfg c es code d SA TE H) as (d6 & d7 & OP & _ & U & _ & _ & EC & _).
  destruct OP as [[X _]|[_ ->]]; [congruence|]. apply (in_map w_chars) in Hw. rewrite EC in Hw. apply in_map_iff in Hw as (w' & EW & Hw').
  destruct (U w' ch Hw') as [A B]; [rewrite EW; exact Hc|]. split; assumption.
Qed.
Print Assumptions C85_disabled.

(** The text lines of a page are the lines of its blocks; each line's baseline is one that is most frequent among its characters. *)
Theorem C85_lines : forall m wcfg c es code d, sane m -> text_enabled c -> process_pdf m wcfg c es = Ok (code, d) ->
  forall p, In p (gd_pages d) ->
    Permutation (map words_in (lines_on d p)) (flat_map b_lines (g_blocks p)) /\
    forall L, In L (lines_on d p) -> (forall ch, In ch (visible_chars p) -> finite_box (c_pos ch)) ->
      let chars := chars_of (the_word d) (words_in L) in
      chars <> [] /\ ((N.of_nat (length chars) < 2 ^ 32)%N -> (forall ch, In ch chars -> is_nan_d (c_fontSize ch) = false /\ is_nan_d (c_base ch) = false) ->
        most_frequent deq (baseline L) (map c_base chars)).
Proof.
  intros m cfg c es code d SA TE H p Hp. destruct (scripted m cfg c es code d SA TE H) as (d6 & d7 & _ & _ & _ & _ & _ & _ & _ & _ & _ & _ & _ & BL & _).
  split. { rewrite Forall_forall in BL. unfold lines_on. rewrite map_map. exact (BL p Hp). }
  intros L HL F. unfold lines_on in HL. apply in_map_iff in HL as (k & <- & Hk). pose proof (PropsPages.lines_final m cfg c es code d SA TE H) as LF. rewrite Forall_forall in LF. destruct (LF p Hp) as [LI LW].
  destruct (PropsContent.content_final m cfg c es code d SA TE H) as (r & EP & CO). pose proof (PropsContent.page_finite m cfg es d r EP CO p Hp F) as FP.
  destruct (LI FP k Hk) as (A & _ & _ & _ & B). cbv zeta. unfold words_in, baseline, final_line.
  assert (NC : chars_of (the_word d) (Lines.l_words (gl_line (nth k (gd_lines d) no_line))) <> []).
  { apply in_flat_map in Hk as (s & Hs & Hk). destruct (Lines.l_words (gl_line (nth k (gd_lines d) no_line))) as [|w t] eqn:EW; [congruence|].
    assert (IW : In w (g_words p)) by (apply (LW s k w Hs Hk); unfold final_line; rewrite EW; left; reflexivity).
    destruct (PropsContent.C73_words m cfg c es code d SA TE H) as (_ & _ & X). destruct (X p w Hp IW) as [(_ & (ch & t' & E & _) & _) _]. unfold chars_of. cbn [flat_map]. rewrite E. discriminate. }
  split; [exact NC|]. intros N1 N2. exact (B NC N1 N2).
Qed.
Print Assumptions C85_lines.

(** If the stacked math symbols of a page are apart, every word of the page is in exactly one line, and none of its characters is both
    superscript and subscript. *)
Theorem C85_exclusive : forall m wcfg c es code d, sane m -> text_enabled c -> process_pdf m wcfg c es = Ok (code, d) ->
  forall p i, In p (gd_pages d) -> In i (g_words p) -> stacks_apart wcfg (page_words d p) ->
    (exists l1 L l2, lines_on d p = l1 ++ L :: l2 /\ In i (words_in L) /\ forall L', In L' (l1 ++ l2) -> ~ In i (words_in L')) /\
    forall ch, In ch (w_chars (the_word d i)) -> ~ (c_isSuper ch = true /\ c_isSub ch = true).
Proof.
  intros m cfg c es code d SA TE H p i Hp Hi AP.
  assert (EX : exists l1 L l2, lines_on d p = l1 ++ L :: l2 /\ In i (words_in L) /\ forall L', In L' (l1 ++ l2) -> ~ In i (words_in L')).
  { destruct (scripted m cfg c es code d SA TE H) as (d6 & d7 & _ & _ & _ & _ & _ & _ & _ & _ & _ & _ & _ & _ & PM). rewrite Forall_forall in PM. specialize (PM p Hp).
    destruct (PropsContent.content_final m cfg c es code d SA TE H) as (r & EP & (((_ & GO) & _) & _ & _ & Q)).
    rewrite Forall_forall in GO. destruct (GO p Hp) as [_ G2]. pose proof (G2 AP) as SS. pose proof (LinesDefined.separate_perm _ _ SS) as SP.
    change (at_words (gd_words d)) with (word_heap (gd_words d)) in SP. rewrite <- SP in PM.
    assert (PL : Permutation (g_words p) (flat_map words_in (lines_on d p))).
    { unfold lines_on. rewrite flat_map_concat_map, map_map, <- flat_map_concat_map. exact PM. }
    assert (ND : NoDup (g_words p)) by apply SS. assert (NL : NoDup (flat_map words_in (lines_on d p))) by (apply (Permutation_NoDup PL), ND).
    apply (Permutation_in _ PL) in Hi. apply in_flat_map in Hi as (L & HL & Hw). destruct (in_split _ _ HL) as (l1 & l2 & E). exists l1, L, l2. split; [exact E|]. split; [exact Hw|].
    intros L' HL' Hw'. rewrite E in NL. assert (IN : exists k, k <> length l1 /\ nth_error (l1 ++ L :: l2) k = Some L').
    { apply in_app_or in HL' as [HL'|HL']; destruct (In_nth_error _ _ HL') as [k Hk].
      - exists k. assert (k < length l1) by (apply nth_error_Some; congruence). split; [lia|]. rewrite nth_error_app1 by assumption. exact Hk.
      - exists (length l1 + S k). split; [lia|]. rewrite nth_error_app2 by lia. replace (length l1 + S k - length l1) with (S k) by lia. exact Hk. }
    destruct IN as (k & NK & Hk). apply NK. refine (in_perm_nodup words_in _ NL k (length l1) L' L i Hk _ Hw' Hw). rewrite nth_error_app2, Nat.sub_diag by lia. reflexivity. }
  split; [exact EX|]. intros ch Hc [SU SB]. destruct (Cli.disabled c Cli.MScripts) eqn:DI.
  { assert (IW : In (the_word d i) (gd_words d)).
    { apply nth_In. destruct (PropsContent.C73_words m cfg c es code d SA TE H) as (_ & X & _). apply X. exists p. split; assumption. }
    destruct (C85_disabled m cfg c es code d SA TE DI H _ ch IW Hc). congruence. }
  destruct EX as (l1 & L & l2 & EL & Hw & ONE). destruct (C85_flags m cfg c es code d SA TE DI H p i ch Hp Hi Hc) as [A B].
  apply A in SU as (La & HA & WA & _ & UP). apply B in SB as (Lb & HB & WB & _ & DN). rewrite EL in HA, HB.
  assert (U : forall X, In X (l1 ++ L :: l2) -> In i (words_in X) -> X = L).
  { intros X HX WX. apply in_elt_inv in HX as [HX|HX]; [exact HX|]. exfalso. exact (ONE X HX WX). }
  rewrite (U La HA WA) in UP. rewrite (U Lb HB WB) in DN. pose proof (ScriptsProofs.raised_lowered (baseline L) ch UP) as X. unfold lowered in X. congruence.
Qed.
Print Assumptions C85_exclusive.

(** The box by which the distances of lines are measured (C81) is the smallest one around the characters of the line that are neither
    raised nor lowered (the sides of an empty one are DBL_MAX and DBL_MIN). *)
Theorem C85_base_box : forall m wcfg c es code d, sane m -> text_enabled c -> Cli.disabled c Cli.MScripts = false -> process_pdf m wcfg c es = Ok (code, d) ->
  forall p L, In p (gd_pages d) -> In L (lines_on d p) -> (forall ch, In ch (chars_of (the_word d) (words_in L)) -> nn_pos (c_pos ch)) ->
  exists chars, (forall ch, In ch chars <-> In ch (chars_of (the_word d) (words_in L)) /\ ~ above_line d L ch /\ ~ below_line d L ch) /\
    extended_box (Scripts.mkBox DBL_MAX DBL_MAX DBL_MIN DBL_MIN) (map c_pos chars) (gl_box L).
Proof.
  intros m cfg c es code d SA TE EN H p L Hp HL NN. destruct (scripted m cfg c es code d SA TE H) as (d6 & d7 & OP & N & _ & DB & _ & _ & FS & GB & GL & PC & ND & _).
  destruct OP as [[_ E7]|[X _]]; [|congruence]. unfold lines_on in HL. apply in_map_iff in HL as (k & <- & Hk).
  assert (HK : k < length (gd_lines d)).
  { assert (IK : In k (segment_line_ids d)) by (unfold segment_line_ids; apply in_flat_map; exists p; split; assumption). unfold PipelineWhole.numbered in ND. rewrite ND in IK. apply in_seq in IK. lia. }
  assert (L6 : length (gd_lines d6) = length (gd_lines d)) by (apply (f_equal (@length _)) in GB, GL; rewrite !map_length in GB, GL; congruence).
  destruct (nth_error (gd_lines d6) k) as [l6|] eqn:E6; [|apply nth_error_None in E6; lia].
  assert (EL : gl_line (final_line d k) = gl_line l6).
  { unfold final_line. assert (G6 : map gl_line (gd_lines d) = map gl_line (gd_lines d6)) by (rewrite <- GL; apply (f_equal (map fst)) in GB; rewrite !map_map in GB; exact GB).
    rewrite (gl_ext _ _ k G6), (nth_error_nth _ _ no_line E6). reflexivity. }
  assert (CP : map PipelineSpec.plain (chars_of (word_heap (gd_words d6)) (words_in (final_line d k))) = map PipelineSpec.plain (chars_of (the_word d) (words_in (final_line d k)))) by (apply chars_plain, PC).
  destruct (scripts_box d6 d7 N E7 k l6 E6) as (b & E' & XB).
  { rewrite Forall_forall in DB. exact (DB l6 (nth_error_In _ _ E6)). }
  { intros w ch Hw Hch. assert (IN : In (PipelineSpec.plain ch) (map PipelineSpec.plain (chars_of (the_word d) (words_in (final_line d k))))).
    { rewrite <- CP. apply in_map. unfold chars_of, words_in. rewrite EL. apply in_flat_map. exists w. split; assumption. }
    apply in_map_iff in IN as (c' & EQ & IN). pose proof (f_equal c_pos EQ) as EQ2. cbn [PipelineSpec.plain c_pos] in EQ2. rewrite <- EQ2. exact (NN c' IN). }
  assert (EB : gl_box (final_line d k) = b).
  { apply (f_equal (fun l => nth_error l k)) in GB. rewrite (map_nth_error _ _ _ E') in GB. unfold final_line. destruct (nth_error (gd_lines d) k) as [x|] eqn:EX; [|apply nth_error_None in EX; lia].
    rewrite (map_nth_error _ _ _ EX) in GB. rewrite (nth_error_nth _ _ no_line EX). apply (f_equal (option_map snd)) in GB. cbn [option_map snd with_box gl_box] in GB. congruence. }
  set (f := fun ch => negb (is_script (body_fontSize d) (baseline (final_line d k)) ch)). exists (filter f (chars_of (the_word d) (words_in (final_line d k)))). split.
  - intros ch. rewrite filter_In. unfold f, is_script, is_super, is_sub, above_line, below_line, small, raised, lowered. rewrite negb_true_iff, orb_false_iff, !andb_false_iff.
    destruct (smaller (c_fontSize ch) (body_fontSize d) (dec 9 1)), (smaller (c_base ch) (baseline (final_line d k)) (dec 1 1)), (larger (c_base ch) (baseline (final_line d k)) (dec 1 1)); intuition congruence.
  - rewrite EB. rewrite <- FS, <- EL in XB. change (Lines.l_base (gl_line (final_line d k))) with (baseline (final_line d k)) in XB. fold f in XB.
    change (flat_map (fun w => w_chars (word_heap (gd_words d6) w)) (Lines.l_words (gl_line (final_line d k)))) with (chars_of (word_heap (gd_words d6)) (words_in (final_line d k))) in XB.
    assert (FE : forall cs cs', map PipelineSpec.plain cs = map PipelineSpec.plain cs' -> map c_pos (filter f cs) = map c_pos (filter f cs')).
    { clear. induction cs as [|x cs IH]; intros [|y cs'] E; try discriminate; [reflexivity|]. cbn [map] in E. injection E as _ _ _ E1 _ _ _ _ E2 _ _ E3 _ _ _ E4. cbn [filter].
      assert (EF : f x = f y) by (unfold f, is_script, is_super, is_sub, small, raised, lowered; rewrite E2, E3; reflexivity). rewrite EF. destruct (f y); cbn [map]; [rewrite E1|]; rewrite (IH cs' E4); reflexivity. }
    rewrite (FE _ _ CP) in XB. exact XB.
Qed.
Print Assumptions C85_base_box.

(** ** Example: "ab", a raised "2" and a lowered "i". *)
Definition ex_scripts : list Parsing.event :=
  ex_start 1 ++ [ex_draw 50 700 10 97; ex_draw 51 700 10 98; ex_draw 52 704 7 50; ex_draw 53 697 7 105].
Example C85_example : sane ex_machine /\ text_enabled ex_all /\ Cli.disabled ex_all Cli.MScripts = false /\
  exists d, ex_run ex_scripts = Ok (0%Z, d) /\
  (forall p, In p (gd_pages d) -> stacks_apart Words.default_words_config (page_words d p)) /\
  (forall p ch, In p (gd_pages d) -> In ch (visible_chars p) -> finite_box (c_pos ch)) /\
  map (fun w => map (fun ch => (c_text ch, c_isSuper ch, c_isSub ch)) (w_chars w)) (gd_words d) =
    [[(S_ "a", false, false); (S_ "b", false, false); (S_ "2", true, false); (S_ "i", false, true)]] /\
  map (fun p => map words_in (lines_on d p)) (gd_pages d) = [[[0]]].
Proof.
  split; [exact ex_sane|]. split; [repeat split|]. split; [reflexivity|].
  assert (H : match ex_run ex_scripts with
    | Ok (c, d) => (c =? 0)%Z && forallb (fun p => apart_b Words.default_words_config (page_words d p) && forallb (fun ch => PropsContent.finite_b (c_pos ch)) (visible_chars p)) (gd_pages d)
    | _ => false end = true) by (vm_compute; reflexivity).
  assert (E : match ex_run ex_scripts with
    | Ok (c, d) => Some (map (fun w => map (fun ch => (c_text ch, c_isSuper ch, c_isSub ch)) (w_chars w)) (gd_words d), map (fun p => map words_in (lines_on d p)) (gd_pages d))
    | _ => None end = Some ([[(S_ "a", false, false); (S_ "b", false, false); (S_ "2", true, false); (S_ "i", false, true)]], [[[0]]])) by (vm_compute; reflexivity).
  destruct (ex_run ex_scripts) as [[c d]| |]; try discriminate. apply andb_true_iff in H as [Hc H]. apply Z.eqb_eq in Hc. subst c. rewrite forallb_forall in H.
  exists d. split; [reflexivity|]. split; [intros p Hp; apply apart_check; specialize (H p Hp); apply andb_true_iff in H; apply H|].
  split; [intros p ch Hp Hch; apply PropsContent.finite_check; specialize (H p Hp); apply andb_true_iff in H as [_ H]; rewrite forallb_forall in H; exact (H ch Hch)|].
  injection E as E1 E2. split; [exact E1|exact E2].
Qed.
