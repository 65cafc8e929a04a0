(** PipelineWired.v - the detection of lines and of blocks within the pipeline. *)
From Coq Require Import ZArith NArith.
From Verif Require Import Base Double MathUtils Elements Sort XYCut Document LinesSpec Pipeline PipelineSpec PipelineLines PipelineProofs PipelineWords PipelineWhole
  PipelineContent PipelineStages StatisticsSpec WiringSpec PipelineStats WiredSpec.
From Verif Require Fonts Parsing Statistics Words Lines Scripts Blocks ContentSpec PageSegmentation DehyphenationProofs SerializationSpec Dehyphenation Cli TotalWhole PropsBlocks PropsSegmentation.
Local Opaque TOL dadd dsub ddiv dmul dec DBL_MAX DBL_MIN.

(** ** Lines *)
Lemma app_eq_len {A} (a1 : list A) : forall a2 b1 b2, a1 ++ b1 = a2 ++ b2 -> length a1 = length a2 -> a1 = a2 /\ b1 = b2.
Proof.
  induction a1 as [|x a1 IH]; intros [|y a2] b1 b2 H L; cbn [length app] in *; try discriminate; [split; [reflexivity|exact H]|].
  injection H as -> H. destruct (IH a2 b1 b2 H) as [-> ->]; [lia|]. split; reflexivity.
Qed.
Lemma place_lines_found (F : nat -> gline) segs : forall n k r segs' ls, length r = length segs -> Forall (fun s => sg_lines s = [] /\ sg_trim s = no_trim) segs ->
  place_lines n k segs r = (segs', ls) -> map (fun i => (gl_line (F i), gl_seg (F i))) (seq n (length ls)) = ls ->
  Forall2 (fun s x => map (fun i => gl_line (F i)) (sg_lines s) = concat (fst x) /\ sg_trim s = match snd x with Some t => t | None => no_trim end) segs' r /\
  forall q s i, nth_error segs' q = Some s -> In i (sg_lines s) -> gl_seg (F i) = k + q.
Proof.
  induction segs as [|s segs IH]; intros n k r segs' ls L FS H HF; destruct r as [|[gs tb] r]; try discriminate; cbn [place_lines] in H.
  - apply pair_equal_spec in H as [<- <-]. split; [constructor|]. intros [|q] s i X; discriminate.
  - destruct (place_lines _ (S k) segs r) as [segs1 rest] eqn:E. apply pair_equal_spec in H as [<- <-]. inversion FS as [|? ? [F1 F1'] F2]; subst.
    rewrite app_length, map_length, seq_app, map_app in HF. apply app_eq_len in HF as [H1 H2]; [|rewrite !map_length, seq_length; reflexivity].
    destruct (IH _ _ _ _ _ (f_equal pred L) F2 E H2) as [A B]. rewrite F1. cbn [app]. split.
    + constructor; [|exact A]. cbn [sg_lines sg_trim fst snd]. rewrite F1'. split; [|reflexivity]. apply (f_equal (map fst)) in H1. rewrite !map_map in H1. cbn [fst] in H1. rewrite map_id in H1. exact H1.
    + intros [|q] x i X Y; cbn [nth_error] in X.
      * injection X as <-. cbn [sg_lines] in Y. rewrite Nat.add_0_r. apply (f_equal (map snd)) in H1. rewrite !map_map in H1. cbn [snd] in H1.
        assert (Z : In (gl_seg (F i)) (map (fun _ : Lines.tline => k) (concat gs))) by (rewrite <- H1; exact (in_map (fun i => gl_seg (F i)) _ _ Y)).
        apply in_map_iff in Z as (? & <- & _). reflexivity.
      * rewrite (B q x i X Y). lia.
Qed.
Lemma page_glines_nth n hs ls i l k : nth_error ls i = Some (l, k) ->
  nth_error (page_glines n hs ls) i = Some (mkGLine l k (option_map (Nat.add n) (Lines.parent hs i)) (option_map (Nat.add n) (Lines.prevS hs i))
                               (option_map (Nat.add n) (Lines.nextS hs i)) Scripts.bbox_default dzero dzero).
Proof.
  intros H. unfold page_glines.
  assert (E : forall a, nth_error (combine (seq a (length ls)) ls) i = Some (a + i, (l, k))).
  { revert i H. induction ls as [|x ls IH]; intros [|i] H a; try discriminate; cbn [nth_error length seq combine] in *; [injection H as ->; rewrite Nat.add_0_r; reflexivity|].
    rewrite (IH i H (S a)). f_equal. f_equal. lia. }
  specialize (E 0). cbn [Nat.add] in E. rewrite (map_nth_error _ _ _ E). reflexivity.
Qed.
Lemma page_glines_len n hs ls : length (page_glines n hs ls) = length ls.
Proof. unfold page_glines. rewrite map_length, combine_length, seq_length. lia. Qed.
Lemma page_glines_pairs n hs ls : map (fun g => (gl_line g, gl_seg g)) (page_glines n hs ls) = ls.
Proof.
  unfold page_glines. rewrite map_map. transitivity (map (fun x : nat * (Lines.tline * nat) => snd x) (combine (seq 0 (length ls)) ls)).
  - apply map_ext. intros [i [l k]]. reflexivity.
  - generalize 0. induction ls as [|l ls IH]; intros a; [reflexivity|]. cbn [length seq combine map snd]. rewrite IH. reflexivity.
Qed.
Lemma seq_middle {B} (f : gline -> B) pre ls post : map (fun i => f (nth i (pre ++ ls ++ post) no_line)) (seq (length pre) (length ls)) = map f ls.
Proof.
  revert pre. induction ls as [|l ls IH]; intros pre; cbn [length seq map]; [reflexivity|]. f_equal.
  - rewrite app_nth2 by lia. rewrite Nat.sub_diag. reflexivity.
  - specialize (IH (pre ++ [l])). rewrite app_length, <- app_assoc in IH. cbn [length] in IH. rewrite Nat.add_1_r in IH. exact IH.
Qed.
Definition unplaced (p : gpage) : Prop := Forall (fun s => sg_lines s = [] /\ sg_trim s = no_trim) (g_segs p).
Lemma place_pages_found ps : forall k r pre post ps' ls, Forall unplaced ps -> Forall2 (fun p rp => length (fst rp) = length (g_segs p)) ps r ->
  place_pages (length pre) k ps r = (ps', ls) ->
  found_lines (fun i => nth i (pre ++ ls ++ post) no_line) (length pre) k (map g_segs ps') r.
Proof.
  induction ps as [|p ps IH]; intros k r pre post ps' ls FU FL H; inversion FL as [|? [rp hs] ? r' L FL']; subst; cbn [place_pages] in H.
  - apply pair_equal_spec in H as [<- <-]. exact I.
  - cbn [fst] in L. inversion FU as [|? ? U FU']; subst.
    destruct (place_lines _ k (g_segs p) rp) as [segs l1] eqn:EL. destruct (place_pages _ _ ps r') as [ps1 rest] eqn:ER in H.
    apply pair_equal_spec in H as [<- <-]. pose proof (page_glines_len (length pre) hs l1) as LG. pose proof (page_glines_pairs (length pre) hs l1) as PG.
    pose proof (page_glines_nth (length pre) hs l1) as NG. set (g := page_glines (length pre) hs l1) in *.
    assert (NL : Forall (fun s => sg_lines s = []) (g_segs p)) by (refine (Forall_impl _ _ U); intros s [X _]; exact X).
    destruct (place_lines_spec _ _ _ _ _ _ L NL EL) as [SI _].
    assert (LS : length segs = length (g_segs p)).
    { pose proof (place_lines_segs _ _ _ _ _ _ L EL) as Q. symmetry. exact (TotalWhole.F2_len _ _ _ Q). }
    pose proof (seq_middle (fun x => (gl_line x, gl_seg x)) pre g (rest ++ post)) as MM. rewrite LG in MM. rewrite PG in MM.
    destruct (place_lines_found (fun i => nth i (pre ++ g ++ rest ++ post) no_line) _ _ _ _ _ _ L U EL MM) as [A B].
    specialize (IH (k + length segs) r' (pre ++ g) post ps1 rest FU' FL'). rewrite app_length, LG in IH. specialize (IH ER).
    rewrite <- app_assoc in IH. rewrite <- app_assoc. cbn [map found_lines set_segs g_segs]. rewrite SI, seq_length. split; [|exact IH].
    unfold found_on_page. rewrite SI, seq_length. split; [exact A|]. split; [reflexivity|]. split; [exact B|].
    intros i Hi. rewrite app_nth2 by lia. replace (length pre + i - length pre) with i by lia. rewrite app_nth1 by lia.
    destruct (nth_error l1 i) as [[l kk]|] eqn:EN; [|apply nth_error_None in EN; lia]. rewrite (nth_error_nth _ _ _ (NG i l kk EN)). repeat split.
Qed.
(** What is known of a line about its place. *)
Definition links (l : gline) : Lines.tline * nat * option nat * option nat * option nat := (gl_line l, gl_seg l, gl_parent l, gl_prevSib l, gl_nextSib l).
Definition placed (d d' : gdoc) : Prop := map g_segs (gd_pages d') = map g_segs (gd_pages d) /\ map links (gd_lines d') = map links (gd_lines d).
Lemma placed_refl d : placed d d. Proof. split; reflexivity. Qed.
Lemma placed_trans a b c : placed a b -> placed b c -> placed a c.
Proof. unfold placed. intros [A B] [-> ->]. split; assumption. Qed.
Lemma found_ext line line' : (forall i, links (line i) = links (line' i)) -> forall pages n k r, found_lines line n k pages r -> found_lines line' n k pages r.
Proof.
  intros E. assert (E' : forall i, gl_line (line i) = gl_line (line' i) /\ gl_seg (line i) = gl_seg (line' i) /\ gl_parent (line i) = gl_parent (line' i) /\
    gl_prevSib (line i) = gl_prevSib (line' i) /\ gl_nextSib (line i) = gl_nextSib (line' i)).
  { intros i. specialize (E i). unfold links in E. apply pair_equal_spec in E as [E E5]. apply pair_equal_spec in E as [E E4]. apply pair_equal_spec in E as [E E3]. apply pair_equal_spec in E as [E E2].
    repeat (split; [assumption|]). assumption. }
  induction pages as [|segs pages IH]; intros n k [|[rp hs] r] H; try destruct H; [exact I|]. cbn [found_lines]. split; [|apply IH; assumption].
  destruct H as (A & B & C & D). split; [|split; [exact B|split]].
  - refine (F2_imp _ _ _ _ _ A). intros s x [X Y]. split; [|exact Y]. rewrite <- X. apply map_ext. intros i. symmetry. apply E'.
  - intros q s i X Y. destruct (E' i) as (_ & <- & _). exact (C q s i X Y).
  - intros i Hi. destruct (E' (n + i)) as (_ & _ & <- & <- & <-). exact (D i Hi).
Qed.
Lemma placed_line d d' : placed d d' -> forall i, links (final_line d i) = links (final_line d' i).
Proof.
  intros [_ E] i. assert (X : forall l, links (nth i l no_line) = nth i (map links l) (links no_line)) by (intros l; symmetry; apply map_nth).
  unfold final_line. rewrite !X, E. reflexivity.
Qed.
Lemma set_box_links l : forall ls0, map links (fold_left set_box l ls0) = map links ls0.
Proof.
  induction l as [|ib t IH]; intros ls0; cbn [fold_left]; [reflexivity|]. rewrite IH. unfold set_box.
  destruct (nth_error ls0 (fst ib)) as [g|] eqn:E; [|reflexivity]. revert E. generalize (fst ib). intros i. revert ls0.
  induction i as [|i IHi]; intros [|x ls0] E; try discriminate; cbn [nth_error] in E.
  - injection E as ->. reflexivity.
  - cbn [update map]. f_equal. apply IHi, E.
Qed.
Definition margins (l : gline) : double * double := (gl_left l, gl_right l).
Lemma set_box_margins l : forall ls0, map margins (fold_left set_box l ls0) = map margins ls0.
Proof.
  induction l as [|ib t IH]; intros ls0; cbn [fold_left]; [reflexivity|]. rewrite IH. unfold set_box.
  destruct (nth_error ls0 (fst ib)) as [g|] eqn:E; [|reflexivity]. revert E. generalize (fst ib). intros i. revert ls0.
  induction i as [|i IHi]; intros [|x ls0] E; try discriminate; cbn [nth_error] in E.
  - injection E as ->. reflexivity.
  - cbn [update map]. f_equal. apply IHi, E.
Qed.
Lemma fill1_placed d : placed d (fill_lines1 d).
Proof. unfold fill_lines1. split; [|reflexivity]. cbn [set_pages gd_pages]. rewrite map_map. reflexivity. Qed.
Lemma scripts_placed d d' : run_scripts d = Ok d' -> placed d d' /\ map margins (gd_lines d') = map margins (gd_lines d).
Proof.
  intros H. unfold run_scripts in H. destruct (Scripts.detectScripts _ _ _) as [h sl]. apply Ok_inj in H. subst d'. unfold placed. cbn [gd_pages gd_lines].
  rewrite set_box_links, set_box_margins. repeat split.
Qed.
Lemma lineStats_placed m d d' : run_lineStats m d = Ok d' -> placed d d' /\ map margins (gd_lines d') = map margins (gd_lines d).
Proof. intros H. apply lineStats_inv in H as (P & _ & L). unfold placed. rewrite P, L. repeat split. Qed.
Lemma blocks_placed m cfg qs d d' : sane m -> inv2 cfg qs d -> run_blocks m d = Ok d' -> placed d d'.
Proof.
  intros SA I2 H. destruct (blocks_keep m cfg qs d d' SA I2 H) as (K & _). split.
  - clear -K. induction K as [|p p' l l' [_ E] _ IH]; cbn [map]; [reflexivity|]. rewrite E, IH. reflexivity.
  - unfold run_blocks in H. destruct (Blocks.detectTextBlocks _ _ _ _ _ _ _ _ _) as [[[pre fin] lh]| |]; try discriminate. cbn [obind] in H. apply Ok_inj in H. subst d'.
    cbn [gd_lines]. rewrite map_map. clear. generalize 0. induction (gd_lines d) as [|l ls IH]; intros n; cbn [length seq combine map]; [reflexivity|]. f_equal. apply IH.
Qed.
Lemma order_placed m d d' : run_readingOrder m d = Ok d' -> placed d d'.
Proof.
  intros H. destruct (order_keep _ _ _ H) as (K & _ & _ & L). split; [|rewrite L; reflexivity].
  clear -K. induction K as [|p p' l l' [_ E] _ IH]; cbn [map]; [reflexivity|]. rewrite E, IH. reflexivity.
Qed.
Lemma dehyph_placed m d d' : run_dehyphenation m d = Ok d' -> placed d d'.
Proof. intros H. unfold run_dehyphenation in H. apply Ok_inj in H. subst d'. split; reflexivity. Qed.
Lemma fill2_placed d : placed d (fill_lines2 d).
Proof. unfold fill_lines2. split; [|reflexivity]. cbn [set_pages gd_pages]. rewrite map_map. reflexivity. Qed.
Lemma late_placed m cfg qs c d8 d9 da db : sane m -> inv2 cfg qs d8 -> run_blocks m d8 = Ok d9 -> opt c Cli.MReadingOrder (run_readingOrder m) d9 da ->
  opt c Cli.MDehyphenation (run_dehyphenation m) da db -> placed d8 (fill_lines2 db).
Proof.
  intros SA I8 E9 Ea Eb. apply (placed_trans _ d9); [exact (blocks_placed m cfg qs _ _ SA I8 E9)|]. apply (placed_trans _ da).
  { destruct Ea as [[_ Ea]|[_ ->]]; [exact (order_placed _ _ _ Ea)|apply placed_refl]. }
  apply (placed_trans _ db); [|apply fill2_placed]. destruct Eb as [[_ Eb]|[_ ->]]; [exact (dehyph_placed _ _ _ Eb)|apply placed_refl].
Qed.
Lemma run_lines_found m d d' : sane m -> Forall unplaced (gd_pages d) -> run_lines m d = Ok d' ->
  (exists r, Lines.detectTextLines (m_sortW m) (m_sortL m) (m_ordS m) (m_ordD m) (m_ordR m) (m_ordY m)
       (Statistics.st_charWidth (gd_stats d)) (m_absd m) (word_heap (gd_words d)) 0 (boxed_words d) = Ok r /\
     found_lines (final_line d') 0 0 (map g_segs (gd_pages d')) r) /\
  Forall (fun l => margins l = (dzero, dzero)) (gd_lines d').
Proof.
  intros SA FU H. unfold run_lines in H. fold (boxed_words d) in H. destruct (Lines.detectTextLines _ _ _ _ _ _ _ _ _ _ _) as [x| |] eqn:E; try discriminate. cbn [obind] in H.
  destruct (place_pages 0 0 (gd_pages d) x) as [ps ls] eqn:EPP. apply Ok_inj in H. subst d'. cbn [gd_pages gd_lines]. split.
  - exists x. split; [reflexivity|]. destruct SA as (_ & _ & HW & HL & _ & _ & HS & HD & _ & HR & HY). apply (detect_words _ _ _ _ _ _ _ _ HW HL HR HY) in E. apply F2_map_l in E.
    assert (FL : Forall2 (fun p rp => length (fst rp) = length (g_segs p)) (gd_pages d) x).
    { refine (F2_imp _ _ _ _ _ E). intros p rp (_ & L). rewrite map_length in L. exact L. }
    pose proof (place_pages_found (gd_pages d) 0 x [] [] ps ls FU FL EPP) as Q. cbn [app length] in Q. rewrite app_nil_r in Q. exact Q.
  - clear -EPP. revert EPP. generalize 0 at 1. generalize 0. revert x ps ls. generalize (gd_pages d) as qs. induction qs as [|p qs IH]; intros r ps ls k n H; destruct r as [|[rp hs] r]; cbn [place_pages] in H;
      try (apply pair_equal_spec in H as [_ <-]; constructor).
    destruct (place_lines _ _ _ _) as [segs l1]. destruct (place_pages _ _ qs r) as [ps1 rest] eqn:E. apply pair_equal_spec in H as [_ <-]. apply Forall_app. split; [|exact (IH _ _ _ _ _ E)].
    unfold page_glines. apply Forall_forall. intros l Hl. apply in_map_iff in Hl as ([i [t k0]] & <- & _). reflexivity.
Qed.
Lemma segmentation_unplaced m d d' : run_segmentation m d = Ok d' -> Forall no_text (gd_pages d) -> Forall unplaced (gd_pages d').
Proof.
  intros H N. unfold run_segmentation in H. cbv zeta in H. match type of H with obind ?x _ = _ => destruct x as [ps| |] eqn:E; try discriminate end. cbn [obind] in H. apply Ok_inj in H. subst d'.
  cbn [set_pages gd_pages]. apply omap_F2 in E. revert N E. generalize (gd_pages d). intros l N E. revert N.
  induction E as [|p p' l l' H _ IH]; intros N; constructor; [|inversion N; subst; apply IH; assumption].
  inversion N as [|? ? [N1 _] _]; subst. match type of H with obind (from_run ?x) _ = _ => destruct x as [[r| |]|] eqn:EP end; try discriminate. cbn [from_run obind] in H. apply Ok_inj in H. subst p'.
  unfold unplaced, set_segs. cbn [g_segs]. rewrite N1. cbn [app]. apply Forall_forall. intros s Hs. apply in_map_iff in Hs as (x & <- & _). split; reflexivity.
Qed.
Lemma boxed_early d d' : early d d' -> boxed_words d = boxed_words d'.
Proof.
  intros (K & _). unfold boxed_words. induction K as [|p p' l l' [_ S] _ IH]; cbn [map]; [reflexivity|]. f_equal; [|exact IH]. clear -S.
  induction S as [|s s' l l' [A B] _ IH]; cbn [map]; [reflexivity|]. rewrite A, B, IH. reflexivity.
Qed.
Lemma core_unmarked w : unmarked w = core w. Proof. reflexivity. Qed.

(** ** Blocks *)
Lemma found_in line : forall pages n k r, found_lines line n k pages r -> forall segs s i, In segs pages -> In s segs -> In i (sg_lines s) ->
  exists q, gl_seg (line i) = k + q /\ nth_error (concat pages) q = Some s.
Proof.
  induction pages as [|segs0 pages IH]; intros n k [|[rp hs] r] H segs s i H1 H2 H3; cbn [found_lines] in H; try (exfalso; assumption); try (destruct H1; fail); destruct H1 as [<-|H1]; destruct H as [H H0].
  - destruct H as (_ & _ & C & _). apply In_nth_error in H2 as [q Hq]. exists q. split; [exact (C q s i Hq H3)|]. cbn [concat]. rewrite nth_error_app1; [exact Hq|].
    apply nth_error_Some. rewrite Hq. discriminate.
  - destruct (IH _ _ _ H0 segs s i H1 H2 H3) as (q & A & B). exists (length segs0 + q). split; [lia|]. cbn [concat]. rewrite nth_error_app2 by lia. rewrite Nat.add_comm, Nat.add_sub. exact B.
Qed.
Definition same_doc (d d' : gdoc) : Prop := gd_stats d' = gd_stats d /\ gd_fonts d' = gd_fonts d /\ map g_segs (gd_pages d') = map g_segs (gd_pages d) /\
  map g_figures (gd_pages d') = map g_figures (gd_pages d).
Lemma same_block_doc d d' : same_doc d d' -> block_doc d' = block_doc d.
Proof.
  intros (A & B & C & D). unfold block_doc, all_fonts. rewrite A, B.
  assert (E1 : flat_map g_segs (gd_pages d') = flat_map g_segs (gd_pages d)) by (rewrite !flat_map_concat_map, C; reflexivity).
  assert (E2 : map (fun p => map Parsing.fg_pos (g_figures p)) (gd_pages d') = map (fun p => map Parsing.fg_pos (g_figures p)) (gd_pages d)).
  { rewrite <- !(map_map g_figures (map Parsing.fg_pos)), D. reflexivity. }
  rewrite E1, E2. reflexivity.
Qed.
Lemma fonts_late m c d8 d9 da db : run_blocks m d8 = Ok d9 -> opt c Cli.MReadingOrder (run_readingOrder m) d9 da ->
  opt c Cli.MDehyphenation (run_dehyphenation m) da db -> gd_fonts (fill_lines2 db) = gd_fonts d8.
Proof.
  intros E9 Ea Eb. change (gd_fonts (fill_lines2 db)) with (gd_fonts db).
  assert (F1 : gd_fonts db = gd_fonts da) by (destruct Eb as [[_ Eb]|[_ ->]]; [exact (proj2 (proj2 (dehyph_core _ _ _ Eb)))|reflexivity]).
  assert (F2 : gd_fonts da = gd_fonts d9) by (destruct Ea as [[_ Ea]|[_ ->]]; [destruct (readingOrder_parts _ _ _ Ea) as (? & ? & _ & _ & _ & _ & _ & X & _); exact X|reflexivity]).
  assert (F3 : gd_fonts d9 = gd_fonts d8).
  { unfold run_blocks in E9. destruct (Blocks.detectTextBlocks _ _ _ _ _ _ _ _ _) as [[[pre fin] lh]| |]; try discriminate. cbn [obind] in E9. apply Ok_inj in E9. subst d9. reflexivity. }
  congruence.
Qed.
Lemma words_late m cfg qs c d8 d9 da db : sane m -> inv2 cfg qs d8 -> run_blocks m d8 = Ok d9 -> opt c Cli.MReadingOrder (run_readingOrder m) d9 da ->
  opt c Cli.MDehyphenation (run_dehyphenation m) da db -> forall i, unhyphenated (word_heap (gd_words d8) i) = unhyphenated (the_word (fill_lines2 db) i).
Proof.
  intros SA I8 E9 Ea Eb i. destruct (blocks_keep m cfg qs d8 d9 SA I8 E9) as (_ & W9 & _).
  assert (Wa : gd_words da = gd_words d8) by (rewrite <- W9; destruct Ea as [[_ Ea]|[_ ->]]; [destruct (order_keep _ _ _ Ea) as (_ & X & _); exact X|reflexivity]).
  unfold the_word, fill_lines2. cbn [set_pages gd_words]. rewrite <- Wa. destruct Eb as [[_ Eb]|[_ ->]]; [|reflexivity].
  unfold run_dehyphenation in Eb. apply Ok_inj in Eb. subst db. cbn [gd_words]. set (h := Dehyphenation.dehyphenate _ _).
  assert (S0 : unhyphenated (word_heap (gd_words da) i) = unhyphenated (h i)).
  { unfold h. rewrite DehyphenationProofs.dehyph_pairs.
    pose proof (DehyphenationProofs.marks_same (DehyphenationProofs.pairs (word_heap (gd_words da)) (SerializationSpec.text_lines (the_document m da))) (word_heap (gd_words da)) i) as S0.
    exact (f_equal unhyphenated S0). }
  destruct (Nat.lt_ge_cases i (length (gd_words da))) as [L|L].
  - rewrite S0. f_equal. symmetry. rewrite (nth_indep _ _ (h 0)) by (rewrite map_length, seq_length; exact L).
    rewrite (map_nth h (seq 0 (length (gd_words da))) 0 i), seq_nth by exact L. reflexivity.
  - unfold word_heap. rewrite !nth_overflow; [reflexivity|rewrite map_length, seq_length; exact L|exact L].
Qed.
Lemma role_found m lh num (ts : list Blocks.tblock) bs : Forall2 (found_block m lh num) ts bs -> forall part, length part = length bs ->
  Forall2 (found_block m lh num) ts (map (fun '(b, r) => ContentSpec.with_role r b) (combine bs part)).
Proof.
  induction 1 as [|t b ts bs H _ IH]; intros [|r part] L; try discriminate; cbn [combine map]; constructor; [exact H|exact (IH part (f_equal pred L))].
Qed.
Lemma order_found m lh d d' fin : sane m -> run_readingOrder m d = Ok d' -> Forall2 (fun p ts => Forall2 (found_block m lh (g_num p)) ts (g_blocks p)) (gd_pages d) fin ->
  Forall2 (blocks_found m lh) (gd_pages d') fin.
Proof.
  intros SA H FB. destruct (readingOrder_parts m d d' H) as (roles & parts & _ & _ & LP & F & _). destruct SA as (_ & _ & _ & _ & HS & HT & _).
  revert parts fin LP F FB. generalize (gd_pages d'). induction (gd_pages d) as [|p ps IH]; intros ps' [|part parts] fin LP F FB; try discriminate; inversion F as [|? p' ? ps1 R F1]; subst;
    inversion FB as [|? ts ? fin1 B1 B2]; subst; constructor; [|exact (IH _ parts _ (f_equal pred LP) F1 B2)].
  destruct R as (L & KP & _ & _ & q & O & EB).
  destruct (PropsSegmentation.C32_permutation _ _ _ _ HS HT _ _ O) as [PM _]. cbn [doc_page p_blocks set_blocks g_blocks] in PM.
  unfold blocks_found. rewrite EB. destruct KP as (-> & _). eexists. split; [exact PM|]. exact (role_found m lh _ _ _ B1 part L).
Qed.
Lemma page_ordered m p bs : doc_page m (set_blocks bs p) = page_to_order m p bs.
Proof. unfold doc_page, page_to_order, figure_elem, set_blocks. cbn. f_equal. apply map_ext. intros [i f]. reflexivity. Qed.
Lemma order_exact m lh d d' fin : run_readingOrder m d = Ok d' -> Forall2 (fun p ts => Forall2 (found_block m lh (g_num p)) ts (g_blocks p)) (gd_pages d) fin ->
  Forall2 (blocks_ordered m (gd_stats d) lh) (gd_pages d') fin.
Proof.
  intros H FB. destruct (readingOrder_parts m d d' H) as (roles & parts & _ & _ & LP & F & _).
  revert parts fin LP F FB. generalize (gd_pages d'). induction (gd_pages d) as [|p ps IH]; intros ps' [|part parts] fin LP F FB; try discriminate; inversion F as [|? p' ? ps1 R F1]; subst;
    inversion FB as [|? ts ? fin1 B1 B2]; subst; constructor; [|exact (IH _ parts _ (f_equal pred LP) F1 B2)].
  destruct R as (L & (K1 & K2 & _ & K3 & K4 & _) & _ & _ & q & O & EB). rewrite page_ordered in O. unfold blocks_ordered. eexists. exists q. rewrite K1.
  split; [exact (role_found m lh _ _ _ B1 part L)|]. split; [|exact EB]. unfold page_to_order in *. rewrite K1, K2, K3, K4. exact O.
Qed.
Lemma dehyph_pages m d d' : run_dehyphenation m d = Ok d' -> gd_pages d' = gd_pages d.
Proof. intros H. unfold run_dehyphenation in H. apply Ok_inj in H. subst d'. reflexivity. Qed.
Lemma margins_late m c d8 d9 da db lh : opt c Cli.MReadingOrder (run_readingOrder m) d9 da -> opt c Cli.MDehyphenation (run_dehyphenation m) da db ->
  gd_lines d9 = map (fun '(i, l) => mkGLine (gl_line l) (gl_seg l) (gl_parent l) (gl_prevSib l) (gl_nextSib l) (gl_box l)
                                 (Blocks.bl_left (lh i)) (Blocks.bl_right (lh i))) (combine (seq 0 (length (gd_lines d8))) (gd_lines d8)) ->
  forall i, i < length (gd_lines (fill_lines2 db)) -> margins (final_line (fill_lines2 db) i) = (Blocks.bl_left (lh i), Blocks.bl_right (lh i)).
Proof.
  intros Ea Eb E i. unfold final_line. change (gd_lines (fill_lines2 db)) with (gd_lines db).
  assert (F1 : gd_lines db = gd_lines da) by (destruct Eb as [[_ Eb]|[_ ->]]; [unfold run_dehyphenation in Eb; apply Ok_inj in Eb; subst db; reflexivity|reflexivity]).
  assert (F2 : gd_lines da = gd_lines d9) by (destruct Ea as [[_ Ea]|[_ ->]]; [exact (proj2 (proj2 (proj2 (order_keep _ _ _ Ea))))|reflexivity]).
  rewrite F1, F2, E. clear. intros L. rewrite map_length, combine_length, seq_length, Nat.min_id in L.
  assert (X : forall a (ls : list gline), nth_error (combine (seq a (length ls)) ls) i = option_map (fun l => (a + i, l)) (nth_error ls i)).
  { clear. intros a ls. revert a i. induction ls as [|x ls IH]; intros a [|i]; cbn [length seq combine nth_error option_map]; try reflexivity; [rewrite Nat.add_0_r; reflexivity|].
    rewrite (IH (S a) i). destruct (nth_error ls i); cbn [option_map]; [f_equal; f_equal; lia|reflexivity]. }
  specialize (X 0 (gd_lines d8)). destruct (nth_error (gd_lines d8) i) as [l|] eqn:EN; [|apply nth_error_None in EN; lia]. cbn [option_map Nat.add] in X.
  rewrite (nth_error_nth _ _ _ (map_nth_error _ _ _ X)). reflexivity.
Qed.
