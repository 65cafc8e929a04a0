(** TextlessProofs.v - without one of the modules that extract text, there are no blocks. *)
From Coq Require Import ZArith NArith Permutation.
From Verif Require Import Base Double MathUtils Elements Sort Document Pipeline PipelineSpec PipelineLines PipelineProofs PipelineWords PipelineWhole LinesSpec.
From Verif Require Fonts Parsing Words Lines Blocks Cli PageSegmentation PropsBlocks PropsSegmentation PipelineContent PropsContent.
Local Opaque TOL dadd dsub ddiv dmul dec DBL_MAX DBL_MIN.

(** [PropsContent.process_keeps], for the modules that run. *)
Lemma process_keeps_run {T} (I : T -> Prop) c run l1 l2 s code s' : (forall s1, run Cli.MParsing s = Ok s1 -> I s1) ->
  (forall x s1 s2, x <> Cli.MParsing -> Cli.disabled c x = false -> I s1 -> run x s1 = Ok s2 -> I s2) -> (forall s1, I s1 -> I (l1 s1)) -> (forall s1, I s1 -> I (l2 s1)) ->
  Cli.process c None run l1 l2 s = Ok (code, s') -> I s'.
Proof.
  intros HP HM H1 H2 H. unfold Cli.process in H. destruct (run Cli.MParsing s) as [s0| |] eqn:E0; try discriminate. cbn [obind] in H. pose proof (HP _ eq_refl) as I0.
  assert (ST : forall x s1 s2, x <> Cli.MParsing -> I s1 -> Cli.step c run x s1 = Ok s2 -> I s2).
  { intros x s1 s2 N HI E. unfold Cli.step in E. clear H. destruct (Cli.disabled c x) eqn:D; cbn [Bool.eqb] in E; [apply Ok_inj in E; subst; exact HI|exact (HM _ _ _ N D HI E)]. }
  destruct (Cli.disabled c Cli.MLines) eqn:DL; cbn [Bool.eqb] in H;
  repeat match type of H with
  | obind (Cli.step c run ?x ?s1) _ = _ => let E := fresh in destruct (Cli.step c run x s1) eqn:E; try discriminate; cbn [obind] in H; apply ST in E; [|discriminate|assumption]
  | obind (Ok _) _ = _ => cbn [obind] in H
  | obind (obind (run Cli.MLines ?s1) _) _ = _ =>
      destruct (run Cli.MLines s1) eqn:EL; try discriminate; cbn [obind] in H; apply HM in EL; [|discriminate|exact DL|assumption]; apply H1 in EL
  end; (apply Ok_inj, pair_equal_spec in H as [_ <-]; apply H2; assumption).
Qed.

Lemma Forall_map_F2 {A B} (R : A -> B -> Prop) (P : A -> Prop) (Q : B -> Prop) l l' : Forall2 R l l' -> (forall x y, R x y -> P x -> Q y) -> Forall P l -> Forall Q l'.
Proof. intros F H. induction F as [|x y l l' X _ IH]; intros FP; [constructor|]. inversion FP; subst. constructor; [exact (H _ _ X H2)|exact (IH H3)]. Qed.

Section Textless.
  Context (m : machine) (cfg : Words.words_config) (SA : sane m) (c : Cli.config) (RO : Cli.disabled c Cli.MReadingOrder = true).

  Definition blockless (p : gpage) : Prop := g_blocks p = [].
  Lemma words_pages ps : forall n wss (P : gpage -> Prop), Forall P ps -> (forall l p, P p -> P (set_words l p)) -> Forall P (fst (place_words n ps wss)).
  Proof.
    induction ps as [|p ps IH]; intros n wss P F H; cbn [place_words]; [constructor|]. inversion F; subst. destruct wss as [|ws wss]; [constructor|].
    specialize (IH (n + length ws) wss P H3 H). destruct (place_words _ ps wss). cbn [fst] in *. constructor; [apply H; assumption|exact IH].
  Qed.
  Lemma lines_pages ps : forall n k r (P : gpage -> Prop), Forall P ps -> (forall segs p, P p -> P (set_segs segs p)) -> Forall P (fst (place_pages n k ps r)).
  Proof.
    induction ps as [|p ps IH]; intros n k r P F H; cbn [place_pages]; [constructor|]. inversion F; subst. destruct r as [|[rp hs] r]; [constructor|].
    destruct (place_lines _ _ _ _) as [segs ls]. specialize (IH (n + length ls) (k + length segs) r P H3 H). destruct (place_pages _ _ ps r). cbn [fst] in *. constructor; [apply H; assumption|exact IH].
  Qed.

  (** *** Without the detection of blocks *)
  Lemma blockless_keeps : Cli.disabled c Cli.MBlocks = true -> forall es code d, process_pdf m cfg c es = Ok (code, d) -> Forall blockless (gd_pages d).
  Proof.
    intros DB es code d. unfold process_pdf. apply (process_keeps_run (fun d => Forall blockless (gd_pages d))).
    - intros s1 E. cbn [run_module] in E. unfold run_parsing in E. destruct (Parsing.parse_events _ _ _ _ _ _) as [r| |]; try discriminate. cbn [obind] in E. apply Ok_inj in E. subst s1.
      cbn [gd_pages]. apply Forall_forall. intros p Hp. apply in_map_iff in Hp as (q & <- & _). reflexivity.
    - intros x s1 s2 N D I E. destruct x; cbn [run_module] in E; try congruence.
      + unfold run_glyphStats in E. destruct (Statistics.glyphStatistics _ _ _ _); try discriminate. cbn [obind] in E. apply Ok_inj in E. subst s2. exact I.
      + unfold run_diacritics in E. destruct (omap _ _) as [ps| |] eqn:EP; try discriminate. cbn [obind] in E. apply Ok_inj in E. subst s2. apply omap_F2 in EP. cbn [set_pages gd_pages].
        refine (Forall_map_F2 _ _ _ _ _ EP _ I). intros p p' X Y. destruct (Diacritics.merge_marks _ _); try discriminate. cbn [obind] in X. apply Ok_inj in X. subst p'. exact Y.
      + unfold run_words in E. destruct (omap _ _) as [wss| |]; try discriminate. cbn [obind] in E. pose proof (words_pages (gd_pages s1) 0 (map (Words.mergeStackedMathSymbols cfg) wss) blockless I (fun l p H => H)) as X.
        destruct (place_words _ _ _). apply Ok_inj in E. subst s2. exact X.
      + unfold run_wordStats in E. destruct (Statistics.wordStatistics _ _ _); try discriminate. cbn [obind] in E. apply Ok_inj in E. subst s2. exact I.
      + unfold run_segmentation in E. cbv zeta in E. destruct (omap _ _) as [ps| |] eqn:EP; try discriminate. cbn [obind] in E. apply Ok_inj in E. subst s2. apply omap_F2 in EP. cbn [set_pages gd_pages].
        refine (Forall_map_F2 _ _ _ _ _ EP _ I). intros p p' X Y. destruct (from_run _); try discriminate. cbn [obind] in X. apply Ok_inj in X. subst p'. exact Y.
      + unfold run_lines in E. destruct (Lines.detectTextLines _ _ _ _ _ _ _ _ _ _ _) as [r| |]; try discriminate. cbn [obind] in E. pose proof (lines_pages (gd_pages s1) 0 0 r blockless I (fun l p H => H)) as X.
        destruct (place_pages _ _ _ _). apply Ok_inj in E. subst s2. exact X.
      + unfold run_scripts in E. cbv zeta in E. destruct (Scripts.detectScripts _ _ _). apply Ok_inj in E. subst s2. exact I.
      + unfold run_lineStats in E. destruct (Statistics.lineStatistics _ _ _ _); try discriminate. cbn [obind] in E. apply Ok_inj in E. subst s2. exact I.
      + unfold run_dehyphenation in E. cbv zeta in E. apply Ok_inj in E. subst s2. exact I.
    - intros s1 I. unfold fill_lines1. cbn [set_pages gd_pages]. apply Forall_map. exact I.
    - intros s1 I. unfold fill_lines2. cbn [set_pages gd_pages]. apply Forall_map. exact I.
  Qed.

  (** *** Without words, segments or lines *)
  Definition lineless (p : gpage) : Prop :=
    g_blocks p = [] /\ (Cli.disabled c Cli.MSegmentation = true -> g_segs p = []) /\
    (Cli.disabled c Cli.MWords = true -> g_words p = [] /\ Forall (fun s => sg_words s = []) (g_segs p)) /\
    Forall (fun s => sg_lines s = []) (g_segs p).
  Lemma place_lines_none segs : forall n k r, length r = length segs -> page_lines r = [] ->
    map sg_words (fst (place_lines n k segs r)) = map sg_words segs /\ map sg_lines (fst (place_lines n k segs r)) = map sg_lines segs.
  Proof.
    induction segs as [|s segs IH]; intros n k r L H; destruct r as [|[gs tb] r]; try discriminate; cbn [place_lines]; [split; reflexivity|].
    unfold page_lines in H. cbn [flat_map fst] in H. apply app_eq_nil in H as [H1 H2]. rewrite H1. cbn [length seq].
    specialize (IH (n + 0) (S k) r (f_equal pred L) H2). destruct (place_lines _ _ segs r). cbn [fst map sg_words sg_lines] in *. destruct IH as [-> ->]. rewrite app_nil_r. split; reflexivity.
  Qed.
  Lemma Forall_nil_map {A} (f : seg -> list A) l l' : map f l = map f l' -> Forall (fun s => f s = []) l' -> Forall (fun s => f s = []) l.
  Proof.
    intros E F. apply Forall_forall. intros s Hs. apply (in_map f) in Hs. rewrite E in Hs. apply in_map_iff in Hs as (s' & E' & Hs'). rewrite Forall_forall in F. rewrite <- E'. exact (F s' Hs').
  Qed.
  Lemma place_pages_none ps : forall n k r, Forall2 (fun p rp => length (fst rp) = length (g_segs p) /\ page_lines (fst rp) = []) ps r -> Forall lineless ps ->
    Forall lineless (fst (place_pages n k ps r)).
  Proof.
    induction ps as [|p ps IH]; intros n k r F2 F; inversion F2 as [|? rp ? r' [L E] F2']; subst; cbn [place_pages fst]; [constructor|]. inversion F as [|? ? (X1 & X2 & X3 & X4) F']; subst.
    destruct rp as [rp hs]. cbn [fst] in L, E. destruct (place_lines_none (g_segs p) n k rp L E) as [Y1 Y2]. destruct (place_lines _ _ _ _) as [segs ls]. cbn [fst] in Y1, Y2.
    specialize (IH (n + length ls) (k + length segs) r' F2' F'). destruct (place_pages _ _ ps r'). cbn [fst] in *. constructor; [|exact IH].
    unfold lineless. cbn [set_segs g_blocks g_segs g_words]. split; [exact X1|]. split; [|split].
    - intros D. specialize (X2 D). rewrite X2 in Y1. destruct segs; [reflexivity|discriminate].
    - intros D. destruct (X3 D) as [A B]. split; [exact A|exact (Forall_nil_map _ _ _ Y1 B)].
    - exact (Forall_nil_map _ _ _ Y2 X4).
  Qed.
  Lemma lines_lineless d d' : Cli.disabled c Cli.MSegmentation = true \/ Cli.disabled c Cli.MWords = true -> Forall lineless (gd_pages d) -> run_lines m d = Ok d' -> Forall lineless (gd_pages d').
  Proof.
    intros D F H. unfold run_lines in H. destruct (Lines.detectTextLines _ _ _ _ _ _ _ _ _ _ _) as [r| |] eqn:E; try discriminate. cbn [obind] in H.
    pose proof SA as (_ & _ & HW & HL & _ & _ & HS & HD & _ & HR & HY).
    pose proof (detect_words _ _ _ _ _ _ _ _ HW HL HR HY _ _ _ _ E) as E1. pose proof (PipelineContent.detect_made _ _ _ _ _ _ _ _ HW HL HS HD HR HY _ _ _ _ E) as E2. apply F2_map_l in E1, E2.
    assert (X : Forall2 (fun p rp => length (fst rp) = length (g_segs p) /\ page_lines (fst rp) = []) (gd_pages d) r).
    { clear H E. revert F E2. induction E1 as [|p rp ps r [P _] _ IH]; intros F E2; [constructor|]. inversion F as [|? ? (_ & X2 & X3 & _) F']; subst. inversion E2 as [|? ? ? ? [L M] E2']; subst.
      constructor; [|exact (IH F' E2')]. rewrite map_length in L. split; [exact L|].
      assert (NW : forall s, In s (g_segs p) -> sg_words s = []).
      { intros s Hs. destruct D as [D|D]; [rewrite (X2 D) in Hs; destruct Hs|]. destruct (X3 D) as [_ B]. rewrite Forall_forall in B. exact (B s Hs). }
      assert (N0 : flat_map snd (map (fun s => (sg_pos s, sg_words s)) (g_segs p)) = []).
      { clear -NW. induction (g_segs p) as [|s l IH]; cbn [map flat_map snd]; [reflexivity|]. rewrite (NW s (or_introl eq_refl)). apply IH. intros s' Hs'. apply NW. right. exact Hs'. }
      rewrite N0 in P. cbn [flat_map] in P. apply Permutation_nil in P.
      assert (ML : Forall (PipelineContent.line_made (word_heap (gd_words d))) (page_lines (fst rp))).
      { apply M. intros s Hs. apply in_map_iff in Hs as (s0 & <- & Hs). cbn [snd]. rewrite (NW s0 Hs). split; intros w []. }
      destruct (page_lines (fst rp)) as [|l ls]; [reflexivity|]. exfalso. inversion ML as [|? ? [NE _] _]; subst. apply NE. cbn [flat_map] in P. apply app_eq_nil in P as [P _]. exact P. }
    pose proof (place_pages_none (gd_pages d) 0 0 r X F) as Y. destruct (place_pages _ _ _ _). apply Ok_inj in H. subst d'. exact Y.
  Qed.
  Lemma segmentation_lineless d d' : Cli.disabled c Cli.MSegmentation = false -> Forall lineless (gd_pages d) -> run_segmentation m d = Ok d' -> Forall lineless (gd_pages d').
  Proof.
    intros D F H. unfold run_segmentation in H. cbv zeta in H. destruct (omap _ _) as [ps| |] eqn:EP; try discriminate. cbn [obind] in H. apply Ok_inj in H. subst d'. apply omap_F2 in EP. cbn [set_pages gd_pages].
    refine (Forall_map_F2 _ _ _ _ _ EP _ F). clear -SA D. intros p p' X (X1 & X2 & X3 & X4). pose proof SA as (HP & HT & _).
    destruct (PageSegmentation.processPage _ _ _ _) as [[[segs cuts]| |]|] eqn:EP; cbn [from_run obind fst] in X; try discriminate. apply Ok_inj in X. subst p'.
    unfold lineless. cbn [set_segs g_blocks g_segs g_words]. split; [exact X1|]. split; [congruence|]. split.
    - intros DW. destruct (X3 DW) as [A B]. split; [exact A|]. apply Forall_app. split; [exact B|]. apply Forall_map, Forall_forall. intros s Hs. unfold new_seg. cbn [sg_words].
      destruct (PropsSegmentation.C30_partition _ _ _ HP HT _ _ _ EP) as [PE _]. unfold page_elems in PE. rewrite A in PE.
      cbn [PageSegmentation.pp_words PageSegmentation.pp_figures PageSegmentation.pp_graphics PageSegmentation.pp_shapes map app] in PE.
      assert (N : forall e, In e (PageSegmentation.seg_elements s) -> PageSegmentation.pe_word e = None).
      { intros e He. assert (I : In e (concat (map PageSegmentation.seg_elements segs))) by (apply in_concat; exists (PageSegmentation.seg_elements s); split; [apply in_map, Hs|exact He]).
        apply (Permutation_in _ (Permutation_sym PE)) in I. rewrite !in_app_iff in I. destruct I as [I|[I|I]]; apply in_map_iff in I as (x & <- & _); reflexivity. }
      clear -N. induction (PageSegmentation.seg_elements s) as [|e l IH]; cbn [filter map]; [reflexivity|]. rewrite (N e (or_introl eq_refl)). cbn [is_some]. apply IH. intros e' He'. apply N. right. exact He'.
    - apply Forall_app. split; [exact X4|]. apply Forall_map, Forall_forall. intros s _. reflexivity.
  Qed.
  Lemma blocks_lineless d d' : Forall lineless (gd_pages d) -> run_blocks m d = Ok d' -> Forall lineless (gd_pages d').
  Proof.
    intros F H. unfold run_blocks in H. destruct (Blocks.detectTextBlocks _ _ _ _ _ _ _ _ _) as [[[pre fin] lh]| |] eqn:E; try discriminate. cbn [obind] in H. apply Ok_inj in H. subst d'.
    pose proof SA as (_ & _ & _ & _ & _ & _ & HS & HD & _).
    assert (EN : forall p, In p (gd_pages d) -> concat (map sg_lines (g_segs p)) = []).
    { intros p Hp. rewrite Forall_forall in F. destruct (F p Hp) as (_ & _ & _ & X). clear -X. induction X as [|s l E _ IH]; cbn [map concat]; [reflexivity|]. rewrite E. exact IH. }
    assert (ND : NoDup (concat (map (@concat nat) (map (fun p => map sg_lines (g_segs p)) (gd_pages d))))).
    { rewrite map_map, (map_ext_in _ (fun _ => []) _ EN). replace (concat _) with (@nil nat); [constructor|]. clear. induction (gd_pages d); cbn [map concat]; [reflexivity|assumption]. }
    destruct (PropsBlocks.C33_partition _ _ _ _ _ _ _ _ _ _ _ _ HS HD ND E) as (_ & PT & NE & _). clear E ND.
    apply F2_map_l in PT. cbn [gd_pages].
    assert (NF : forall b, In b (concat fin) -> Blocks.tb_lines b <> []) by (intros b Hb; apply NE; right; exact Hb). clear NE.
    revert F EN NF. induction PT as [|p bs ps fin X _ IH]; intros F EN NF; cbn [combine map]; [constructor|]. inversion F as [|? ? F1 F2]; subst.
    constructor; [|apply IH; [exact F2|intros q Hq; apply EN; right; exact Hq|intros b Hb; apply NF; cbn [concat]; apply in_or_app; right; exact Hb]].
    rewrite (EN p (or_introl eq_refl)) in X. destruct bs as [|b bs].
    - cbn [map]. destruct F1 as (X1 & X2 & X3 & X4). split; [cbn [set_blocks g_blocks]; rewrite X1; reflexivity|]. split; [exact X2|]. split; assumption.
    - exfalso. cbn [map concat] in X. apply app_eq_nil in X as [X _]. apply (NF b); [cbn [concat]; left; reflexivity|exact X].
  Qed.
  Lemma lineless_keeps : Cli.disabled c Cli.MSegmentation = true \/ Cli.disabled c Cli.MWords = true \/ Cli.disabled c Cli.MLines = true ->
    forall es code d, process_pdf m cfg c es = Ok (code, d) -> Forall lineless (gd_pages d).
  Proof.
    intros DB es code d. unfold process_pdf. apply (process_keeps_run (fun d => Forall lineless (gd_pages d))).
    - intros s1 E. cbn [run_module] in E. unfold run_parsing in E. destruct (Parsing.parse_events _ _ _ _ _ _) as [r| |]; try discriminate. cbn [obind] in E. apply Ok_inj in E. subst s1.
      cbn [gd_pages]. apply Forall_forall. intros p Hp. apply in_map_iff in Hp as (q & <- & _). unfold new_page, lineless. cbn [g_blocks g_segs g_words]. repeat split; constructor.
    - intros x s1 s2 N D I E. destruct x; cbn [run_module] in E; try congruence.
      + unfold run_glyphStats in E. destruct (Statistics.glyphStatistics _ _ _ _); try discriminate. cbn [obind] in E. apply Ok_inj in E. subst s2. exact I.
      + unfold run_diacritics in E. destruct (omap _ _) as [ps| |] eqn:EP; try discriminate. cbn [obind] in E. apply Ok_inj in E. subst s2. apply omap_F2 in EP. cbn [set_pages gd_pages].
        refine (Forall_map_F2 _ _ _ _ _ EP _ I). intros p p' X Y. destruct (Diacritics.merge_marks _ _); try discriminate. cbn [obind] in X. apply Ok_inj in X. subst p'. exact Y.
      + unfold run_words in E. destruct (omap _ _) as [wss| |]; try discriminate. cbn [obind] in E.
        pose proof (words_pages (gd_pages s1) 0 (map (Words.mergeStackedMathSymbols cfg) wss) lineless I) as X.
        destruct (place_words _ _ _). apply Ok_inj in E. subst s2. apply X. intros ws p (X1 & X2 & X3 & X4). split; [exact X1|]. split; [exact X2|]. split; [congruence|exact X4].
      + unfold run_wordStats in E. destruct (Statistics.wordStatistics _ _ _); try discriminate. cbn [obind] in E. apply Ok_inj in E. subst s2. exact I.
      + exact (segmentation_lineless _ _ D I E).
      + apply (lines_lineless s1 s2); [destruct DB as [H|[H|H]]; [left; exact H|right; exact H|congruence]|exact I|exact E].
      + unfold run_scripts in E. cbv zeta in E. destruct (Scripts.detectScripts _ _ _). apply Ok_inj in E. subst s2. exact I.
      + unfold run_lineStats in E. destruct (Statistics.lineStatistics _ _ _ _); try discriminate. cbn [obind] in E. apply Ok_inj in E. subst s2. exact I.
      + exact (blocks_lineless _ _ I E).
      + unfold run_dehyphenation in E. cbv zeta in E. apply Ok_inj in E. subst s2. exact I.
    - intros s1 I. unfold fill_lines1. cbn [set_pages gd_pages]. apply Forall_map. exact I.
    - intros s1 I. unfold fill_lines2. cbn [set_pages gd_pages]. apply Forall_map. exact I.
  Qed.
End Textless.
Lemma textless m cfg c es code d : sane m -> ~ text_enabled c -> Cli.disabled c Cli.MReadingOrder = true -> process_pdf m cfg c es = Ok (code, d) ->
  forall p, In p (gd_pages d) -> g_blocks p = [].
Proof.
  intros SA NT RO H p Hp. destruct (Cli.disabled c Cli.MBlocks) eqn:DB.
  - pose proof (blockless_keeps m cfg c RO DB es code d H) as F. rewrite Forall_forall in F. exact (F p Hp).
  - assert (F : Forall (lineless c) (gd_pages d)).
    { apply (lineless_keeps m cfg SA c RO) with (es := es) (code := code); [|exact H].
      destruct (Cli.disabled c Cli.MSegmentation) eqn:E1; [tauto|]. destruct (Cli.disabled c Cli.MWords) eqn:E2; [tauto|]. destruct (Cli.disabled c Cli.MLines) eqn:E3; [tauto|].
      exfalso. apply NT. repeat split; assumption. }
    rewrite Forall_forall in F. exact (proj1 (F p Hp)).
Qed.
