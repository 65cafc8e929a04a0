(** PipelineAccents.v - the characters of the pages behind the merging of diacritical marks (C87). *)
From Coq Require Import ZArith NArith Permutation.
From Verif Require Import Base Double Elements Document Pipeline PipelineSpec PipelineProofs PipelineLines PipelineWords PipelineWhole PipelineStats.
From Verif Require Import TotalWhole.
From Verif Require PipelineStages Cli Parsing Diacritics DiacriticsSpec Statistics Words PageSegmentation Lines Blocks Scripts.
Local Open Scope list_scope.

Definition page_chars (d : gdoc) : list (list character) := map g_chars (gd_pages d).

Lemma place_words_chars ps : forall n wss, length wss = length ps -> map g_chars (fst (place_words n ps wss)) = map g_chars ps.
Proof.
  induction ps as [|p ps IH]; intros n [|ws wss] L; try discriminate; [reflexivity|]. cbn [place_words]. specialize (IH (n + length ws)%nat wss (f_equal pred L)).
  destruct (place_words _ ps wss) as [ps' rest]. cbn [fst map] in *. rewrite IH. reflexivity.
Qed.
Lemma omap_len {A B} (f : A -> outcome B) l l' : omap f l = Ok l' -> length l' = length l.
Proof. intros H. apply omap_F2 in H. symmetry. exact (F2_len _ _ _ H). Qed.
Lemma words_chars m cfg d d' : run_words m cfg d = Ok d' -> page_chars d' = page_chars d.
Proof.
  unfold run_words. destruct (omap _ (gd_pages d)) as [wss| |] eqn:E; try discriminate. cbn [obind]. intros H.
  pose proof (place_words_chars (gd_pages d) 0 (map (Words.mergeStackedMathSymbols cfg) wss)) as K. rewrite map_length, (omap_len _ _ _ E) in K. specialize (K eq_refl).
  destruct (place_words 0 _ _) as [ps ws]. apply Ok_inj in H. subst d'. exact K.
Qed.
Lemma F2_chars (R : gpage -> gpage -> Prop) l l' : Forall2 R l l' -> (forall p p', R p p' -> g_chars p' = g_chars p) -> map g_chars l' = map g_chars l.
Proof. intros F H. induction F as [|p p' l l' X F IH]; [reflexivity|]. cbn [map]. rewrite IH, (H p p' X). reflexivity. Qed.
Lemma seg_chars m d d' : run_segmentation m d = Ok d' -> page_chars d' = page_chars d.
Proof.
  unfold run_segmentation. cbv zeta. destruct (omap _ (gd_pages d)) as [ps| |] eqn:E; try discriminate. cbn [obind]. intros H. apply Ok_inj in H. subst d'. apply omap_F2 in E.
  refine (F2_chars _ _ _ E _). intros p p' X. cbv beta in X. destruct (from_run _) as [r| |]; try discriminate. cbn [obind] in X. apply Ok_inj in X. subst p'. reflexivity.
Qed.
Lemma place_pages_chars ps : forall n k r, length r = length ps -> map g_chars (fst (place_pages n k ps r)) = map g_chars ps.
Proof.
  induction ps as [|p ps IH]; intros n k [|[rp hs] r] L; try discriminate; [reflexivity|]. cbn [place_pages]. destruct (place_lines _ _ _ _) as [segs ls].
  specialize (IH (n + length ls)%nat (k + length segs)%nat r (f_equal pred L)). destruct (place_pages _ _ ps r) as [ps' rest]. cbn [fst map] in *. rewrite IH. reflexivity.
Qed.
Lemma lines_chars m d d' : sane m -> run_lines m d = Ok d' -> page_chars d' = page_chars d.
Proof.
  intros SA H. unfold run_lines in H. destruct (Lines.detectTextLines _ _ _ _ _ _ _ _ _ _ _) as [x| |] eqn:E; try discriminate. cbn [obind] in H.
  pose proof (place_pages_chars (gd_pages d) 0 0 x) as K.
  destruct SA as (_ & _ & HW & HL & _ & _ & HS & HD & _ & HR & HY). apply (detect_words _ _ _ _ _ _ _ _ HW HL HR HY) in E. apply F2_map_l in E.
  rewrite <- (F2_len _ _ _ E) in K. specialize (K eq_refl). destruct (place_pages 0 0 (gd_pages d) x) as [ps ls]. apply Ok_inj in H. subst d'. exact K.
Qed.

Lemma fill_chars2 d : page_chars (fill_lines2 d) = page_chars d.
Proof. unfold page_chars, fill_lines2, set_pages. cbn [gd_pages]. rewrite map_map. reflexivity. Qed.
Lemma fill_chars1 d : page_chars (fill_lines1 d) = page_chars d.
Proof. unfold page_chars, fill_lines1, set_pages. cbn [gd_pages]. rewrite map_map. reflexivity. Qed.

Lemma chars_final m cfg c es code d : sane m -> text_enabled c -> process_pdf m cfg c es = Ok (code, d) ->
  exists r, Parsing.parse_events (m_parseFont m) (m_mapUnicode m) (m_fromBytes m) (m_iswspace m) (m_charId m) es = Ok r /\
    Forall2 (fun q p => DiacriticsSpec.unmerged (Parsing.pp_chars q) /\
      (Cli.disabled c Cli.MDiacritics = false -> Diacritics.merge_marks (m_compose m) (Parsing.pp_chars q) = Ok (g_chars p)) /\
      (Cli.disabled c Cli.MDiacritics = true -> g_chars p = Parsing.pp_chars q)) (Parsing.pages r) (gd_pages d).
Proof.
  intros SA TE H. destruct (steps m cfg c es code d SA TE H) as (r & d0 & d1 & d2 & d3 & d4 & d5 & d6 & d7 & d8 & d9 & da & db & EP & E0 & E1 & E2 & E3 & E4 & E5 & E6 & E7 & E8 & E9 & Ea & Eb & Ed & I4 & N4 & L4 & G5 & I8).
  exists r. split; [exact EP|].
  assert (K : page_chars d = page_chars d2).
  { rewrite Ed, fill_chars2. transitivity (page_chars da). { destruct Eb as [[_ Eb]|[_ ->]]; [|reflexivity]. unfold run_dehyphenation in Eb. cbv zeta in Eb. apply Ok_inj in Eb. subst db. reflexivity. }
    transitivity (page_chars d9).
    { destruct Ea as [[_ Ea]|[_ ->]]; [|reflexivity]. destruct (order_keep _ _ _ Ea) as (B & _). refine (F2_chars _ _ _ B _). intros p p' [(_ & _ & X & _) _]. exact X. }
    transitivity (page_chars d8). { destruct (blocks_keep m cfg _ d8 d9 SA I8 E9) as (B & _). refine (F2_chars _ _ _ B _). intros p p' [(_ & _ & X & _) _]. exact X. }
    transitivity (page_chars d7). { destruct E8 as [[_ E8]|[_ ->]]; [|reflexivity]. apply lineStats_inv in E8 as (P & _). unfold page_chars. rewrite P. reflexivity. }
    transitivity (page_chars d6). { transitivity (page_chars (fill_lines1 d6)); [|apply fill_chars1]. destruct E7 as [[_ E7]|[_ ->]]; [|reflexivity]. destruct (PipelineStages.core_scripts _ _ E7) as (_ & _ & B). unfold page_chars. rewrite B. reflexivity. }
    rewrite (lines_chars m d5 d6 SA E6), (seg_chars m d4 d5 E5).
    transitivity (page_chars d3). { destruct E4 as [[_ E4]|[_ ->]]; [|reflexivity]. apply wordStats_inv in E4 as (P & _). unfold page_chars. rewrite P. reflexivity. }
    exact (words_chars m cfg d2 d3 E3). }
  assert (R0 : run_parsing m es gdoc_init = Ok d0) by (unfold run_parsing; rewrite EP, E0; reflexivity).
  destruct (parsing_inv m (Parsing.pages r) es d0 r EP eq_refl R0) as [_ F0]. unfold fresh_chars in F0. subst d0. cbn [gd_pages] in F0.
  assert (P1 : gd_pages d1 = map new_page (Parsing.pages r)). { destruct E1 as [[_ E1]|[_ ->]]; [|reflexivity]. apply glyphStats_inv in E1 as (P & _). exact P. }
  assert (K2 : Forall2 (fun q cs => DiacriticsSpec.unmerged (Parsing.pp_chars q) /\
      (Cli.disabled c Cli.MDiacritics = false -> Diacritics.merge_marks (m_compose m) (Parsing.pp_chars q) = Ok cs) /\
      (Cli.disabled c Cli.MDiacritics = true -> cs = Parsing.pp_chars q)) (Parsing.pages r) (page_chars d2)).
  { destruct E2 as [[EN E2]|[DI ->]].
    - unfold run_diacritics in E2. rewrite P1 in E2. destruct (omap _ _) as [ps| |] eqn:E; try discriminate. cbn [obind] in E2. apply Ok_inj in E2. subst d2. apply omap_F2 in E. apply F2_map_l in E.
      unfold page_chars, set_pages. cbn [gd_pages]. clear -E F0 EN. revert F0. induction E as [|q p qs ps X E IH]; intros F0; [constructor|]. inversion F0 as [|? ? U F1]; subst. constructor; [|exact (IH F1)].
      split; [exact U|]. split; [|congruence]. intros _. cbv beta in X. cbn [new_page g_chars] in X. destruct (Diacritics.merge_marks _ _) as [cs| |]; try discriminate. cbn [obind] in X. apply Ok_inj in X. subst p. reflexivity.
    - unfold page_chars. rewrite P1. clear -F0 DI. induction (Parsing.pages r) as [|q qs IH]; [constructor|]. inversion F0 as [|? ? U F1]; subst. constructor; [|exact (IH F1)].
      split; [exact U|]. split; [congruence|reflexivity]. }
  rewrite <- K in K2. unfold page_chars in K2. clear -K2. revert K2. generalize (gd_pages d). induction (Parsing.pages r) as [|q qs IH]; intros [|p ps] F; inversion F; subst; constructor; [assumption|]. apply IH. assumption.
Qed.
