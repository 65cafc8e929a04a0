(** PipelineLines.v - no word is lost by the detection of lines, whatever the coordinates. *)
From Coq Require Import ZArith NArith.
From Verif Require Import Base Double MathUtils Sort Elements Counter UtilsSpec Document Lines LinesSpec LinesProofs LineMergeProofs.

Lemma Ok_inj {A} (x y : A) : Ok x = Ok y -> x = y.
Proof. congruence. Qed.

Section L.
  Context (implW : (nat -> nat -> bool) -> list nat -> list nat) (implL : (tline -> tline -> bool) -> list tline -> list tline).
  Context (ordS : list (str * N) -> list (str * N)) (ordD : list (double * N) -> list (double * N)).
  Context (ordR : list (Z * list (double * list nat)) -> list (Z * list (double * list nat)))
          (ordY : list (double * list nat) -> list (double * list nat)).
  Context (acw : double) (h : heap).
  Context (HW : sort_ok implW) (HL : sort_ok implL).
  Context (HR : forall m, Permutation m (ordR m)) (HY : forall m, Permutation m (ordY m)).

  Lemma properties_words l l' : computeTextLineProperties implW ordS ordD h l = Ok l' -> Permutation (l_words l) (l_words l').
  Proof.
    unfold computeTextLineProperties. destruct (l_words l) as [|w0 t] eqn:E; [intros H; apply Ok_inj in H; subst; rewrite E; constructor|].
    rewrite <- E. destruct (std_sort implW _ (l_words l)) as [ws| |] eqn:ES; try discriminate. cbn [obind].
    destruct (if (0 <? _)%N then mostFreq ([] : str) _ else _) as [fn| |]; try discriminate. cbn [obind].
    destruct (if (0 <? _)%N then mostFreq dzero _ else _) as [fs| |]; try discriminate. cbn [obind].
    destruct (if (0 <? _)%N then counter_max _ else _) as [mx| |]; try discriminate. cbn [obind].
    destruct (if (0 <? _)%N then mostFreq dzero _ else _) as [bs| |]; try discriminate. cbn [obind].
    intros H. apply Ok_inj in H. subst l'. cbn [l_words]. exact (std_sort_perm implW _ _ _ HW ES).
  Qed.
  Lemma merge_round_words ls : forall acc prev did out did', merge_round implW ordS ordD acw h acc prev did ls = Ok (out, did') ->
    Permutation (flat_map l_words (acc ++ opt_list prev ++ ls)) (flat_map l_words out).
  Proof.
    induction ls as [|c t IH]; intros acc prev did out did' H; cbn [merge_round] in H.
    - apply Ok_inj in H. apply pair_equal_spec in H as [<- _]. rewrite app_nil_r. reflexivity.
    - destruct (do_merge acw prev c).
      + destruct prev as [p|]; [|discriminate]. destruct (mergeTextLines implW ordS ordD h c p) as [p'| |] eqn:E; try discriminate. cbn [obind] in H.
        specialize (IH _ _ _ _ _ H). rewrite <- IH. apply properties_words in E. cbn [l_words] in E.
        rewrite !flat_map_app. apply Permutation_app_head. cbn [opt_list flat_map]. rewrite !app_nil_r, app_assoc. apply Permutation_app_tail. exact E.
      + specialize (IH _ _ _ _ _ H). rewrite <- IH. rewrite <- !app_assoc. cbn [opt_list]. reflexivity.
  Qed.
  Lemma merge_rounds_words fuel : forall ls out, merge_rounds implW ordS ordD acw h fuel ls = Some (Ok out) ->
    Permutation (flat_map l_words ls) (flat_map l_words out).
  Proof.
    induction fuel as [|n IH]; intros ls out H; cbn [merge_rounds] in H; [discriminate|].
    destruct (merge_round implW ordS ordD acw h [] None false ls) as [[ls' []]| |] eqn:E; try discriminate.
    - rewrite <- (IH _ _ H). exact (merge_round_words ls [] None false ls' _ E).
    - injection H as <-. exact (merge_round_words ls [] None false ls' _ E).
  Qed.
  Lemma rotation_words n rot m out : rotation_lines implW implL ordS ordD ordY acw h n rot m = Ok out ->
    Permutation (flat_map snd m) (flat_map l_words out).
  Proof.
    unfold rotation_lines. destruct (omap _ (ordY m)) as [l0| |] eqn:EO; try discriminate. cbn [obind].
    destruct (std_sort implL (line_lt rot) l0) as [l1| |] eqn:ES; try discriminate. cbn [obind].
    destruct (merge_rounds _ _ _ _ _ _ _) as [[ls| |]|] eqn:EM; try discriminate. cbn [obind]. intros H. apply Ok_inj in H. subst out.
    pose proof (number_content n ls) as NC. apply content_pos in NC as [_ NC].
    assert (E1 : flat_map l_words (number_lines n ls) = flat_map l_words ls) by (rewrite !flat_map_concat_map, NC; reflexivity).
    rewrite E1, <- (merge_rounds_words _ _ _ EM). transitivity (flat_map l_words l0); [|apply Permutation_flat_map, (std_sort_perm implL _ _ _ HL ES)].
    transitivity (flat_map snd (ordY m)); [apply Permutation_flat_map, HY|]. apply omap_ok in EO. clear -EO HW. revert EO. generalize (ordY m). intros my EO.
    induction EO as [|e l m0 l2 H _ IH]; cbn [flat_map]; [constructor|]. apply Permutation_app; [|exact IH].
    apply properties_words in H. exact H.
  Qed.
  Lemma rotations_words cls : forall n out, rotations_lines implW implL ordS ordD ordY acw h n cls = Ok out ->
    Permutation (words_in cls) (flat_map l_words (concat out)).
  Proof.
    induction cls as [|[r m] t IH]; intros n out H; cbn [rotations_lines] in H; [apply Ok_inj in H; subst; constructor|].
    destruct (rotation_lines _ _ _ _ _ _ _ n r m) as [g| |] eqn:ER; try discriminate. cbn [obind] in H.
    destruct (rotations_lines _ _ _ _ _ _ _ _ t) as [gs| |] eqn:EG; try discriminate. cbn [obind] in H. apply Ok_inj in H. subst out.
    unfold words_in. cbn [flat_map snd concat]. rewrite flat_map_app. apply Permutation_app; [exact (rotation_words _ _ _ _ ER)|exact (IH _ _ EG)].
  Qed.
  Lemma segment_words n ws gs : segment_lines implW implL ordS ordD ordR ordY acw h n ws = Ok gs ->
    Permutation (flat_map (with_parts h) ws) (flat_map l_words (concat gs)).
  Proof.
    unfold segment_lines. destruct ws as [|w t] eqn:E; [intros H; apply Ok_inj in H; subst; constructor|]. rewrite <- E. intros H.
    rewrite <- (rotations_words _ _ _ H), <- clusters_words. unfold words_in. apply Permutation_flat_map, HR.
  Qed.
  (** The words of the lines of a page; and the results have the shapes of the pages and segments. *)
  Lemma segments_words segs : forall n r, segments_lines implW implL ordS ordD ordR ordY acw h n segs = Ok r ->
    Permutation (flat_map (with_parts h) (flat_map snd segs)) (flat_map l_words (page_lines r)) /\ length r = length segs.
  Proof.
    induction segs as [|[box ws] t IH]; intros n r H; cbn [segments_lines] in H; [apply Ok_inj in H; subst; split; constructor|].
    destruct (segment_lines _ _ _ _ _ _ _ _ n ws) as [gs| |] eqn:EG; try discriminate. cbn [obind] in H.
    destruct (match ws with [] => _ | _ :: _ => _ end) as [tb| |]; try discriminate. cbn [obind] in H.
    destruct (segments_lines _ _ _ _ _ _ _ _ _ t) as [rest| |] eqn:ER; try discriminate. cbn [obind] in H. apply Ok_inj in H. subst r.
    destruct (IH _ _ ER) as [P L]. split; [|cbn [length]; rewrite L; reflexivity].
    unfold page_lines. cbn [flat_map snd fst]. rewrite !flat_map_app. apply Permutation_app; [exact (segment_words _ _ _ EG)|exact P].
  Qed.
  Lemma detect_words absd pages : forall n r, detectTextLines implW implL ordS ordD ordR ordY acw absd h n pages = Ok r ->
    Forall2 (fun segs rp => Permutation (flat_map (with_parts h) (flat_map snd segs)) (flat_map l_words (page_lines (fst rp))) /\
                            length (fst rp) = length segs) pages r.
  Proof.
    induction pages as [|segs t IH]; intros n r H; cbn [detectTextLines] in H; [apply Ok_inj in H; subst; constructor|].
    destruct (segments_lines _ _ _ _ _ _ _ _ n segs) as [rp| |] eqn:ES; try discriminate. cbn [obind] in H.
    destruct (detectTextLines _ _ _ _ _ _ _ _ _ _ t) as [rest| |] eqn:ER; try discriminate. cbn [obind] in H. apply Ok_inj in H. subst r.
    constructor; [exact (segments_words _ _ _ ES)|exact (IH _ _ ER)].
  Qed.
End L.
