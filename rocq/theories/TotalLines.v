(** TotalLines.v - the lines of a document with ordinary words. *)
From Coq Require Import ZArith NArith.
From Verif Require Import Base Double DoubleFacts MathUtils Sort Elements Counter UtilsSpec GeometrySpec Document Lines LinesSpec LinesProofs LineMergeProofs LinesDefined
  TotalSpec TotalPos PipelineLines PropsLines.
Local Opaque TOL dadd dsub ddiv dmul dec DBL_MAX DBL_MIN.

Lemma mostFreq_key {K} (P : K -> Prop) (k0 k : K) l : P k0 -> (forall e, In e l -> P (fst e)) -> mostFreq k0 l = Ok k -> P k.
Proof.
  intros P0 PL. unfold mostFreq, mostFreqAndCount.
  assert (X : forall l acc, P (fst acc) -> (forall e, In e l -> P (fst e)) -> P (fst (fold_left (fun (acc : K * N) e => if (snd acc <? snd e)%N then e else acc) l acc))).
  { clear. induction l as [|e l IH]; intros acc A H; cbn [fold_left]; [exact A|]. apply IH; [destruct (_ <? _)%N; [apply H; left; reflexivity|exact A]|].
    intros x Hx. apply H. right. exact Hx. }
  specialize (X l (k0, 0%N) P0 PL). destruct (fold_left _ l (k0, 0%N)) as [k1 n1]. destruct (n1 =? 0)%N; cbn [obind fst] in *; [discriminate|]. intros H. apply Ok_inj in H. subst. exact X.
Qed.

Section T.
  Context (implW : (nat -> nat -> bool) -> list nat -> list nat) (implL : (tline -> tline -> bool) -> list tline -> list tline).
  Context (ordS : list (str * N) -> list (str * N)) (ordD : list (double * N) -> list (double * N)).
  Context (ordR : list (Z * list (double * list nat)) -> list (Z * list (double * list nat)))
          (ordY : list (double * list nat) -> list (double * list nat)).
  Context (acw : double) (h : heap).
  Context (HW : sort_ok implW) (HL : sort_ok implL).
  Context (HS : forall m, Permutation m (ordS m)) (HD : forall m, Permutation m (ordD m)).
  Context (HR : forall m, Permutation m (ordR m)) (HY : forall m, Permutation m (ordY m)).
  Context (n : Z) (W : nat -> Prop).
  Context (HWD : forall w, W w -> regular_word (h w) /\ on_page (w_pos (h w)) /\ (1 <= pageNum (w_pos (h w)) <= n)%Z).

  Definition good_line (l : tline) : Prop :=
    l_words l <> [] /\ (forall w, In w (l_words l) -> W w) /\ on_page (l_pos l) /\ (1 <= pageNum (l_pos l) <= n)%Z /\ is_nan_d (l_fontSize l) = false.
  Definition Q (l : tline) : Prop := rokl h l /\ (forall w, In w (l_words l) -> W w) /\ is_nan_d (l_fontSize l) = false.

  Lemma Q_good l : Q l -> good_line l.
  Proof.
    intros ((((ws & LO) & _) & RW) & HWs & NF). pose proof LO as (NE & P & _ & _ & (w & t & Ew & EP & _) & SB & _).
    split; [intros X; rewrite X in P; apply Permutation_sym, Permutation_nil in P; congruence|]. split; [exact HWs|]. split; [|split; [|exact NF]].
    - apply (smallest_on_page _ (map (pos_of h) ws)); [intros X; apply map_eq_nil in X; congruence|exact SB|].
      intros p Hp. apply in_map_iff in Hp as (x & <- & Hx). apply HWD, HWs, (Permutation_in _ P), Hx.
    - rewrite EP. apply HWD, HWs, (Permutation_in _ P). rewrite Ew. left. reflexivity.
  Qed.
  Lemma properties_size l l' : (forall w, In w (l_words l) -> W w) -> is_nan_d (l_fontSize l) = false ->
    computeTextLineProperties implW ordS ordD h l = Ok l' -> is_nan_d (l_fontSize l') = false.
  Proof.
    intros HWs NF. unfold computeTextLineProperties. destruct (l_words l) as [|w0 t] eqn:E; [intros H; apply Ok_inj in H; subst; exact NF|].
    rewrite <- E in *. cbv zeta. destruct (std_sort implW _ (l_words l)) as [ws| |] eqn:ES; try discriminate. cbn [obind].
    destruct (if (0 <? _)%N then mostFreq ([] : str) _ else _) as [fn| |]; try discriminate. cbn [obind].
    destruct (if (0 <? _)%N then mostFreq dzero _ else _) as [fs| |] eqn:EF; try discriminate. cbn [obind].
    destruct (if (0 <? _)%N then counter_max _ else _) as [mx| |]; try discriminate. cbn [obind].
    destruct (if (0 <? sumCounts (ordD (count_all deq (map c_base (chars_of h ws)))))%N then mostFreq dzero _ else _) as [bs| |]; try discriminate. cbn [obind].
    intros H. apply Ok_inj in H. subst l'. cbn [l_fontSize]. destruct (0 <? _)%N; [|apply Ok_inj in EF; subst; exact NF].
    revert EF. apply (mostFreq_key (fun x => is_nan_d x = false)); [reflexivity|].
    intros e He. apply (Permutation_in _ (Permutation_sym (HD _))) in He. apply count_keys in He. apply in_map_iff in He as (c & <- & Hc).
    unfold chars_of in Hc. apply in_concat in Hc as (cs & Hcs & Hc). apply in_map_iff in Hcs as (w & <- & Hw).
    assert (Ww : W w) by (apply HWs, (Permutation_in _ (Permutation_sym (std_sort_perm implW _ _ _ HW ES))), Hw).
    destruct (HWD w Ww) as ((_ & RC) & _). destruct (dle_nn _ _ (RC c Hc)) as [_ N1]. exact N1.
  Qed.
  Lemma create_Q ws l : ws <> [] -> (forall w, In w ws -> W w) -> createTextLine implW ordS ordD h ws = Ok l -> Q l.
  Proof.
    intros NE HWs E. destruct (create_defined implW ordS ordD h HW HS HD ws NE) as (l' & E' & R); [intros w Hw; apply HWD, HWs, Hw|].
    rewrite E' in E. apply Ok_inj in E. subst l'. split; [exact R|]. split.
    - intros w Hw. apply HWs. apply (properties_words implW ordS ordD h HW) in E'. cbn [new_line l_words] in E'. apply (Permutation_in _ (Permutation_sym E')), Hw.
    - apply (properties_size (new_line ws) l); [exact HWs|reflexivity|exact E'].
  Qed.
  Lemma merge_Q c p pq : Q c -> Q p -> mergeTextLines implW ordS ordD h c p = Ok pq -> Q pq.
  Proof.
    intros (RC & WC & NC) (RP & WP & NP) E. destruct (LinesDefined.merge_defined implW ordS ordD h HW HS HD c p RC RP) as (l' & E' & R).
    rewrite E' in E. apply Ok_inj in E. subst l'. split; [exact R|].
    assert (HWs : forall w, In w (l_words p ++ l_words c) -> W w) by (intros w Hw; apply in_app_or in Hw as [Hw|Hw]; [apply WP, Hw|apply WC, Hw]). split.
    - intros w Hw. apply HWs. apply (properties_words implW ordS ordD h HW) in E'. cbn [l_words] in E'. apply (Permutation_in _ (Permutation_sym E')), Hw.
    - refine (properties_size _ pq _ _ E'); [exact HWs|exact NP].
  Qed.
  Lemma round_Q ls : forall acc prev did out did', Forall Q ls -> Forall Q acc -> (forall p, prev = Some p -> Q p) ->
    merge_round implW ordS ordD acw h acc prev did ls = Ok (out, did') -> Forall Q out /\ length out <= length acc + length (opt_list prev) + length ls.
  Proof.
    induction ls as [|c t IH]; intros acc prev did out did' FL FA FP H; cbn [merge_round] in H.
    - apply Ok_inj in H. apply pair_equal_spec in H as [<- _]. split; [|rewrite app_length; cbn [length]; lia]. apply Forall_app. split; [exact FA|].
      destruct prev as [p|]; cbn [opt_list]; [constructor; [apply FP; reflexivity|constructor]|constructor].
    - inversion FL as [|? ? Hc Ht]. subst. destruct (do_merge acw prev c).
      + destruct prev as [p|]; [|discriminate]. destruct (mergeTextLines implW ordS ordD h c p) as [p'| |] eqn:E; try discriminate. cbn [obind] in H.
        destruct (IH _ _ _ _ _ Ht FA (fun q (e : Some p' = Some q) => eq_ind p' Q (merge_Q _ _ _ Hc (FP p eq_refl) E) q (f_equal (fun o => match o with Some x => x | None => p' end) e)) H) as [A B].
        split; [exact A|]. cbn [opt_list length] in *. lia.
      + destruct (IH (acc ++ opt_list prev) (Some c) did out did' Ht) as [A B]; [|intros q [= <-]; exact Hc|exact H|].
        * apply Forall_app. split; [exact FA|]. destruct prev as [p|]; cbn [opt_list]; [constructor; [apply FP; reflexivity|constructor]|constructor].
        * split; [exact A|]. rewrite app_length in B. cbn [opt_list length] in *. lia.
  Qed.
  Lemma rounds_Q fuel : forall ls out, Forall Q ls -> merge_rounds implW ordS ordD acw h fuel ls = Some (Ok out) -> Forall Q out /\ length out <= length ls.
  Proof.
    induction fuel as [|k IH]; intros ls out F H; cbn [merge_rounds] in H; [discriminate|].
    destruct (merge_round implW ordS ordD acw h [] None false ls) as [[ls' did]| |] eqn:E; try discriminate.
    destruct (round_Q ls [] None false ls' did F (Forall_nil _) (fun p e => match e with end) E) as [A B]. cbn [opt_list length] in B. destruct did.
    - destruct (IH _ _ A H) as [C D]. split; [exact C|lia].
    - injection H as <-. split; [exact A|lia].
  Qed.
  Lemma number_Q k ls l : Forall Q ls -> In l (number_lines k ls) -> good_line l.
  Proof.
    intros F Hl. apply In_nth_error in Hl as [i Hi]. apply number_nth in Hi as (l0 & E0 & EL). rewrite Forall_forall in F.
    specialize (Q_good l0 (F l0 (nth_error_In _ _ E0))) as G. unfold good_line in *. rewrite EL. cbn [l_words l_pos l_fontSize]. exact G.
  Qed.
  Lemma rotation_Q k r m out : (forall y l, In (y, l) m -> l <> [] /\ forall w, In w l -> W w) ->
    rotation_lines implW implL ordS ordD ordY acw h k r m = Ok out -> Forall good_line out /\ length out <= length m.
  Proof.
    intros Hm. unfold rotation_lines. destruct (omap _ (ordY m)) as [l0| |] eqn:EO; try discriminate. cbn [obind].
    destruct (std_sort implL (line_lt r) l0) as [l1| |] eqn:ES; try discriminate. cbn [obind].
    destruct (merge_rounds _ _ _ _ _ _ _) as [[ls| |]|] eqn:EM; try discriminate. cbn [obind]. intros H. apply Ok_inj in H. subst out.
    apply omap_ok in EO. pose proof (std_sort_perm implL _ _ _ HL ES) as P1.
    assert (F0 : Forall Q l0 /\ length l0 = length (ordY m)).
    { assert (HM : forall e, In e (ordY m) -> snd e <> [] /\ forall w, In w (snd e) -> W w).
      { intros [y l] He. apply (Permutation_in _ (Permutation_sym (HY m))) in He. exact (Hm y l He). }
      clear -EO HM HW HS HD HWD. induction EO as [|e l es ls H _ IH]; [split; [constructor|reflexivity]|].
      destruct IH as [A B]; [intros x Hx; apply HM; right; exact Hx|]. split; [constructor; [|exact A]|cbn [length]; lia].
      destruct (HM e (or_introl eq_refl)) as [NE HWs]. exact (create_Q _ _ NE HWs H). }
    destruct F0 as [F0 L0]. rewrite <- (Permutation_length (HY m)) in L0.
    assert (F1 : Forall Q l1) by (apply Forall_forall; intros l Hl; rewrite Forall_forall in F0; apply F0, (Permutation_in _ (Permutation_sym P1)), Hl).
    destruct (rounds_Q _ _ _ F1 EM) as [A B]. split.
    - apply Forall_forall. intros l Hl. exact (number_Q _ _ _ A Hl).
    - rewrite number_length, <- L0, (Permutation_length P1). exact B.
  Qed.
  Lemma assoc_update_length {K V} (eqb : K -> K -> bool) (f : option V -> V) k m : length (assoc_update eqb f k m) <= S (length m).
  Proof. induction m as [|[k' v] m IH]; cbn [assoc_update length]; [lia|]. destruct (eqb k' k); cbn [length]; lia. Qed.
  Lemma cluster_add_length cl w : length (flat_map snd (cluster_add h cl w)) <= S (length (flat_map snd cl)).
  Proof.
    unfold cluster_add. destruct (unit_of h w) as [|u us]; [lia|]. induction cl as [|[r m] cl IH]; cbn [assoc_update flat_map snd].
    - rewrite app_nil_r. cbn [length]. lia.
    - destruct (r =? _)%Z; cbn [flat_map snd]; rewrite !app_length; [|lia].
      pose proof (assoc_update_length deq (push_all (u :: us)) (getRotLowerY (wpos h w)) m). lia.
  Qed.
  Lemma clusters_length ws : length (flat_map snd (clusters h ws)) <= length ws.
  Proof.
    unfold clusters. assert (X : forall ws cl, length (flat_map snd (fold_left (cluster_add h) ws cl)) <= length (flat_map snd cl) + length ws).
    { clear. induction ws as [|w ws IH]; intros cl; cbn [fold_left length]; [lia|]. specialize (IH (cluster_add h cl w)). pose proof (cluster_add_length cl w). lia. }
    apply (X ws []).
  Qed.
  Lemma segment_Q k ws gs : (forall w, In w ws -> W w) -> (forall w, In w (flat_map (with_parts h) ws) -> W w) ->
    segment_lines implW implL ordS ordD ordR ordY acw h k ws = Ok gs -> Forall good_line (concat gs) /\ length (concat gs) <= length ws.
  Proof.
    intros R1 R2. unfold segment_lines. destruct ws as [|w0 wt] eqn:EW; [intros H; apply Ok_inj in H; subst; split; [constructor|cbn; lia]|]. rewrite <- EW in *. clear EW w0 wt.
    assert (NW : nn_words h ws) by (intros w Hw; apply fin_rot, on_page_fin, HWD, R1, Hw).
    destruct (clusters_inv h ws NW) as (_ & I2 & _).
    assert (H : forall r m, In (r, m) (ordR (clusters h ws)) -> forall y l, In (y, l) m -> l <> [] /\ forall w, In w l -> W w).
    { intros r m Hm y l Hl. apply (Permutation_in _ (Permutation_sym (HR _))) in Hm. destruct (I2 r m Hm) as (_ & _ & A3).
      destruct (A3 y l Hl) as (B1 & w & B2 & B3 & B4 & B5). split.
      - assert (Iw : In w l). { rewrite B1. unfold on_baseline. apply in_flat_map. exists w. split; [|unfold with_parts; rewrite B3; left; reflexivity].
            apply filter_In. split; [exact B2|]. rewrite B4, Z.eqb_refl, B5. cbn [andb]. apply deq_refl. rewrite <- B5. apply NW, B2. }
        intros E. rewrite E in Iw. destruct Iw.
      - intros x Hx. apply R2. rewrite B1 in Hx. apply (on_baseline_incl h _ _ _ _ Hx). }
    assert (LC : length (flat_map snd (ordR (clusters h ws))) <= length ws).
    { rewrite <- (Permutation_length (Permutation_flat_map snd (HR (clusters h ws)))). apply clusters_length. }
    revert k gs H LC. generalize (ordR (clusters h ws)). generalize (length ws). clear ws R1 R2 NW I2. intros len cls. revert len.
    induction cls as [|[r m] t IH]; intros len k gs H LC HR0; cbn [rotations_lines] in HR0; [apply Ok_inj in HR0; subst; split; [constructor|cbn; lia]|].
    destruct (rotation_lines _ _ _ _ _ _ _ k r m) as [g| |] eqn:ER; try discriminate. cbn [obind] in HR0.
    destruct (rotations_lines _ _ _ _ _ _ _ _ t) as [gs1| |] eqn:EG; try discriminate. cbn [obind] in HR0. apply Ok_inj in HR0. subst gs.
    destruct (rotation_Q _ _ _ _ (H r m (or_introl eq_refl)) ER) as [A B]. cbn [flat_map snd] in LC. rewrite app_length in LC.
    destruct (IH (length (flat_map snd t)) _ gs1 (fun r' m' Hm => H r' m' (or_intror Hm)) (le_n _) EG) as [C D].
    cbn [concat]. split; [apply Forall_app; split; assumption|]. rewrite app_length. lia.
  Qed.
  Lemma segments_Q segs : forall k r, (forall b ws w, In (b, ws) segs -> In w (ws ++ flat_map (with_parts h) ws) -> W w) ->
    segments_lines implW implL ordS ordD ordR ordY acw h k segs = Ok r ->
    Forall good_line (page_lines r) /\ length (page_lines r) <= length (flat_map snd segs).
  Proof.
    induction segs as [|[box ws] t IH]; intros k r HS0 H; cbn [segments_lines] in H; [apply Ok_inj in H; subst; split; [constructor|cbn; lia]|].
    destruct (segment_lines _ _ _ _ _ _ _ _ k ws) as [gs| |] eqn:EG; try discriminate. cbn [obind] in H.
    destruct (match ws with [] => _ | _ :: _ => _ end) as [tb| |]; try discriminate. cbn [obind] in H.
    destruct (segments_lines _ _ _ _ _ _ _ _ _ t) as [rest| |] eqn:ER; try discriminate. cbn [obind] in H. apply Ok_inj in H. subst r.
    destruct (IH _ _ (fun b ws' w Hb => HS0 b ws' w (or_intror Hb)) ER) as [A B].
    assert (X1 : forall w, In w ws -> W w) by (intros w Hw; apply (HS0 box ws w (or_introl eq_refl)), in_or_app; left; exact Hw).
    assert (X2 : forall w, In w (flat_map (with_parts h) ws) -> W w) by (intros w Hw; apply (HS0 box ws w (or_introl eq_refl)), in_or_app; right; exact Hw).
    destruct (segment_Q k ws gs X1 X2 EG) as [C D].
    unfold page_lines in *. cbn [flat_map fst snd]. split; [apply Forall_app; split; assumption|]. rewrite !app_length. lia.
  Qed.
  Lemma detect_Q absd pages : forall k r, (forall segs b ws w, In segs pages -> In (b, ws) segs -> In w (ws ++ flat_map (with_parts h) ws) -> W w) ->
    detectTextLines implW implL ordS ordD ordR ordY acw absd h k pages = Ok r ->
    Forall2 (fun segs rp => Forall good_line (page_lines (fst rp)) /\ length (page_lines (fst rp)) <= length (flat_map snd segs) /\ length (fst rp) = length segs /\
                            forall a b, parent (snd rp) b = Some a -> a < b) pages r.
  Proof.
    induction pages as [|segs t IH]; intros k r HS0 H; cbn [detectTextLines] in H; [apply Ok_inj in H; subst; constructor|].
    destruct (segments_lines _ _ _ _ _ _ _ _ k segs) as [rp| |] eqn:ES; try discriminate. cbn [obind] in H.
    destruct (detectTextLines _ _ _ _ _ _ _ _ _ _ t) as [rest| |] eqn:ER; try discriminate. cbn [obind] in H. apply Ok_inj in H. subst r.
    destruct (segments_Q segs k rp (fun b ws w => HS0 segs b ws w (or_introl eq_refl)) ES) as [A B].
    constructor; [|exact (IH _ _ (fun s b ws w Hs => HS0 s b ws w (or_intror Hs)) ER)]. cbn [fst snd]. split; [exact A|]. split; [exact B|].
    split; [exact (proj2 (segments_words implW implL ordS ordD ordR ordY acw h HW HL HR HY _ _ _ ES))|].
    intros a b P. destruct (C26_links acw absd (map l_pos (concat (map (fun s => concat (fst s)) rp)))) as (_ & _ & L). destruct (L a b P) as (X & _). lia.
  Qed.
End T.
