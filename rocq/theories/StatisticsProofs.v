(** StatisticsProofs.v - proofs about the document statistics (C51). *)
From Coq Require Import ZArith NArith Reals Lra.
From Flocq Require Import Core IEEE754.BinarySingleNaN.
From Verif Require Import Base Double DoubleFacts MathUtils MathUtilsProofs Elements ElementsProofs GridProofs Counter CounterProofs UtilsSpec Document
  Lines LinesSpec LinesProofs WordsProofs LineMergeProofs Statistics StatisticsSpec.
Local Opaque TOL dZ dadd dsub ddiv dmul dec DBL_MAX DBL_MIN.

Definition onto {K} (eqb : K -> K -> bool) (l : list K) (c : list (K * N)) : list (K * N) := fold_left (fun c k => incr eqb k c) l c.
Lemma onto_nil {K} (eqb : K -> K -> bool) l : onto eqb l [] = count_all eqb l.
Proof. reflexivity. Qed.
Lemma onto_app {K} (eqb : K -> K -> bool) a b c : onto eqb (a ++ b) c = onto eqb b (onto eqb a c).
Proof. apply fold_left_app. Qed.

Lemma filter_length_le {A} (f : A -> bool) l : length (filter f l) <= length l.
Proof. induction l as [|x l IH]; [cbn; lia|]. cbn [filter]. destruct (f x); cbn [length]; lia. Qed.

Section S.
  Context (ordS : list (str * N) -> list (str * N)) (ordD : list (double * N) -> list (double * N)).
  Context (HS : forall m, Permutation m (ordS m)) (HD : forall m, Permutation m (ordD m)).

  Lemma set_freq_ok l old : exists v, set_freq ordD (count_all deq l) old = Ok v /\ frequent_or v old l.
  Proof.
    unfold set_freq. destruct (guarded_mostFreq deq dzero old (ordD (count_all deq l))) as [v EV]. exists v. split; [exact EV|]. split.
    - intros ->. cbn in EV. pose proof (HD []) as P. apply Permutation_nil in P. rewrite P in EV. cbn in EV. injection EV as <-. reflexivity.
    - intros NE LT NN. apply (guarded_frequent deq dzero old _ (ordD (count_all deq l)) v); try assumption.
      + intros a b Q. rewrite deq_sym. exact Q.
      + apply deq_trans.
      + intros x Hx. apply deq_refl. apply NN, Hx.
      + apply HD.
  Qed.

  (** ** Words *)
  Definition pairs_from (prev : option word) (ws : list word) : list (word * word) :=
    match prev with None => combine ws (tl ws) | Some p => combine (p :: ws) ws end.
  Lemma pairs_cons prev w ws : pairs_from prev (w :: ws) = (match prev with None => [] | Some p => [(p, w)] end) ++ pairs_from (Some w) ws.
  Proof. destruct prev; reflexivity. Qed.
  Definition hg (mf : double) (l : list (word * word)) : list double :=
    map (fun e => computeHorizontalGap (w_pos (fst e)) (w_pos (snd e))) (filter (fun e => body_pair mf e && side_by_side e) l).
  Definition vg (mf : double) (l : list (word * word)) : list double :=
    map (fun e => computeVerticalGap (w_pos (fst e)) (w_pos (snd e))) (filter (fun e => body_pair mf e && one_below e) l).
  Definition hts (mf : double) (l : list word) : list double := map (fun w => getHeight (w_pos w)) (filter (body_size mf) l).
  Lemma w_step_ok mf prev w s : w_step mf prev w s =
    mkW (onto deq (hg mf (match prev with None => [] | Some p => [(p, w)] end)) (ws_h s))
        (onto deq (vg mf (match prev with None => [] | Some p => [(p, w)] end)) (ws_v s))
        (onto deq (hts mf [w]) (ws_heights s)).
  Proof.
    unfold w_step, hts, hg, vg. cbn [filter]. unfold body_size.
    destruct (smaller (w_fontSize w) mf (dZ 1)) eqn:ES; cbn [negb map onto fold_left].
    - destruct prev as [p|]; [|destruct s; reflexivity]. cbn [filter]. unfold body_pair, body_size. rewrite ES. cbn [negb andb map onto fold_left].
      destruct s; reflexivity.
    - destruct prev as [p|]; [|reflexivity]. cbn [filter]. unfold body_pair, body_size, comparable. rewrite ES. cbn [negb andb].
      destruct (rotation (w_pos p) =? rotation (w_pos w))%Z; [|reflexivity].
      destruct (wMode (w_pos p) =? wMode (w_pos w))%Z; [|reflexivity].
      destruct (equal (w_fontSize p) mf (dZ 1)); [|reflexivity]. cbn [negb andb].
      unfold side_by_side, one_below. cbn [fst snd].
      destruct (equalOrLarger _ (dec 5 1) TOL), (equalOrSmaller _ dzero TOL); reflexivity.
  Qed.
  Lemma hg_app mf a b : hg mf (a ++ b) = hg mf a ++ hg mf b.
  Proof. unfold hg. rewrite filter_app, map_app. reflexivity. Qed.
  Lemma vg_app mf a b : vg mf (a ++ b) = vg mf a ++ vg mf b.
  Proof. unfold vg. rewrite filter_app, map_app. reflexivity. Qed.
  Lemma hts_app mf a b : hts mf (a ++ b) = hts mf a ++ hts mf b.
  Proof. unfold hts. rewrite filter_app, map_app. reflexivity. Qed.
  Lemma w_loop_ok mf ws : forall prev s, w_loop mf prev ws s =
    mkW (onto deq (hg mf (pairs_from prev ws)) (ws_h s)) (onto deq (vg mf (pairs_from prev ws)) (ws_v s)) (onto deq (hts mf ws) (ws_heights s)).
  Proof.
    induction ws as [|w t IH]; intros prev s.
    - cbn [w_loop]. assert (pairs_from prev [] = []) as -> by (destruct prev; reflexivity). destruct s; reflexivity.
    - cbn [w_loop]. rewrite IH, w_step_ok. cbn [ws_h ws_v ws_heights].
      rewrite pairs_cons, hg_app, vg_app, !onto_app. rewrite (hts_app mf [w] t : hts mf (w :: t) = _), onto_app. reflexivity.
  Qed.
  Lemma w_pages_ok mf pages : forall s, w_pages mf pages s =
    mkW (onto deq (word_gaps mf pages) (ws_h s)) (onto deq (word_leadings mf pages) (ws_v s)) (onto deq (word_heights mf pages) (ws_heights s)).
  Proof.
    unfold word_gaps, word_leadings, word_heights. induction pages as [|ws t IH]; intros s; [destruct s; reflexivity|].
    cbn [w_pages fold_left]. fold (w_pages mf t (w_loop mf None ws s)). rewrite IH, w_loop_ok. cbn [ws_h ws_v ws_heights pairs_from].
    cbn [neighbours flat_map concat]. fold (neighbours t).
    fold (hg mf (combine ws (tl ws) ++ neighbours t)). fold (hg mf (neighbours t)).
    fold (vg mf (combine ws (tl ws) ++ neighbours t)). fold (vg mf (neighbours t)).
    fold (hts mf (ws ++ concat t)). fold (hts mf (concat t)).
    rewrite hg_app, vg_app, hts_app, !onto_app. reflexivity.
  Qed.
  Theorem wordStatistics_ok pages st : exists st', wordStatistics ordD pages st = Ok st' /\
    frequent_or (st_wordHeight st') (st_wordHeight st) (word_heights (st_fontSize st) pages) /\
    frequent_or (st_wordDist st') (st_wordDist st) (word_gaps (st_fontSize st) pages) /\
    frequent_or (st_estLineDist st') (st_estLineDist st) (word_leadings (st_fontSize st) pages) /\
    st_charWidth st' = st_charWidth st /\ st_charHeight st' = st_charHeight st /\ st_fontSize st' = st_fontSize st /\
    st_fontName st' = st_fontName st /\ st_lineDist st' = st_lineDist st /\ st_lineDistPer st' = st_lineDistPer st.
  Proof.
    unfold wordStatistics. rewrite w_pages_ok. cbn [ws_h ws_v ws_heights]. rewrite !onto_nil.
    destruct (set_freq_ok (word_heights (st_fontSize st) pages) (st_wordHeight st)) as (v1 & -> & F1).
    destruct (set_freq_ok (word_gaps (st_fontSize st) pages) (st_wordDist st)) as (v2 & -> & F2).
    destruct (set_freq_ok (word_leadings (st_fontSize st) pages) (st_estLineDist st)) as (v3 & -> & F3).
    cbn [obind]. eexists. split; [reflexivity|]. cbn [st_wordHeight st_wordDist st_estLineDist st_charWidth st_charHeight st_fontSize st_fontName st_lineDist st_lineDistPer].
    split; [exact F1|]. split; [exact F2|]. split; [exact F3|]. repeat (split; [reflexivity|]). reflexivity.
  Qed.

  (** ** Lines *)
  Lemma pairs_perm {A} (R : A -> A -> Prop) : (forall a b, R a b -> R b a) -> forall l l', Permutation l l' -> ForallOrdPairs R l -> ForallOrdPairs R l'.
  Proof.
    intros Sy l l' P. induction P as [|x l l' P IH|x y l|l l' l'' P1 IH1 P2 IH2]; intros H.
    - constructor.
    - inversion H as [|? ? H1 H2]; subst. constructor; [|apply IH, H2]. apply Forall_forall. intros z Hz. rewrite Forall_forall in H1.
      apply H1, (Permutation_in _ (Permutation_sym P)), Hz.
    - inversion H as [|? ? H1 H2]; subst. inversion H2 as [|? ? H3 H4]; subst. inversion H1 as [|? ? H5 H6]; subst.
      constructor; [constructor; [apply Sy, H5|exact H3]|]. constructor; assumption.
    - apply IH2, IH1, H.
  Qed.
  Definition bump (d : double) (o : option (list (double * N))) : list (double * N) := incr deq d (match o with None => [] | Some c => c end).
  Lemma incr_per_update fs d m : incr_per fs d m = assoc_update deq (bump d) fs m.
  Proof. induction m as [|[k c] t IH]; cbn [incr_per assoc_update]; [reflexivity|]. rewrite IH. reflexivity. Qed.
  (** The counters per font size after counting the pairs (font size, distance) of [L]. *)
  Definition at_key (k : double) (L : list (double * double)) : list double := map snd (filter (fun e => deq k (fst e)) L).
  Definition per_inv (L : list (double * double)) (m : list (double * list (double * N))) : Prop :=
    ForallOrdPairs (fun a b => deq (fst a) (fst b) = false) m /\
    (forall k c, In (k, c) m -> c = count_all deq (at_key k L) /\ In k (map fst L)) /\
    (forall f, In f (map fst L) -> exists k c, In (k, c) m /\ deq k f = true).
  Lemma at_key_snoc k L f d : at_key k (L ++ [(f, d)]) = at_key k L ++ (if deq k f then [d] else []).
  Proof. unfold at_key. rewrite filter_app, map_app. cbn [filter fst]. destruct (deq k f); reflexivity. Qed.
  Lemma at_key_other k L f : (forall g, In g (map fst L) -> deq g f = false) -> deq k f = true -> at_key k L = [].
  Proof.
    intros H K. unfold at_key. induction L as [|[g d] L IH]; [reflexivity|]. cbn [filter fst]. destruct (deq k g) eqn:Q.
    - exfalso. assert (deq g f = true) as X by (apply (deq_trans g k f); [rewrite deq_sym; exact Q|exact K]).
      rewrite (H g) in X by (left; reflexivity). discriminate.
    - apply IH. intros g' Hg. apply H. right. exact Hg.
  Qed.
  Lemma count_snoc l d : count_all deq (l ++ [d]) = incr deq d (count_all deq l).
  Proof. unfold count_all. rewrite fold_left_app. reflexivity. Qed.
  Lemma per_inv_step L m f d : is_nan_d f = false -> per_inv L m -> per_inv (L ++ [(f, d)]) (incr_per f d m).
  Proof.
    intros NN (P1 & P2 & P3). rewrite incr_per_update. assert (RF : deq f f = true) by (apply deq_refl, NN).
    assert (Sy : forall a b, deq a b = true -> deq b a = true) by (intros a b Q; rewrite deq_sym; exact Q).
    split; [apply assoc_update_pairs; assumption|]. split.
    - intros k c H. rewrite at_key_snoc, map_app, in_app_iff.
      destruct (assoc_update_exact deq (bump d) f m k c Sy deq_trans P1 H) as [[H1 H2]|[(v & H1 & H2 & H3)|(H1 & H2 & H3)]].
      + rewrite H2, app_nil_r. destruct (P2 _ _ H1) as [Q1 Q2]. split; [exact Q1|left; exact Q2].
      + destruct (P2 _ _ H1) as [Q1 Q2]. rewrite H2, count_snoc, <- Q1. split; [exact H3|left; exact Q2].
      + subst k c. rewrite RF, count_snoc.
        rewrite (at_key_other f L f); [|intros g Hg|exact RF].
        * split; [reflexivity|right; left; reflexivity].
        * destruct (P3 g Hg) as (k & c & Hk & Q). destruct (deq g f) eqn:X; [|reflexivity].
          specialize (H3 _ Hk). cbn [fst] in H3. rewrite (deq_trans k g f Q X) in H3. discriminate.
    - intros g Hg. rewrite map_app, in_app_iff in Hg. destruct Hg as [Hg|[<-|[]]].
      + destruct (P3 g Hg) as (k & c & Hk & Q). destruct (assoc_update_keeps deq (bump d) f m k c Hk) as [H1|[H1 H2]]; eauto.
      + cbn [fst]. destruct (assoc_update_has deq (bump d) f m RF) as (k & c & H1 & H2 & _). eauto.
  Qed.
  Definition per_list (l : list (stline * stline)) : list (double * double) := map (fun e => (sn_fontSize (snd e), distance e)) (filter same_size (filter counted l)).
  Definition no_nan_sizes (l : list (stline * stline)) : Prop := forall e, In e l -> is_nan_d (sn_fontSize (snd e)) = false.
  Lemma l_step_ok p c s L : is_nan_d (sn_fontSize c) = false -> per_inv L (ls_per s) ->
    ls_all (l_step p c s) = onto deq (map distance (filter counted [(p, c)])) (ls_all s) /\ per_inv (L ++ per_list [(p, c)]) (ls_per (l_step p c s)).
  Proof.
    intros NN I. unfold l_step, per_list. cbn [filter]. unfold counted, comparable. cbn [fst snd].
    destruct (rotation (sn_pos p) =? rotation (sn_pos c))%Z; cbn [negb andb]; [|cbn [filter map]; rewrite app_nil_r; split; [reflexivity|exact I]].
    destruct (wMode (sn_pos p) =? wMode (sn_pos c))%Z; cbn [negb andb]; [|cbn [filter map]; rewrite app_nil_r; split; [reflexivity|exact I]].
    cbn [ls_all ls_per]. split; [reflexivity|]. cbn [filter]. unfold same_size. cbn [fst snd].
    destruct (equal (sn_fontSize p) (sn_fontSize c) (dZ 1)); [|cbn [map]; rewrite app_nil_r; exact I].
    cbn [map snd]. apply per_inv_step; assumption.
  Qed.
  Lemma l_loop_ok ls : forall p s L, no_nan_sizes (combine (p :: ls) ls) -> per_inv L (ls_per s) ->
    ls_all (l_loop p ls s) = onto deq (map distance (filter counted (combine (p :: ls) ls))) (ls_all s) /\
    per_inv (L ++ per_list (combine (p :: ls) ls)) (ls_per (l_loop p ls s)).
  Proof.
    induction ls as [|c t IH]; intros p s L NN I.
    - cbn [l_loop combine]. unfold per_list. cbn [filter map]. rewrite app_nil_r. split; [reflexivity|exact I].
    - cbn [l_loop]. destruct (l_step_ok p c s L) as [A1 A2]; [apply (NN (p, c)); left; reflexivity|exact I|].
      destruct (IH c (l_step p c s) (L ++ per_list [(p, c)])) as [B1 B2]; [intros e He; apply NN; right; exact He|exact A2|].
      change (combine (p :: c :: t) (c :: t)) with ([(p, c)] ++ combine (c :: t) t).
      rewrite filter_app, map_app, onto_app, B1, A1. split; [reflexivity|].
      unfold per_list in *. rewrite !filter_app, map_app, app_assoc. exact B2.
  Qed.
  Lemma l_segments_ok segs : forall s L, no_nan_sizes (neighbours segs) -> per_inv L (ls_per s) ->
    ls_all (fold_left l_segment segs s) = onto deq (line_distances segs) (ls_all s) /\
    per_inv (L ++ per_list (neighbours segs)) (ls_per (fold_left l_segment segs s)).
  Proof.
    unfold line_distances, line_pairs. induction segs as [|ls t IH]; intros s L NN I.
    - cbn. rewrite app_nil_r. split; [reflexivity|exact I].
    - cbn [fold_left]. cbn [neighbours flat_map] in NN |- *. fold (neighbours t) in NN |- *.
      assert (A : ls_all (l_segment s ls) = onto deq (map distance (filter counted (combine ls (tl ls)))) (ls_all s) /\
                  per_inv (L ++ per_list (combine ls (tl ls))) (ls_per (l_segment s ls))).
      { destruct ls as [|p ls]; [cbn; rewrite app_nil_r; split; [reflexivity|exact I]|].
        cbn [l_segment tl] in *. apply l_loop_ok; [|exact I]. intros e He. apply NN, in_or_app. left. exact He. }
      destruct A as [A1 A2].
      destruct (IH (l_segment s ls) _ (fun e He => NN e (in_or_app _ _ _ (or_intror He))) A2) as [B1 B2].
      rewrite filter_app, map_app, onto_app, B1, A1. split; [reflexivity|].
      unfold per_list in *. rewrite !filter_app, map_app, app_assoc. exact B2.
  Qed.
  Lemma map_set_new k d r : (forall e, In e r -> deq (fst e) k = false) -> map_set k d r = r ++ [(k, d)].
  Proof.
    induction r as [|[k' d'] r IH]; intros H; [reflexivity|]. cbn [map_set]. rewrite (H (k', d') (or_introl eq_refl) : deq k' k = false).
    rewrite IH by (intros e He; apply H; right; exact He). reflexivity.
  Qed.
  Lemma l_per_ok m : forall r, ForallOrdPairs (fun a b => deq (fst a) (fst b) = false) m ->
    (forall e x, In e r -> In x m -> deq (fst e) (fst x) = false) -> (forall k c, In (k, c) m -> (0 <? sumCounts (ordD c))%N = true) ->
    exists ds, l_per ordD m r = Ok (r ++ ds) /\ Forall2 (fun x e => fst e = fst x /\ mostFreq dzero (ordD (snd x)) = Ok (snd e)) m ds.
  Proof.
    induction m as [|[k c] t IH]; intros r FO DR HC.
    - exists []. cbn [l_per]. rewrite app_nil_r. split; [reflexivity|constructor].
    - cbn [l_per]. rewrite (HC k c) by (left; reflexivity). inversion FO as [|? ? HF HO]; subst.
      destruct (guarded_mostFreq deq dzero dzero (ordD c)) as [d ED]. rewrite (HC k c) in ED by (left; reflexivity). rewrite ED. cbn [obind].
      rewrite map_set_new by (intros e He; apply (DR e (k, c) He); left; reflexivity).
      destruct (IH (r ++ [(k, d)]) HO) as (ds & E1 & E2).
      + intros e x He Hx. apply in_app_or in He. destruct He as [He|[<-|[]]]; [apply DR; [exact He|right; exact Hx]|].
        rewrite Forall_forall in HF. exact (HF x Hx).
      + intros k' c' H. apply (HC k' c'). right. exact H.
      + exists ((k, d) :: ds). rewrite <- app_assoc in E1. split; [exact E1|]. constructor; [split; [reflexivity|exact ED]|exact E2].
  Qed.

  Context (ordF : list (double * list (double * N)) -> list (double * list (double * N))).
  Context (HF : forall m, Permutation m (ordF m)).
  Lemma at_key_spec k segs : at_key k (per_list (neighbours segs)) = distances_at k segs.
  Proof.
    unfold at_key, per_list, distances_at, line_pairs. induction (filter counted (neighbours segs)) as [|e l IH]; [reflexivity|].
    cbn [filter]. destruct (same_size e); cbn [andb map filter fst]; [|exact IH]. destruct (deq k (sn_fontSize (snd e))); cbn [map snd]; rewrite IH; reflexivity.
  Qed.
  Lemma Forall2_In_r {A B} (R : A -> B -> Prop) l l' : Forall2 R l l' -> forall y, In y l' -> exists x, In x l /\ R x y.
  Proof. induction 1 as [|x y l l' H1 H2 IH]; intros z; [intros []|]. intros [<-|Hz]; [exists x; split; [left; reflexivity|exact H1]|]. destruct (IH z Hz) as (w & W1 & W2). exists w. split; [right; exact W1|exact W2]. Qed.
  Lemma Forall2_In_l {A B} (R : A -> B -> Prop) l l' : Forall2 R l l' -> forall x, In x l -> exists y, In y l' /\ R x y.
  Proof. induction 1 as [|x y l l' H1 H2 IH]; intros z; [intros []|]. intros [<-|Hz]; [exists y; split; [left; reflexivity|exact H1]|]. destruct (IH z Hz) as (w & W1 & W2). exists w. split; [right; exact W1|exact W2]. Qed.
  Theorem lineStatistics_ok pages st :
    let segs := concat pages in
    (forall e, In e (neighbours segs) -> is_nan_d (sn_fontSize (snd e)) = false) ->
    (N.of_nat (length (neighbours segs)) < 2 ^ 32)%N -> (forall d, In d (line_distances segs) -> is_nan_d d = false) ->
    st_lineDistPer st = [] ->
    exists st', lineStatistics ordD ordF pages st = Ok st' /\
      frequent_or (st_lineDist st') (st_lineDist st) (line_distances segs) /\
      ForallOrdPairs (fun a b => deq (fst a) (fst b) = false) (st_lineDistPer st') /\
      (forall fs d, In (fs, d) (st_lineDistPer st') -> most_frequent deq d (distances_at fs segs)) /\
      (forall e, In e (line_pairs segs) -> same_size e = true -> exists fs d, In (fs, d) (st_lineDistPer st') /\ deq fs (sn_fontSize (snd e)) = true) /\
      st_charWidth st' = st_charWidth st /\ st_charHeight st' = st_charHeight st /\ st_fontSize st' = st_fontSize st /\
      st_fontName st' = st_fontName st /\ st_wordDist st' = st_wordDist st /\ st_estLineDist st' = st_estLineDist st /\ st_wordHeight st' = st_wordHeight st.
  Proof.
    cbv zeta. intros NS LT ND EP. unfold lineStatistics. set (segs := concat pages) in *.
    destruct (l_segments_ok segs (mkLS [] []) [] NS) as [A1 (P1 & P2 & P3)].
    { split; [constructor|]. split; [intros k c []|intros f []]. }
    rewrite A1. cbn [ls_all app] in *. rewrite onto_nil.
    destruct (set_freq_ok (line_distances segs) (st_lineDist st)) as (v1 & -> & F1). cbn [obind].
    set (m := ls_per (fold_left l_segment segs (mkLS [] []))) in *.
    assert (KEY : forall k c, In (k, c) m -> c = count_all deq (distances_at k segs) /\ distances_at k segs <> [] /\
              (N.of_nat (length (distances_at k segs)) < 2 ^ 32)%N /\ (forall d, In d (distances_at k segs) -> is_nan_d d = false)).
    { intros k c H. destruct (P2 k c H) as [Q1 Q2]. rewrite at_key_spec in Q1. split; [exact Q1|].
      rewrite in_map_iff in Q2. destruct Q2 as ([f d] & E1 & Q2). cbn [fst] in E1. subst f. unfold per_list in Q2. rewrite in_map_iff in Q2.
      destruct Q2 as (e & E1 & Q2). apply filter_In in Q2. destruct Q2 as [Q2 Q3].
      assert (EK : sn_fontSize (snd e) = k) by congruence.
      split; [|split].
      - unfold distances_at. intros Q. apply map_eq_nil in Q.
        assert (In e (filter (fun e => same_size e && deq k (sn_fontSize (snd e))) (line_pairs segs))) as X.
        { apply filter_In. split; [exact Q2|]. rewrite Q3, EK. cbn [andb]. apply deq_refl. rewrite <- EK. apply NS.
          apply filter_In in Q2. apply Q2. }
        rewrite Q in X. destruct X.
      - eapply N.le_lt_trans; [|exact LT]. unfold distances_at, line_pairs. rewrite map_length.
        pose proof (filter_length_le (fun e => same_size e && deq k (sn_fontSize (snd e))) (filter counted (neighbours segs))) as L1.
        pose proof (filter_length_le counted (neighbours segs)) as L2. lia.
      - intros d' Hd. apply ND. unfold distances_at, line_distances in *. rewrite in_map_iff in *. destruct Hd as (x & X1 & X2). apply filter_In in X2.
        exists x. split; [exact X1|apply X2]. }
    rewrite EP. destruct (l_per_ok (ordF m) []) as (ds & -> & D2).
    { apply (pairs_perm (fun a b => deq (fst a) (fst b) = false)) with (l := m); [|apply HF|exact P1]. intros a b Q. rewrite deq_sym. exact Q. }
    { intros e x []. }
    { intros k c H. apply (Permutation_in _ (Permutation_sym (HF m))) in H. destruct (KEY k c H) as (-> & K2 & K3 & K4).
      rewrite (sumCounts_counted deq (distances_at k segs) _ K3 (HD _)). apply N.ltb_lt. destruct (distances_at k segs); [congruence|]. cbn [length]. lia. }
    cbn [app obind] in *.
    eexists. split; [reflexivity|]. cbn [st_wordHeight st_wordDist st_estLineDist st_charWidth st_charHeight st_fontSize st_fontName st_lineDist st_lineDistPer].
    split; [exact F1|]. split; [|split; [|split]].
    - assert (FO : ForallOrdPairs (fun a b : double * list (double * N) => deq (fst a) (fst b) = false) (ordF m)).
      { apply (pairs_perm (fun a b => deq (fst a) (fst b) = false)) with (l := m); [|apply HF|exact P1]. intros a b Q. rewrite deq_sym. exact Q. }
      clear - D2 FO. induction D2 as [|x y l l' H1 H2 IH]; [constructor|]. inversion FO as [|? ? H3 H4]; subst. constructor; [|apply IH, H4].
      apply Forall_forall. intros z Hz. destruct (Forall2_In_r _ _ _ H2 z Hz) as (w & W1 & W2 & _). rewrite (proj1 H1), W2. rewrite Forall_forall in H3. exact (H3 w W1).
    - intros fs d H. destruct (Forall2_In_r _ _ _ D2 _ H) as ([k c] & X1 & X2 & X3). cbn [fst snd] in X2, X3. subst k.
      apply (Permutation_in _ (Permutation_sym (HF m))) in X1. destruct (KEY fs c X1) as (-> & K2 & K3 & K4).
      apply (guarded_frequent deq dzero dzero _ (ordD (count_all deq (distances_at fs segs))) d); try assumption.
      + intros a b Q. rewrite deq_sym. exact Q.
      + apply deq_trans.
      + intros x Hx. apply deq_refl. apply K4, Hx.
      + apply HD.
      + rewrite (sumCounts_counted deq (distances_at fs segs) _ K3 (HD _)).
        destruct (N.ltb_spec 0 (N.of_nat (length (distances_at fs segs)))) as [|X]; [exact X3|]. destruct (distances_at fs segs); [congruence|cbn [length] in X; lia].
    - intros e He Hs. destruct (P3 (sn_fontSize (snd e))) as (k & c & K1 & K2).
      { apply in_map_iff. exists (sn_fontSize (snd e), distance e). split; [reflexivity|]. unfold per_list. apply in_map_iff. exists e. split; [reflexivity|].
        apply filter_In. split; assumption. }
      apply (Permutation_in _ (HF m)) in K1. destruct (Forall2_In_l _ _ _ D2 _ K1) as ([k' d] & X1 & X2 & X3). cbn [fst] in X2. subst k'.
      exists k, d. split; assumption.
    - repeat (split; [reflexivity|]). reflexivity.
  Qed.

  (** ** Glyphs *)
  Lemma rd_err41 x : (Rabs x <= bpow radix2 41)%R -> (Rabs (rd x - x) <= bpow radix2 (-12))%R.
  Proof.
    intros H. eapply Rle_trans. apply error_le_half_ulp; auto with typeclass_instances.
    assert (ulp radix2 fx x <= ulp radix2 fx (bpow radix2 41))%R as Hu.
    { apply ulp_le; auto with typeclass_instances. rewrite (Rabs_pos_eq (bpow radix2 41)); auto. apply bpow_ge_0. }
    rewrite ulp_bpow in Hu. change (fx (41 + 1)) with (-11)%Z in Hu.
    assert (bpow radix2 (-11) = 2 * bpow radix2 (-12))%R by (change (-11)%Z with (1 + -12)%Z; rewrite bpow_plus; reflexivity).
    pose proof (ulp_ge_0 radix2 fx x). lra.
  Qed.
  Lemma e12 : (bpow radix2 (-12) = / 4096)%R. Proof. cbn. reflexivity. Qed.
  Lemma e41 : (bpow radix2 41 = 2199023255552)%R. Proof. cbn. reflexivity. Qed.
  Lemma M_huge : (4398046511104 < M)%R.
  Proof. replace 4398046511104%R with (bpow radix2 42) by (cbn; reflexivity). rewrite <- M_eq. apply bpow_lt. lia. Qed.
  Lemma rsum_app a b : (rsum (a ++ b) = rsum a + rsum b)%R.
  Proof. unfold rsum. induction a as [|x a IH]; cbn [app fold_right]; [lra|]. rewrite IH. lra. Qed.
  Lemma rsum_bound l : Forall moderate l -> (Rabs (rsum (map E l)) <= IZR (Z.of_nat (length l)) * 65536)%R.
  Proof.
    induction 1 as [|x l [_ H] _ IH]; [cbn; rewrite Rabs_R0; lra|]. cbn [map length]. rewrite Nat2Z.inj_succ. unfold Z.succ. rewrite plus_IZR.
    change (rsum (E x :: map E l)) with (E x + rsum (map E l))%R. pose proof (Rabs_triang (E x) (rsum (map E l))). lra.
  Qed.
  Lemma sum_err l : Forall moderate l -> (Z.of_nat (length l) <= 16777216)%Z ->
    is_fin (fold_left dadd l dzero) = true /\ (Rabs (E (fold_left dadd l dzero) - rsum (map E l)) <= IZR (Z.of_nat (length l)) * / 4096)%R.
  Proof.
    induction l as [|x l IH] using rev_ind; intros HM HL.
    - cbn [fold_left map length]. split; [reflexivity|]. change (E dzero) with 0%R. unfold rsum. cbn [fold_right]. rewrite Rminus_0_r, Rabs_R0. change (IZR (Z.of_nat 0)) with 0%R. lra.
    - apply Forall_app in HM. destruct HM as [HM HX]. inversion HX as [|? ? [FX BX] _]; subst.
      rewrite app_length in *. cbn [length] in *. rewrite fold_left_app, map_app, rsum_app. cbn [fold_left map]. unfold rsum at 2. cbn [fold_right].
      destruct (IH HM ltac:(lia)) as [F1 E1]. pose proof (rsum_bound l HM) as RB.
      set (s := fold_left dadd l dzero) in *. set (S0 := rsum (map E l)) in *.
      assert (NB : (0 <= IZR (Z.of_nat (length l)) <= 16777216)%R) by (split; apply IZR_le; lia).
      replace (Z.of_nat (length l + 1)) with (Z.of_nat (length l) + 1)%Z by lia. rewrite plus_IZR.
      set (n := IZR (Z.of_nat (length l))) in *. apply Rabs_le_inv in E1, RB, BX.
      destruct (dadd_E s x F1 FX) as [N1 Q]. pose proof M_huge.
      assert (He : (Rabs (rd (E s + E x) - (E s + E x)) <= / 4096)%R) by (rewrite <- e12; apply rd_err41; rewrite e41; apply Rabs_le; lra).
      apply Rabs_le_inv in He. rewrite clamp_id in Q by lra. split; [apply E_fin_iff; [exact N1|rewrite Q; lra]|].
      rewrite Q. apply Rabs_le. lra.
  Qed.
  Lemma average_err l : Forall moderate l -> l <> [] -> (Z.of_nat (length l) <= 16777216)%Z ->
    (Rabs (E (ddiv (fold_left dadd l dzero) (dZ (Z.of_nat (length l)))) - rsum (map E l) / IZR (Z.of_nat (length l))) <= 1 / 1000)%R.
  Proof.
    intros HM NE HL. destruct (sum_err l HM HL) as [F1 E1]. pose proof (rsum_bound l HM) as RB.
    assert (LP : (1 <= Z.of_nat (length l))%Z) by (destruct l; [congruence|cbn [length]; lia]).
    destruct (dZ_exact (Z.of_nat (length l))) as [F2 E2]; [lia|].
    assert (NB : (1 <= IZR (Z.of_nat (length l)) <= 16777216)%R) by (split; apply IZR_le; lia).
    set (s := fold_left dadd l dzero) in *. set (S0 := rsum (map E l)) in *. set (n := IZR (Z.of_nat (length l))) in *.
    destruct (ddiv_E s (dZ (Z.of_nat (length l))) F1 F2 ltac:(rewrite E2; lra)) as [_ Q]. rewrite E2 in Q.
    assert (A : (Rabs (E s / n - S0 / n) <= / 4096)%R).
    { replace (E s / n - S0 / n)%R with ((E s - S0) / n)%R by (field; lra). unfold Rdiv. rewrite Rabs_mult, Rabs_inv, (Rabs_pos_eq n) by lra.
      apply (Rmult_le_reg_r n); [lra|]. rewrite Rmult_assoc, Rinv_l by lra. lra. }
    assert (B : (Rabs (S0 / n) <= 65536)%R).
    { unfold Rdiv. rewrite Rabs_mult, Rabs_inv, (Rabs_pos_eq n) by lra. apply (Rmult_le_reg_r n); [lra|]. rewrite Rmult_assoc, Rinv_l by lra. lra. }
    apply Rabs_le_inv in A, B. pose proof M_big.
    assert (He : (Rabs (rd (E s / n) - E s / n) <= / 4194304)%R) by (rewrite <- e22; apply rd_err; rewrite e30; apply Rabs_le; lra).
    apply Rabs_le_inv in He. rewrite clamp_id in Q by lra. rewrite Q. apply Rabs_le. lra.
  Qed.
  Definition g_of (cs : list character) (s : gstate) : gstate :=
    mkG (onto deq (map c_fontSize cs) (g_sizes s)) (onto str_eqb (map c_fontName cs) (g_names s))
        (fold_left dadd (map (fun c => getWidth (c_pos c)) cs) (g_widths s)) (fold_left dadd (map (fun c => getHeight (c_pos c)) cs) (g_heights s))
        (g_num s + Z.of_nat (length cs)).
  Lemma g_loop_ok cs : forall s, (g_num s + Z.of_nat (length cs) < 2 ^ 31)%Z -> g_loop s cs = Ok (g_of cs s).
  Proof.
    induction cs as [|c t IH]; intros s H.
    - cbn [g_loop]. unfold g_of. cbn. rewrite Z.add_0_r. destruct s; reflexivity.
    - cbn [g_loop length] in *. unfold g_char at 1. destruct (Z.eqb_spec (g_num s) (2 ^ 31 - 1)) as [Q|Q]; [exfalso; lia|]. cbn [obind].
      rewrite IH by (cbn [g_num]; lia). unfold g_of. cbn [g_sizes g_names g_widths g_heights g_num map length onto fold_left]. f_equal. f_equal. lia.
  Qed.
  Lemma g_of_app a b s : g_of (a ++ b) s = g_of b (g_of a s).
  Proof. unfold g_of. cbn [g_sizes g_names g_widths g_heights g_num]. rewrite !map_app, !onto_app, !fold_left_app, app_length. f_equal. lia. Qed.
  Lemma g_pages_ok pages : forall s, (g_num s + Z.of_nat (length (concat pages)) < 2 ^ 31)%Z -> g_pages s pages = Ok (g_of (concat pages) s).
  Proof.
    induction pages as [|cs t IH]; intros s H; cbn [g_pages concat] in *.
    - unfold g_of. cbn. rewrite Z.add_0_r. destruct s; reflexivity.
    - rewrite app_length in H. rewrite g_loop_ok by lia. cbn [obind]. rewrite IH; [rewrite g_of_app; reflexivity|]. unfold g_of at 1. cbn [g_num]. lia.
  Qed.
  Theorem glyphStatistics_ok pages st : let cs := concat pages in (Z.of_nat (length cs) < 2 ^ 31)%Z ->
    exists st', glyphStatistics ordS ordD pages st = Ok st' /\
      (cs = [] -> st' = st) /\
      (cs <> [] -> most_frequent str_eqb (st_fontName st') (map c_fontName cs) /\
      ((forall c, In c cs -> is_nan_d (c_fontSize c) = false) -> most_frequent deq (st_fontSize st') (map c_fontSize cs)) /\
      average_of (st_charWidth st') (map (fun c => getWidth (c_pos c)) cs) /\ average_of (st_charHeight st') (map (fun c => getHeight (c_pos c)) cs)) /\
      st_wordDist st' = st_wordDist st /\ st_estLineDist st' = st_estLineDist st /\ st_lineDist st' = st_lineDist st /\
      st_lineDistPer st' = st_lineDistPer st /\ st_wordHeight st' = st_wordHeight st.
  Proof.
    cbv zeta. intros LT. unfold glyphStatistics. rewrite g_pages_ok by (cbn [g_init g_num]; lia). cbn [obind]. set (cs := concat pages) in *.
    unfold g_of. cbn [g_init g_sizes g_names g_widths g_heights g_num]. rewrite !onto_nil, Z.add_0_l.
    destruct (Z.eqb_spec (Z.of_nat (length cs)) 0) as [Z0|Z0].
    - assert (cs = []) as -> by (destruct cs; [reflexivity|cbn [length] in Z0; lia]). exists st. split; [reflexivity|]. split; [reflexivity|].
      split; [congruence|]. repeat (split; [reflexivity|]). reflexivity.
    - assert (NE : cs <> []) by (intros Q; rewrite Q in Z0; apply Z0; reflexivity).
      assert (LN : forall {B} (f : character -> B), (N.of_nat (length (map f cs)) < 2 ^ 32)%N) by (intros B f; rewrite map_length; lia).
      assert (MN : forall {B} (f : character -> B), map f cs <> []) by (intros B f Q; apply map_eq_nil in Q; contradiction).
      destruct (guarded_mostFreq deq dzero dzero (ordD (count_all deq (map c_fontSize cs)))) as [fs E1]. rewrite E1. cbn [obind].
      destruct (guarded_mostFreq str_eqb [] [] (ordS (count_all str_eqb (map c_fontName cs)))) as [fn E2]. rewrite E2. cbn [obind].
      eexists. split; [reflexivity|]. cbn [st_wordHeight st_wordDist st_estLineDist st_charWidth st_charHeight st_fontSize st_fontName st_lineDist st_lineDistPer].
      split; [congruence|]. split; [intros _|repeat (split; [reflexivity|]); reflexivity].
      split; [|split; [|split]].
      + apply (guarded_frequent str_eqb [] [] _ (ordS (count_all str_eqb (map c_fontName cs))) fn).
        * intros a b Q. apply str_eqb_eq in Q. subst. apply str_eqb_refl.
        * intros a b c Q1 Q2. apply str_eqb_eq in Q1, Q2. subst. apply str_eqb_refl.
        * intros x _. apply str_eqb_refl.
        * apply LN.
        * apply MN.
        * apply HS.
        * exact E2.
      + intros NF. apply (guarded_frequent deq dzero dzero _ (ordD (count_all deq (map c_fontSize cs))) fs).
        * intros a b Q. rewrite deq_sym. exact Q.
        * apply deq_trans.
        * intros x Hx. apply deq_refl. apply in_map_iff in Hx. destruct Hx as (c & <- & Hc). apply NF, Hc.
        * apply LN.
        * apply MN.
        * apply HD.
        * exact E1.
      + intros L16 HM. pose proof (average_err _ HM (MN _ _) L16) as A. rewrite map_length in A |- *. exact A.
      + intros L16 HM. pose proof (average_err _ HM (MN _ _) L16) as A. rewrite map_length in A |- *. exact A.
  Qed.
End S.
