(** XYCutProofs.v - lemmas about XYCut.v. *)
From Coq Require Import ZArith NArith.
From Verif Require Import Base Double DoubleFacts MathUtils MathUtilsProofs Sort Elements GeometrySpec ElementsProofs GridProofs
  Counter XYCut XYCutSpec.

Local Opaque TOL dZ dadd dsub ddiv DBL_MAX DBL_MIN.
Ltac inv_do H := match type of H with
  | obind ?m _ = Ok _ => let E := fresh "E" in destruct m eqn:E; cbn [obind] in H; try discriminate H end.

Lemma skipn_skipn {A} n : forall m (l : list A), skipn n (skipn m l) = skipn (m + n) l.
Proof. induction m as [|m IH]; intros [|x l]; cbn; auto. now rewrite skipn_nil. Qed.
Section P.
  Context {A : Type} (pos : A -> position).
  Context (impl : (A -> A -> bool) -> list A -> list A) (topi : (A -> A -> bool) -> list A -> nat).
  Context (Himpl : sort_ok impl) (Htop : top_ok topi).
  Notation cut := (cut A).

  (** *** Positions *)
  Definition cand_in (lo hi : nat) (cs : list cut) : Prop :=
    StronglySorted lt (map cut_pos cs) /\ forall c, In c cs -> lo <= cut_pos c < hi.
  Lemma cand_weaken lo lo' hi cs : lo <= lo' -> cand_in lo' hi cs -> cand_in lo hi cs.
  Proof. intros H [H1 H2]. split; auto. intros c Hc. specialize (H2 c Hc). lia. Qed.
  Lemma cand_cons lo hi c cs : cut_pos c = lo -> lo < hi -> cand_in (S lo) hi cs -> cand_in lo hi (c :: cs).
  Proof.
    intros Hp Hl [H1 H2]. split.
    - cbn. constructor; auto. apply Forall_forall. intros p Hin. apply in_map_iff in Hin as (d & <- & Hd).
      specialize (H2 d Hd). lia.
    - intros d [<-|Hd]; [lia|]. specialize (H2 d Hd). lia.
  Qed.
  Lemma find_gap_some mg y1 y2 p e prevs : forall ov c, find_gap pos mg y1 y2 p e ov prevs = Some c ->
    exists l1 prev l2, prevs = l1 ++ prev :: l2 /\ cut_pos c = p /\ cut_before c = prev /\ cut_after c = e /\
      cut_overlap c = ov ++ l1 /\ cut_chosen c = false /\
      equalOrLarger (computeHorizontalGap (pos prev) (pos e)) mg TOL = true /\
      cut_gapWidth c = computeHorizontalGap (pos prev) (pos e) /\
      (forall q, In q l1 -> equalOrLarger (computeHorizontalGap (pos q) (pos e)) mg TOL = false).
  Proof.
    induction prevs as [|prev t IH]; intros ov c H; cbn in H; [discriminate|].
    destruct (equalOrLarger _ mg TOL) eqn:G.
    - injection H as <-. exists [], prev, t. cbn. rewrite app_nil_r. repeat split; auto. intros q [].
    - apply IH in H as (l1 & pr & l2 & -> & H1 & H2 & H3 & H4 & H5 & H6 & H7 & H8).
      exists (prev :: l1), pr, l2. rewrite H4, <- app_assoc. repeat split; auto. intros q [<-|Hq]; auto.
  Qed.
  Lemma find_gap_none mg y1 y2 p e prevs : forall ov, find_gap pos mg y1 y2 p e ov prevs = None ->
    forall q, In q prevs -> equalOrLarger (computeHorizontalGap (pos q) (pos e)) mg TOL = false.
  Proof.
    induction prevs as [|prev t IH]; intros ov H q Hq; cbn in H; [destruct Hq|].
    destruct (equalOrLarger _ mg TOL) eqn:G; [discriminate|]. destruct Hq as [<-|Hq]; eauto.
  Qed.
  Lemma x_scan_pos mg y1 y2 cap rest : forall p q cs, x_scan pos impl topi mg y1 y2 cap p q rest = Ok cs ->
    cand_in p (p + length rest) cs.
  Proof.
    induction rest as [|e t IH]; intros p q cs H; cbn in H.
    - injection H as <-. split; [constructor|intros c []].
    - inv_do H. inv_do H. inv_do H. inv_do H. injection H as <-. apply IH in E2.
      replace (p + length (e :: t)) with (S p + length t) by (cbn; lia).
      destruct (find_gap pos mg y1 y2 p e [] a) eqn:F; cbn.
      + apply find_gap_some in F as (? & ? & ? & ? & ? & ?). apply cand_cons; auto. lia.
      + apply (cand_weaken p (S p)); auto.
  Qed.
  Lemma y_scan_pos mg x1 x2 rest : forall p m, cand_in p (p + length rest) (y_scan pos mg x1 x2 p m rest).
  Proof.
    induction rest as [|e t IH]; intros p m; cbn [y_scan].
    - split; [constructor|intros c []].
    - replace (p + length (e :: t)) with (S p + length t) by (cbn; lia).
      destruct (equalOrLarger _ mg TOL); cbn [app].
      + apply cand_cons; auto. lia.
      + apply (cand_weaken p (S p)); auto.
  Qed.

  Lemma apply_flags_pos (cs : list cut) : forall fl, map cut_pos (apply_flags cs fl) = map cut_pos cs.
  Proof. induction cs as [|c t IH]; intros fl; cbn; auto. f_equal; auto. Qed.
  Lemma cand_flags lo hi cs fl : cand_in lo hi cs -> cand_in lo hi (apply_flags cs fl).
  Proof.
    intros [H1 H2]. split; [now rewrite apply_flags_pos|]. intros c Hc.
    assert (In (cut_pos c) (map cut_pos cs)) as Hin.
    { rewrite <- (apply_flags_pos cs fl). apply in_map; auto. }
    apply in_map_iff in Hin as (d & <- & Hd). auto.
  Qed.

  (** *** Division at the chosen cuts *)
  Definition chosen_pos (cs : list cut) : list nat := map cut_pos (filter cut_chosen cs).
  Lemma divide_spec (s : list A) cs : forall prev, prev < length s -> cand_in (S prev) (length s) cs ->
    exists gs, divide prev cs s = Ok gs /\ concat gs = skipn prev s /\ length gs = S (length (chosen_pos cs)) /\
      (forall i p, nth_error (chosen_pos cs) i = Some p -> concat (firstn (S i) gs) = firstn (p - prev) (skipn prev s)) /\
      (forall g, In g gs -> g <> []).
  Proof.
    induction cs as [|c t IH]; intros prev Hprev [Hs Hr]; cbn [divide].
    - exists [skipn prev s]. cbn. rewrite app_nil_r. repeat split; auto.
      + intros [|i] p H; discriminate.
      + intros g [<-|[]] E. apply (f_equal (@length A)) in E. rewrite skipn_length in E. cbn in E. lia.
    - cbn [map] in Hs. inversion Hs as [|? ? Hs' Hall]; subst. rewrite Forall_forall in Hall.
      assert (S prev <= cut_pos c < length s) as Hc by (apply Hr; left; auto).
      unfold chosen_pos. cbn [filter]. destruct (cut_chosen c) eqn:Ec.
      + destruct (IH (cut_pos c)) as (gs & -> & Hcc & Hlen & Hpre & Hne); [lia| |].
        { split; auto. intros d Hd. specialize (Hr d (or_intror Hd)).
          assert (cut_pos c < cut_pos d) by (apply Hall, in_map; auto). lia. }
        replace ((prev <=? cut_pos c) && (cut_pos c <=? length s)) with true
          by (symmetry; apply andb_true_iff; rewrite !Nat.leb_le; lia).
        cbn [obind]. eexists; split; [reflexivity|]. cbn [concat map length]. rewrite Hcc.
        assert (firstn (cut_pos c - prev) (skipn prev s) ++ skipn (cut_pos c) s = skipn prev s) as Hsplit.
        { rewrite <- (firstn_skipn (cut_pos c - prev) (skipn prev s)) at 2. f_equal.
          rewrite skipn_skipn. f_equal. lia. }
        split; [exact Hsplit|]. split; [rewrite Hlen; reflexivity|]. split.
        * intros [|i] p Hi; cbn in Hi.
          -- injection Hi as <-. cbn. now rewrite app_nil_r.
          -- specialize (Hpre i p Hi). cbn [firstn concat] in Hpre |- *. rewrite Hpre.
             assert (cut_pos c < p).
             { apply Hall. apply nth_error_In in Hi. unfold chosen_pos in Hi.
               apply in_map_iff in Hi as (d & <- & Hd). apply filter_In in Hd as [Hd _]. apply in_map; auto. }
             transitivity (firstn (p - prev) (firstn (cut_pos c - prev) (skipn prev s) ++ skipn (cut_pos c) s)); [|now rewrite Hsplit].
             rewrite firstn_app.
             rewrite firstn_length, skipn_length.
             replace (Nat.min (cut_pos c - prev) (length s - prev)) with (cut_pos c - prev) by lia.
             replace (p - prev - (cut_pos c - prev)) with (p - cut_pos c) by lia. f_equal.
             rewrite firstn_firstn. f_equal. lia.
        * intros g [<-|Hg]; auto. intros E. apply (f_equal (@length A)) in E.
          rewrite firstn_length, skipn_length in E. cbn in E. lia.
      + apply IH; [lia|]. split; auto. intros d Hd. apply Hr. right; auto.
  Qed.
  Lemma exists_chosen_pos (cs : list cut) : existsb cut_chosen cs = true <-> chosen_pos cs <> [].
  Proof.
    unfold chosen_pos. rewrite existsb_exists. split.
    - intros (c & Hc & Ec) E. apply map_eq_nil in E.
      assert (In c (filter cut_chosen cs)) as H by (apply filter_In; auto). rewrite E in H. destruct H.
    - destruct (filter cut_chosen cs) as [|c t] eqn:F; [cbn; congruence|]. intros _.
      exists c. apply filter_In. rewrite F. left; auto.
  Qed.
  Lemma chosen_positions n cs : cand_in 1 n cs -> cut_positions n (chosen_pos cs).
  Proof.
    intros [H1 H2]. unfold chosen_pos. split.
    - clear H2. induction cs as [|c t IH]; cbn in *; [constructor|].
      inversion H1 as [|? ? Hs Ha]; subst. destruct (cut_chosen c); cbn; auto. constructor; auto.
      rewrite Forall_forall in *. intros p Hp. apply Ha. apply in_map_iff in Hp as (d & <- & Hd).
      apply filter_In in Hd as [Hd _]. apply in_map; auto.
    - intros p Hp. apply in_map_iff in Hp as (d & <- & Hd). apply filter_In in Hd as [Hd _]. auto.
  Qed.

  (** Everything that holds of both kinds of cuts. *)
  Definition division (elements s : list A) (b : bool) (gs : list (list A)) (cs : list cut) : Prop :=
    Permutation elements s /\ cand_in 1 (length s) cs /\ cut_at (chosen_pos cs) s gs /\
    (b = true <-> chosen_pos cs <> []) /\ partition_of elements gs.
  Lemma finish_spec choose cands s elements b gs cs : s <> [] -> Permutation elements s -> cand_in 1 (length s) cands ->
    finish choose cands s = Ok (b, gs, cs) ->
    division elements s b gs cs /\ exists fl, choose cands s = Ok fl /\ cs = apply_flags cands fl.
  Proof.
    intros Hne HP HC H. unfold finish in H. inv_do H. inv_do H. injection H as <- <- <-.
    destruct (divide_spec s (apply_flags cands a) 0) as (gs & Hd & Hcc & Hlen & Hpre & Hnn).
    { destruct s; [congruence|cbn; lia]. } { apply cand_flags; auto. }
    rewrite Hd in E0. injection E0 as <-. cbn [skipn] in Hcc. split; [|eauto]. split; auto. split; [apply cand_flags; auto|].
    split; [|split; [apply exists_chosen_pos|]].
    - split; auto. split; auto. intros i p Hi. rewrite (Hpre i p Hi). now rewrite Nat.sub_0_r.
    - split; auto. now rewrite Hcc.
  Qed.
  Lemma finish_ok choose cands s : s <> [] -> cand_in 1 (length s) cands -> (exists fl, choose cands s = Ok fl) ->
    exists r, finish choose cands s = Ok r.
  Proof.
    intros Hne HC [fl Hfl]. unfold finish. rewrite Hfl. cbn [obind].
    destruct (divide_spec s (apply_flags cands fl) 0) as (gs & -> & _).
    { destruct s; [congruence|cbn; lia]. } { apply cand_flags; auto. }
    cbn. eauto.
  Qed.

  (** *** The queue *)
  Notation rxd := (rightXDesc pos).
  Lemma rxd_trans a b c : rxd a b = true -> rxd b c = true -> rxd a c = true.
  Proof. apply larger_trans, TOL_pos. Qed.
  Lemma rxd_asym a b : rxd a b = true -> rxd b a = false.
  Proof. apply larger_asym, TOL_pos. Qed.
  Lemma swo_incl (lt : A -> A -> bool) l l' : incl l l' -> swo lt l' -> swo lt l.
  Proof.
    intros Hi (H1 & H2 & H3). split; [|split].
    - intros x Hx. apply H1; auto.
    - intros x y z Hx Hy Hz. apply H2; auto.
    - intros x y z Hx Hy Hz. apply H3; auto.
  Qed.
  Lemma swo_negtrans (lt : A -> A -> bool) l : swo lt l -> forall x y z, In x l -> In y l -> In z l ->
    lt x y = false -> lt y z = false -> lt x z = false.
  Proof.
    intros (H1 & H2 & H3) x y z Hx Hy Hz Hxy Hyz. destruct (lt x z) eqn:Exz; auto.
    destruct (lt y x) eqn:Eyx. { rewrite (H2 y x z) in Hyz; auto. }
    destruct (lt z y) eqn:Ezy. { rewrite (H2 x z y) in Hxy; auto. }
    assert (incomp lt x z = true) as Hc.
    { apply (H3 x y z); auto; unfold incomp; [rewrite Hxy, Eyx|rewrite Hyz, Ezy]; reflexivity. }
    unfold incomp in Hc. rewrite Exz in Hc. discriminate.
  Qed.
  Lemma remove_top_perm q x : nth_error q (topi rxd q) = Some x -> Permutation q (x :: pq_remove_top pos topi q).
  Proof.
    intros H. unfold pq_remove_top. generalize dependent (topi rxd q). intros i Hi.
    revert q Hi. induction i as [|i IH]; intros [|y q] Hi; cbn in Hi; try discriminate.
    - injection Hi as ->. reflexivity.
    - apply IH in Hi. cbn [firstn skipn app]. rewrite perm_swap. constructor. exact Hi.
  Qed.

  (** Invariant of the scan: [seen] are the elements processed so far, [U] the set in which the comparator may be
      assumed to be a strict weak order (unless the queue holds at most one element). *)
  Definition qinv (cap : N) (seen q : list A) : Prop :=
    (1 <= cap)%N /\ q <> [] /\ (N.of_nat (length q) <= cap)%N /\
    exists gone, Permutation seen (q ++ gone) /\ forall d x, In d gone -> In x q -> rxd d x = false.
  Lemma qinv_first cap e q : pq_push_f pos topi cap [] e = Ok q -> (0 < cap)%N /\ q = [e] /\ qinv cap [e] q.
  Proof.
    unfold pq_push_f. destruct (swo_b rxd [e]); [|discriminate]. cbn [length]. destruct (N.eqb_spec (N.of_nat 0) cap); [discriminate|].
    intros [= <-]. cbn in n. split; [lia|]. split; auto. split; [lia|]. split; [discriminate|]. split; [cbn; lia|].
    exists []. split; [constructor; constructor|]. intros d x [].
  Qed.
  Lemma pq_top_spec q x : swo rxd q -> pq_top pos topi q = Ok x ->
    nth_error q (topi rxd q) = Some x /\ In x q /\ forall y, In y q -> rxd x y = false.
  Proof.
    intros Hs H. unfold pq_top in H. destruct (nth_error q (topi rxd q)) eqn:E; [|discriminate]. injection H as ->.
    assert (q <> []) as Hq. { intros ->. destruct (topi rxd []); discriminate. }
    destruct (Htop rxd q Hq Hs) as (y & Hy & Hm). rewrite E in Hy. injection Hy as ->.
    split; auto. split; auto. eapply nth_error_In; eauto.
  Qed.
  Lemma qinv_step cap seen q e tp q' : qinv cap seen q -> swo rxd q -> (cap = 1%N \/ swo rxd (seen ++ [e])) ->
    pq_top pos topi q = Ok tp ->
    (if larger (rightX (pos e)) (rightX (pos tp)) TOL then pq_push_f pos topi cap q e else Ok q) = Ok q' ->
    qinv cap (seen ++ [e]) q'.
  Proof.
    intros (Hcap & Hne & Hlen & gone & HP & Hg) Hsq HU Ht H.
    destruct (pq_top_spec q tp Hsq Ht) as (Hnth & Hin & Hmin).
    change (larger (rightX (pos e)) (rightX (pos tp)) TOL) with (rxd e tp) in H.
    destruct (rxd e tp) eqn:El.
    - unfold pq_push_f in H. destruct (swo_b rxd (e :: q)); [|discriminate].
      assert (forall d, In d gone -> rxd d e = false) as Hde.
      { intros d Hd. destruct (rxd d e) eqn:X; auto. pose proof (rxd_trans d e tp X El) as Y. rewrite (Hg d tp) in Y; auto. }
      destruct (N.eqb_spec (N.of_nat (length q)) cap) as [Hf|Hf].
      + assert (Ok (e :: pq_remove_top pos topi q) = Ok q') as H'.
        { destruct q; [congruence|exact H]. }
        injection H' as <-. clear H. pose proof (remove_top_perm q tp Hnth) as HR.
        assert (forall y, In y (pq_remove_top pos topi q) -> In y q) as Hsub.
        { intros y Hy. apply (Permutation_in _ (Permutation_sym HR)). right; auto. }
        split; [auto|]. split; [discriminate|]. split.
        * apply Permutation_length in HR. cbn [length] in HR |- *. lia.
        * exists (tp :: gone). split.
          -- rewrite <- Permutation_cons_append. cbn [app]. constructor.
             transitivity ((tp :: pq_remove_top pos topi q) ++ gone); [rewrite HP; apply Permutation_app_tail; exact HR|].
             cbn [app]. apply Permutation_middle.
          -- intros d x [<-|Hd] [<-|Hx]; auto. apply rxd_asym; auto.
      + injection H as <-. split; [auto|]. split; [discriminate|]. split; [cbn [length]; lia|].
        exists gone. split.
        * rewrite <- Permutation_cons_append. cbn [app]. constructor. exact HP.
        * intros d x Hd [<-|Hx]; auto.
    - injection H as <-. split; [auto|]. split; [auto|]. split; [auto|]. exists (e :: gone). split.
      + rewrite <- Permutation_cons_append, HP. apply Permutation_middle.
      + intros d x [<-|Hd] Hx; auto.
        destruct HU as [->|HU].
        * destruct q as [|y [|z q]]; [congruence| |cbn in Hlen; lia].
          destruct Hin as [<-|[]], Hx as [<-|[]]. exact El.
        * assert (forall y, In y q -> In y (seen ++ [e])) as Hsub.
          { intros y Hy. apply in_or_app. left. apply (Permutation_in _ (Permutation_sym HP)). apply in_or_app; auto. }
          apply (swo_negtrans rxd _ HU e tp x); auto. apply in_or_app. right. left; auto.
  Qed.

  (** What a candidate x-cut says about the elements before and after it. *)
  Definition x_candidate (minGap : double) (maxOverlap : N) (s : list A) (c : cut) : Prop :=
    nth_error s (cut_pos c) = Some (cut_after c) /\
    (N.of_nat (length (cut_overlap c)) <= maxOverlap)%N /\
    reaches_farthest (fun a => rightX (pos a)) (cut_overlap c) (cut_before c) (firstn (cut_pos c) s) /\
    equalOrLarger (computeHorizontalGap (pos (cut_before c)) (pos (cut_after c))) minGap TOL = true /\
    cut_gapWidth c = computeHorizontalGap (pos (cut_before c)) (pos (cut_after c)).
  Lemma x_scan_cand mg y1 y2 cap rest : forall seen q cs, qinv cap seen q ->
    (cap = 1%N \/ swo rxd (seen ++ rest)) ->
    x_scan pos impl topi mg y1 y2 cap (length seen) q rest = Ok cs ->
    forall c, In c cs -> x_candidate mg (cap - 1) (seen ++ rest) c.
  Proof.
    induction rest as [|e t IH]; intros seen q cs HI HU H; cbn in H.
    - injection H as <-. intros c [].
    - inv_do H. inv_do H. inv_do H. inv_do H. injection H as <-.
      assert (swo rxd q) as Hsq.
      { unfold pq_sort, std_sort in E. destruct (swo_b rxd q) eqn:X; [|discriminate]. apply swo_b_spec; auto. }
      intros c Hc. apply in_app_or in Hc as [Hc|Hc].
      + destruct (find_gap pos mg y1 y2 (length seen) e [] a) as [c'|] eqn:F; [|destruct Hc].
        destruct Hc as [<-|[]].
        apply find_gap_some in F as (l1 & prev & l2 & Ha & H1 & H2 & H3 & H4 & H5 & H6 & H7 & H8).
        cbn [app] in H4. unfold x_candidate. rewrite H1, H2, H3, H4, H7.
        destruct HI as (Hcap & Hne & Hlen & gone & HP & Hg).
        pose proof (std_sort_perm impl rxd q a Himpl E) as Hpa. pose proof (std_sort_ord impl rxd q a Himpl E) as Ho.
        rewrite Ha in Hpa. split; [|split; [|split; [|split]]]; auto.
        * rewrite nth_error_app2 by lia. now rewrite Nat.sub_diag.
        * apply Permutation_length in Hpa. rewrite app_length in Hpa. cbn in Hpa. lia.
        * rewrite firstn_app, Nat.sub_diag, firstn_all. cbn [firstn]. rewrite app_nil_r. exists (l2 ++ gone). split.
          -- rewrite HP, Hpa, <- app_assoc. cbn. reflexivity.
          -- intros d Hd. apply in_app_or in Hd as [Hd|Hd].
             ++ apply ord_ordered in Ho. apply in_split in Hd as (m1 & m2 & ->).
                apply (Ho l1 prev m1 d m2). rewrite Ha. reflexivity.
             ++ apply Hg; auto. apply (Permutation_in _ (Permutation_sym Hpa)). apply in_or_app. right; left; auto.
      + replace (seen ++ e :: t) with ((seen ++ [e]) ++ t) in * by (rewrite <- app_assoc; reflexivity).
        apply (IH (seen ++ [e]) a1 a2); auto.
        * eapply qinv_step; eauto. destruct HU as [HU|HU]; auto. right. eapply swo_incl; [|exact HU].
          intros y Hy. apply in_or_app. auto.
        * rewrite app_length. cbn. rewrite Nat.add_1_r. exact E2.
  Qed.
  (** Completeness for cuts that may not overlap anything (capacity 1): at every position there is a previous
      element reaching farthest which decides whether the position is a candidate. *)
  Lemma x_scan_complete mg y1 y2 rest : forall seen q cs, qinv 1 seen q ->
    x_scan pos impl topi mg y1 y2 1 (length seen) q rest = Ok cs ->
    forall i e, length seen <= i -> nth_error (seen ++ rest) i = Some e ->
      exists m, reaches_farthest (fun a => rightX (pos a)) [] m (firstn i (seen ++ rest)) /\
        (In i (map cut_pos cs) <-> equalOrLarger (computeHorizontalGap (pos m) (pos e)) mg TOL = true).
  Proof.
    induction rest as [|e t IH]; intros seen q cs HI H i e' Hi He; cbn in H.
    - injection H as <-. rewrite app_nil_r in He. assert (nth_error seen i <> None) as H by congruence. apply nth_error_Some in H. lia.
    - inv_do H. inv_do H. inv_do H. inv_do H. injection H as <-.
      assert (swo rxd q) as Hsq.
      { unfold pq_sort, std_sort in E. destruct (swo_b rxd q) eqn:X; [|discriminate]. apply swo_b_spec; auto. }
      assert (qinv 1 (seen ++ [e]) a1) as HI' by (eapply qinv_step; eauto).
      assert (S (length seen) = length (seen ++ [e])) as HL by (rewrite app_length; cbn; lia).
      pose proof (x_scan_pos _ _ _ _ _ _ _ _ E2) as [_ Hrange].
      destruct (Nat.eq_dec i (length seen)) as [->|Hne].
      + rewrite nth_error_app2, Nat.sub_diag in He by lia. injection He as <-.
        destruct HI as (Hcap & Hne & Hlen & gone & HP & Hg).
        destruct q as [|m [|z q]]; [congruence| |cbn in Hlen; lia].
        exists m. split.
        * rewrite firstn_app, Nat.sub_diag, firstn_all. cbn [firstn]. rewrite app_nil_r. exists gone. split; [exact HP|].
          intros d Hd. apply (Hg d m Hd). left; auto.
        * pose proof (std_sort_perm impl rxd [m] a Himpl E) as Hpa. apply Permutation_length_1_inv in Hpa. subst a.
          cbn [find_gap]. destruct (equalOrLarger (computeHorizontalGap (pos m) (pos e)) mg TOL) eqn:G; cbn [opt_list app map].
          -- split; auto. intros _. left; reflexivity.
          -- split; [|discriminate]. intros Hin. exfalso. apply in_map_iff in Hin as (c & Hc & Hin).
             specialize (Hrange c Hin). lia.
      + assert (seen ++ e :: t = (seen ++ [e]) ++ t) as Eapp by (rewrite <- app_assoc; reflexivity).
        rewrite Eapp in *. rewrite HL in E2.
        destruct (IH (seen ++ [e]) a1 a2 HI' E2 i e') as (m & Hm & Hiff); auto; [rewrite <- HL; lia|].
        exists m. split; auto. rewrite <- Hiff. rewrite map_app, in_app_iff. split; [|auto]. intros [Hin|]; auto.
        exfalso. destruct (find_gap pos mg y1 y2 (length seen) e [] a) eqn:F; [|destruct Hin].
        destruct Hin as [Hin|[]]. apply find_gap_some in F as (? & ? & ? & ? & ? & ?). lia.
  Qed.

  (** The same for y-cuts. *)
  Definition far_inv (seen : list A) (m : A) : Prop := reaches_farthest (fun a => lowerY (pos a)) [] m seen.
  Lemma far_step seen m e : far_inv seen m ->
    far_inv (seen ++ [e]) (if larger (lowerY (pos e)) (lowerY (pos m)) TOL then e else m).
  Proof.
    intros (rest & HP & Hr). cbn [app] in HP. destruct (larger _ _ TOL) eqn:L.
    - exists (m :: rest). split; [rewrite HP; symmetry; apply Permutation_cons_append|].
      intros d [<-|Hd]; [apply larger_asym; auto using TOL_pos|].
      destruct (larger (lowerY (pos d)) (lowerY (pos e)) TOL) eqn:X; auto.
      pose proof (larger_trans _ _ _ _ TOL_pos X L) as Y. cbn beta in Hr. rewrite (Hr d Hd) in Y. discriminate.
    - exists (e :: rest). split; [rewrite HP; cbn; rewrite perm_swap, <- Permutation_cons_append; constructor; reflexivity|].
      intros d [<-|Hd]; auto.
  Qed.
  Lemma y_scan_complete mg x1 x2 rest : forall seen m, far_inv seen m ->
    forall i e, length seen <= i -> nth_error (seen ++ rest) i = Some e ->
      exists m', far_inv (firstn i (seen ++ rest)) m' /\
        (In i (map cut_pos (y_scan pos mg x1 x2 (length seen) m rest)) <->
         equalOrLarger (computeVerticalGap (pos m') (pos e)) mg TOL = true) /\
        (forall c, In c (y_scan pos mg x1 x2 (length seen) m rest) -> cut_pos c = i ->
           cut_before c = m' /\ cut_after c = e /\ cut_gapHeight c = computeVerticalGap (pos m') (pos e) /\ cut_overlap c = []).
  Proof.
    induction rest as [|e t IH]; intros seen m HI i e' Hi He; cbn [y_scan].
    - rewrite app_nil_r in He. assert (nth_error seen i <> None) as H by congruence. apply nth_error_Some in H. lia.
    - set (m2 := if larger (lowerY (pos e)) (lowerY (pos m)) TOL then e else m).
      assert (S (length seen) = length (seen ++ [e])) as HL by (rewrite app_length; cbn; lia).
      pose proof (y_scan_pos mg x1 x2 t (S (length seen)) m2) as [_ Hrange].
      destruct (Nat.eq_dec i (length seen)) as [->|Hne].
      + rewrite nth_error_app2, Nat.sub_diag in He by lia. injection He as <-. exists m. split.
        * rewrite firstn_app, Nat.sub_diag, firstn_all. cbn [firstn]. now rewrite app_nil_r.
        * destruct (equalOrLarger (computeVerticalGap (pos m) (pos e)) mg TOL) eqn:G; cbn [app map In]; split.
          -- split; auto.
          -- intros c [<-|Hc] Hcp; cbn; auto. exfalso. specialize (Hrange c Hc). lia.
          -- split; [|discriminate]. intros Hin. exfalso. apply in_map_iff in Hin as (c & Hc & Hin).
             specialize (Hrange c Hin). lia.
          -- intros c Hc Hcp. exfalso. specialize (Hrange c Hc). lia.
      + assert (seen ++ e :: t = (seen ++ [e]) ++ t) as Eapp by (rewrite <- app_assoc; reflexivity).
        rewrite Eapp in *.
        destruct (IH (seen ++ [e]) m2 (far_step seen m e HI) i e') as (m' & Hm & Hiff & Hc); auto; [rewrite <- HL; lia|].
        rewrite <- HL in Hiff, Hc. exists m'. split; auto. split.
        * rewrite <- Hiff. rewrite map_app, in_app_iff. split; [|auto]. intros [Hin|]; auto.
          exfalso. destruct (equalOrLarger (computeVerticalGap (pos m) (pos e)) mg TOL); cbn in Hin; [destruct Hin as [Hin|[]]; lia|destruct Hin].
        * intros c Hin Hcp. apply in_app_or in Hin as [Hin|Hin]; auto.
          exfalso. destruct (equalOrLarger (computeVerticalGap (pos m) (pos e)) mg TOL); [destruct Hin as [<-|[]]; cbn in Hcp; lia|destruct Hin].
  Qed.

  (** *** xCut and yCut as a whole *)
  Lemma xCut_spec mg k choose elements b gs cs : xCut pos impl topi mg k choose elements = Ok (b, gs, cs) ->
    (elements = [] /\ b = false /\ gs = [] /\ cs = []) \/
    exists s cands fl, s <> [] /\ ordered (leftXAsc pos) s /\ division elements s b gs cs /\
      choose cands s = Ok fl /\ cs = apply_flags cands fl /\ cand_in 1 (length s) cands /\
      (0 < queue_capacity k)%N /\
      (forall c, queue_capacity k = 1%N \/ swo (rightXDesc pos) elements -> In c cands ->
         x_candidate mg (queue_capacity k - 1) s c) /\
      (queue_capacity k = 1%N -> forall i e, 1 <= i -> nth_error s i = Some e ->
        exists m, reaches_farthest (fun a => rightX (pos a)) [] m (firstn i s) /\
          (In i (map cut_pos cands) <-> equalOrLarger (computeHorizontalGap (pos m) (pos e)) mg TOL = true)).
  Proof.
    intros H. unfold xCut in H. destruct elements as [|e0 l]; [injection H as <- <- <-; auto|]. right.
    set (el := e0 :: l) in *. inv_do H. destruct a as [|e1 rest]; [discriminate|]. inv_do H. inv_do H.
    pose proof (std_sort_perm impl _ _ _ Himpl E) as HP. pose proof (std_sort_ord impl _ _ _ Himpl E) as HO.
    assert (cand_in 1 (length (e1 :: rest)) a0) as HC by (apply (x_scan_pos _ _ _ _ _ _ _ _ E1)).
    destruct (finish_spec choose a0 (e1 :: rest) el b gs cs) as (Hd & fl & Hfl & Hcs); auto; [discriminate|].
    destruct (qinv_first _ _ _ E0) as (Hcap & -> & HI).
    exists (e1 :: rest), a0, fl. split; [discriminate|]. split; [apply ord_ordered; auto|]. split; auto. split; auto. split; auto. split; auto.
    split; auto. split.
    - intros c HU Hc. apply (x_scan_cand mg _ _ _ rest [e1] [e1] a0 HI) with (c := c) in E1; auto.
      destruct HU as [HU|HU]; auto. right. eapply swo_incl; [|exact HU]. intros y Hy. apply (Permutation_in _ (Permutation_sym HP)). exact Hy.
    - intros Hc1 i e Hi He. rewrite Hc1 in *. exact (x_scan_complete mg _ _ rest [e1] [e1] a0 HI E1 i e Hi He).
  Qed.
  Lemma yCut_spec mg choose elements b gs cs : yCut pos impl mg choose elements = Ok (b, gs, cs) ->
    (elements = [] /\ b = false /\ gs = [] /\ cs = []) \/
    exists s cands fl, s <> [] /\ ordered (upperYAsc pos) s /\ division elements s b gs cs /\
      choose cands s = Ok fl /\ cs = apply_flags cands fl /\ cand_in 1 (length s) cands /\
      (forall i e, 1 <= i -> nth_error s i = Some e ->
        exists m, reaches_farthest (fun a => lowerY (pos a)) [] m (firstn i s) /\
          (In i (map cut_pos cands) <-> equalOrLarger (computeVerticalGap (pos m) (pos e)) mg TOL = true) /\
          (forall c, In c cands -> cut_pos c = i -> cut_before c = m /\ cut_after c = e /\
             cut_gapHeight c = computeVerticalGap (pos m) (pos e) /\ cut_overlap c = [])).
  Proof.
    intros H. unfold yCut in H. destruct elements as [|e0 l]; [injection H as <- <- <-; auto|]. right.
    set (el := e0 :: l) in *. inv_do H. destruct a as [|e1 rest]; [discriminate|].
    pose proof (std_sort_perm impl _ _ _ Himpl E) as HP. pose proof (std_sort_ord impl _ _ _ Himpl E) as HO.
    match type of H with finish _ ?c _ = _ => set (cands := c) in * end.
    assert (cand_in 1 (length (e1 :: rest)) cands) as HC by (apply y_scan_pos).
    destruct (finish_spec choose cands (e1 :: rest) el b gs cs) as (Hd & fl & Hfl & Hcs); auto; [discriminate|].
    exists (e1 :: rest), cands, fl. split; [discriminate|]. split; [apply ord_ordered; auto|]. split; auto. split; auto. split; auto. split; auto.
    intros i e Hi He. unfold cands.
    refine (y_scan_complete mg _ _ rest [e1] e1 _ i e Hi He).
    exists []. split; [constructor; constructor|]. intros d [].
  Qed.

  (** *** Definedness on parsed coordinates *)
  Definition parsed (l : list A) : Prop := forall e, In e l -> stored_coordinates (pos e).
  Lemma swo_map (lt : position -> position -> bool) l : swo lt (map pos l) -> swo (fun a b => lt (pos a) (pos b)) l.
  Proof.
    intros (H1 & H2 & H3). unfold swo, incomp in *. split; [|split].
    - intros x Hx. apply H1, in_map; auto.
    - intros x y z Hx Hy Hz. apply H2; apply in_map; auto.
    - intros x y z Hx Hy Hz. apply (H3 (pos x) (pos y) (pos z)); apply in_map; auto.
  Qed.
  Lemma parsed_swo lt l : In lt comparators -> parsed l -> swo (fun a b => lt (pos a) (pos b)) l.
  Proof.
    intros Hl Hp. apply swo_map, comparators_swo; auto. intros p Hin. apply in_map_iff in Hin as (e & <- & He). auto.
  Qed.
  Lemma parsed_rxd l : parsed l -> swo rxd l.
  Proof. intros H. apply (parsed_swo RightXDesc); auto. cbn. auto 10. Qed.
  Lemma x_scan_ok mg y1 y2 cap rest : (1 <= cap)%N -> forall p q, q <> [] -> parsed q -> parsed rest ->
    exists cs, x_scan pos impl topi mg y1 y2 cap p q rest = Ok cs.
  Proof.
    intros Hcap. induction rest as [|e t IH]; intros p q Hne Hq Hr; cbn [x_scan]; [eauto|].
    destruct (std_sort_spec impl rxd q Himpl (parsed_rxd q Hq)) as (sq & Hsq & HP & _).
    unfold pq_sort. rewrite Hsq. cbn [obind].
    destruct (Htop rxd q Hne (parsed_rxd q Hq)) as (tp & Hn & Hmin).
    unfold pq_top. rewrite Hn. cbn [obind].
    assert (parsed t) as Ht by (intros x Hx; apply Hr; right; auto).
    assert (parsed (e :: q)) as Heq by (intros x [<-|Hx]; [apply Hr; left; auto|auto]).
    destruct (larger _ _ TOL).
    - unfold pq_push_f. rewrite (proj2 (swo_b_spec rxd (e :: q)) (parsed_rxd _ Heq)).
      destruct (N.eqb_spec (N.of_nat (length q)) cap) as [Hf|Hf].
      + destruct q as [|x q0] eqn:Eq; [congruence|]. rewrite <- Eq in *. cbn [obind].
        destruct (IH (S p) (e :: pq_remove_top pos topi q)) as [cs ->]; auto; [discriminate| |cbn; eauto].
        intros y [<-|Hy]; [apply Hr; left; auto|]. apply Hq.
        apply (Permutation_in _ (Permutation_sym (remove_top_perm q tp Hn))). right; auto.
      + cbn [obind]. destruct (IH (S p) (e :: q)) as [cs ->]; auto; [discriminate|cbn; eauto].
    - cbn [obind]. destruct (IH (S p) q) as [cs ->]; auto. cbn; eauto.
  Qed.
  (** A strategy that is defined on its inputs. *)
  Definition total_chooser (choose : chooser A) : Prop := forall cands s, parsed s -> cand_in 1 (length s) cands ->
    exists fl, choose cands s = Ok fl.
  Lemma xCut_ok mg k choose elements : (0 < queue_capacity k)%N -> parsed elements -> total_chooser choose ->
    exists r, xCut pos impl topi mg k choose elements = Ok r.
  Proof.
    intros Hk Hp Hc. unfold xCut. destruct elements as [|e0 l]; [eauto|]. set (el := e0 :: l) in *.
    destruct (std_sort_spec impl (leftXAsc pos) el Himpl) as (s & Hs & HP & _).
    { apply (parsed_swo LeftXAsc); auto. cbn. auto. }
    rewrite Hs. cbn [obind]. destruct s as [|e1 rest]. { symmetry in HP. apply Permutation_nil in HP. discriminate. }
    assert (parsed (e1 :: rest)) as Hps by (intros x Hx; apply Hp, (Permutation_in _ (Permutation_sym HP)); auto).
    unfold pq_push_f at 1. rewrite (proj2 (swo_b_spec rxd [e1]) (parsed_rxd [e1] (fun x H => Hps x (match H with or_introl E => or_introl E | or_intror F => match F with end end)))).
    destruct (N.eqb_spec (N.of_nat (length (@nil A))) (queue_capacity k)) as [Hz|Hz]; [cbn in Hz; lia|]. cbn [obind].
    destruct (x_scan_ok mg (fold_left (fun m e => minimum m (upperY (pos e))) (e1 :: rest) DBL_MAX)
       (fold_left (fun m e => maximum m (lowerY (pos e))) (e1 :: rest) DBL_MIN) (queue_capacity k) rest ltac:(lia) 1 [e1]) as [cs Hcs].
    { discriminate. } { intros x [<-|[]]. apply Hps. left; auto. } { intros x Hx. apply Hps. right; auto. }
    rewrite Hcs. cbn [obind]. assert (cand_in 1 (length (e1 :: rest)) cs) by (apply (x_scan_pos _ _ _ _ _ _ _ _ Hcs)).
    apply finish_ok; auto. discriminate.
  Qed.
  Lemma yCut_ok mg choose elements : parsed elements -> total_chooser choose ->
    exists r, yCut pos impl mg choose elements = Ok r.
  Proof.
    intros Hp Hc. unfold yCut. destruct elements as [|e0 l]; [eauto|]. set (el := e0 :: l) in *.
    destruct (std_sort_spec impl (upperYAsc pos) el Himpl) as (s & Hs & HP & _).
    { apply (parsed_swo UpperYAsc); auto. cbn. auto. }
    rewrite Hs. cbn [obind]. destruct s as [|e1 rest]. { symmetry in HP. apply Permutation_nil in HP. discriminate. }
    assert (parsed (e1 :: rest)) as Hps by (intros x Hx; apply Hp, (Permutation_in _ (Permutation_sym HP)); auto).
    apply finish_ok; [discriminate|apply y_scan_pos|]. apply Hc; auto. apply y_scan_pos.
  Qed.

  (** *** The recursion *)
  Lemma division_shrinks elements s b gs cs g : division elements s b gs cs -> b = true -> In g gs -> length g < length elements.
  Proof.
    intros (HP & HC & (Hcc & Hlen & Hpre) & Hb & Hpart) Hbt Hg. apply Hb in Hbt.
    destruct (chosen_pos cs) as [|p ps]; [congruence|]. cbn in Hlen.
    apply Permutation_length in HP. rewrite HP, <- Hcc. destruct Hpart as [_ Hne]. clear -Hg Hlen Hne.
    destruct gs as [|g1 [|g2 gs]]; try discriminate. clear Hlen.
    assert (forall l : list (list A), In g l -> length g <= length (concat l)) as H.
    { induction l as [|x l IH]; [intros []|]. cbn. rewrite app_length. intros [->|Hi]; [lia|]. apply IH in Hi. lia. }
    assert (0 < length g1). { destruct g1; [|cbn; lia]. exfalso. apply (Hne []); cbn; auto. }
    assert (0 < length g2). { destruct g2; [|cbn; lia]. exfalso. apply (Hne []); cbn; auto. }
    cbn. rewrite !app_length. destruct Hg as [->|[->|Hg]]; try lia. apply H in Hg. lia.
  Qed.
  Lemma for_groups_some f gs : (forall g, In g gs -> exists r, f g = Some r) -> exists r, for_groups f gs = @Some (outcome (xy_result (A:=A))) r.
  Proof.
    induction gs as [|g t IH]; intros H; cbn; [eauto|].
    destruct (H g (or_introl eq_refl)) as [r ->]. destruct IH as [r' ->]; [intros; apply H; right; auto|].
    destruct r; cbn; eauto. destruct r'; cbn; eauto.
  Qed.
  Lemma for_groups_ext f f' gs : (forall g, In g gs -> f g = f' g) -> for_groups f gs = for_groups (A:=A) f' gs.
  Proof.
    induction gs as [|g t IH]; intros H; cbn; auto. rewrite H by (left; auto). rewrite IH; auto. intros; apply H; right; auto.
  Qed.
  Lemma xcut_div mg k choose elements b gs cs : xCut pos impl topi mg k choose elements = Ok (b, gs, cs) -> b = true ->
    exists s, division elements s b gs cs.
  Proof. intros H Hb. apply xCut_spec in H as [(_ & -> & _)|(s & _ & _ & _ & _ & Hd & _)]; [discriminate|eauto]. Qed.
  Lemma ycut_div mg choose elements b gs cs : yCut pos impl mg choose elements = Ok (b, gs, cs) -> b = true ->
    exists s, division elements s b gs cs.
  Proof. intros H Hb. apply yCut_spec in H as [(_ & -> & _)|(s & _ & _ & _ & _ & Hd & _)]; [discriminate|eauto]. Qed.
  Section Rec.
    Context (mx my : double) (k : Z) (cx cy : chooser A).
    Notation xy fuel := (xyCut pos impl topi fuel mx my k cx cy).
    Lemma xyCut_S fuel elements : elements <> [] -> xy (S fuel) elements =
      rbind (Some (xCut pos impl topi mx k cx elements)) (fun rx =>
        let '(ok, xGroups, xCuts) := rx in
        if negb ok then
          rbind (Some (yCut pos impl my cy elements)) (fun ry =>
            let '(ok, yGroups, yCuts) := ry in
            if negb ok then Some (Ok ([elements], xCuts ++ yCuts))
            else rbind (for_groups (xy fuel) yGroups) (fun r =>
                   Some (Ok (fst r, xCuts ++ yCuts ++ snd r))))
        else
          rbind (for_groups (fun xGroup =>
              rbind (Some (yCut pos impl my cy xGroup)) (fun ry =>
                let '(ok, yGroups, yCuts) := ry in
                if negb ok then Some (Ok ([xGroup], yCuts))
                else rbind (for_groups (xy fuel) yGroups) (fun r => Some (Ok (fst r, yCuts ++ snd r)))))
              xGroups)
            (fun r => Some (Ok (fst r, xCuts ++ snd r)))).
    Proof. destruct elements; [congruence|reflexivity]. Qed.
    Lemma xyCut_terminates fuel : forall elements, length elements <= fuel ->
      (exists r, xy fuel elements = Some r) /\ (forall fuel', length elements <= fuel' -> xy fuel' elements = xy fuel elements).
    Proof.
      induction fuel as [|fuel IH]; intros elements Hl.
      - destruct elements; [|cbn in Hl; lia]. split; [cbn; eauto|]. intros [|f] _; reflexivity.
      - destruct elements as [|e0 l]. { split; [cbn; eauto|]. intros [|f] _; reflexivity. }
        set (el := e0 :: l) in *.
        assert (forall g, length g < length el -> (exists r, xy fuel g = Some r) /\
                  (forall fuel', length g <= fuel' -> xy fuel' g = xy fuel g)) as IH' by (intros g Hg; apply IH; lia).
        split.
        + rewrite !xyCut_S by discriminate. destruct (xCut pos impl topi mx k cx el) as [[[ok xg] xc]|w|w] eqn:Ex; cbn [rbind]; eauto.
          destruct ok; cbn [negb].
          * destruct (xcut_div _ _ _ _ _ _ _ Ex eq_refl) as [s Hd].
            match goal with |- context [for_groups ?f xg] => destruct (for_groups_some f xg) as [r ->] end.
            { intros g Hg. pose proof (division_shrinks _ _ _ _ _ g Hd eq_refl Hg) as Hlt.
              destruct (yCut pos impl my cy g) as [[[ok yg] yc]|w|w] eqn:Ey; cbn [rbind]; eauto.
              destruct ok; cbn [negb]; eauto. destruct (ycut_div _ _ _ _ _ _ Ey eq_refl) as [s' Hd'].
              destruct (for_groups_some (xy fuel) yg) as [r ->].
              { intros g' Hg'. apply IH'. pose proof (division_shrinks _ _ _ _ _ g' Hd' eq_refl Hg'). lia. }
              destruct r; cbn; eauto. }
            destruct r; cbn; eauto.
          * destruct (yCut pos impl my cy el) as [[[ok yg] yc]|w|w] eqn:Ey; cbn [rbind]; eauto.
            destruct ok; cbn [negb]; eauto. destruct (ycut_div _ _ _ _ _ _ Ey eq_refl) as [s' Hd'].
            destruct (for_groups_some (xy fuel) yg) as [r ->].
            { intros g' Hg'. apply IH'. exact (division_shrinks _ _ _ _ _ g' Hd' eq_refl Hg'). }
            destruct r; cbn; eauto.
        + intros fuel' Hl'. destruct fuel' as [|fuel']; [cbn in Hl'; lia|].
          rewrite !xyCut_S by discriminate. destruct (xCut pos impl topi mx k cx el) as [[[ok xg] xc]|w|w] eqn:Ex; cbn [rbind]; auto.
          destruct ok; cbn [negb].
          * destruct (xcut_div _ _ _ _ _ _ _ Ex eq_refl) as [s Hd].
            match goal with |- rbind (for_groups ?f xg) _ = rbind (for_groups ?f' xg) _ => rewrite (for_groups_ext f f' xg) end; auto.
            intros g Hg. pose proof (division_shrinks _ _ _ _ _ g Hd eq_refl Hg) as Hlt.
            destruct (yCut pos impl my cy g) as [[[ok yg] yc]|w|w] eqn:Ey; cbn [rbind]; auto.
            destruct ok; cbn [negb]; auto. destruct (ycut_div _ _ _ _ _ _ Ey eq_refl) as [s' Hd'].
            rewrite (for_groups_ext (xy fuel') (xy fuel) yg); auto.
            intros g' Hg'. pose proof (division_shrinks _ _ _ _ _ g' Hd' eq_refl Hg'). apply IH'; lia.
          * destruct (yCut pos impl my cy el) as [[[ok yg] yc]|w|w] eqn:Ey; cbn [rbind]; auto.
            destruct ok; cbn [negb]; auto. destruct (ycut_div _ _ _ _ _ _ Ey eq_refl) as [s' Hd'].
            rewrite (for_groups_ext (xy fuel') (xy fuel) yg); auto.
            intros g' Hg'. pose proof (division_shrinks _ _ _ _ _ g' Hd' eq_refl Hg'). apply IH'; lia.
    Qed.

    (** A group that is returned admits no further y-cut (it may have been sorted by an earlier cut). *)
    Definition y_final (g : list A) : Prop := exists gs cs, yCut pos impl my cy g = Ok (false, gs, cs).
    Definition good (elements : list A) (r : xy_result (A:=A)) : Prop :=
      partition_of elements (fst r) /\ forall g, In g (fst r) -> y_final g.
    Lemma for_groups_good f gs : forall r, for_groups f gs = Some (Ok r) ->
      (forall g r', In g gs -> f g = Some (Ok r') -> good g r') -> good (concat gs) r.
    Proof.
      induction gs as [|g t IH]; intros r H Hf; cbn in H.
      - injection H as <-. cbn. split; [split; [constructor|intros ? []]|intros ? []].
      - destruct (f g) as [[r1|w|w]|] eqn:E1; try discriminate. cbn in H.
        destruct (for_groups f t) as [[r2|w|w]|] eqn:E2; try discriminate. injection H as <-.
        destruct (Hf g r1 (or_introl eq_refl) E1) as [[P1 N1] Y1].
        destruct (IH r2 eq_refl) as [[P2 N2] Y2]. { intros g' r' Hg'. apply Hf. right; auto. }
        split; [split|]; cbn [fst concat].
        + rewrite concat_app, <- P1, <- P2. reflexivity.
        + intros x Hx. apply in_app_or in Hx as [Hx|Hx]; auto.
        + intros x Hx. apply in_app_or in Hx as [Hx|Hx]; auto.
    Qed.
    Lemma good_perm l l' r : Permutation l l' -> good l r -> good l' r.
    Proof. intros HP [[H1 H2] H3]. split; [split|]; auto. rewrite <- HP. exact H1. Qed.
    Lemma division_concat elements s b gs cs : division elements s b gs cs -> Permutation (concat gs) elements.
    Proof. intros (HP & _ & (Hcc & _) & _). rewrite Hcc. symmetry. exact HP. Qed.
    Lemma xyCut_good fuel : forall elements r, xy fuel elements = Some (Ok r) -> good elements r.
    Proof.
      induction fuel as [|fuel IH]; intros elements r H; destruct elements as [|e0 l]; try discriminate.
      1,2: injection H as <-; split; [split; [constructor|intros ? []]|intros ? []].
      set (el := e0 :: l) in *. rewrite xyCut_S in H by discriminate.
      destruct (xCut pos impl topi mx k cx el) as [[[ok xg] xc]|w|w] eqn:Ex; cbn [rbind] in H; try discriminate.
      destruct ok; cbn [negb] in H.
      - destruct (xcut_div _ _ _ _ _ _ _ Ex eq_refl) as [s Hd].
        match type of H with rbind ?m _ = _ => destruct m as [[r1|w|w]|] eqn:E1; cbn in H; try discriminate end.
        injection H as <-.
        apply (good_perm (concat xg)); [eapply division_concat; eauto|].
        assert (good (concat xg) r1) as G.
        { eapply (for_groups_good _); [exact E1|]. intros g r' Hg Hr'. cbn beta in Hr'.
          destruct (yCut pos impl my cy g) as [[[ok yg] yc]|w|w] eqn:Ey; cbn [rbind] in Hr'; try discriminate.
          destruct ok; cbn [negb] in Hr'.
          - destruct (ycut_div _ _ _ _ _ _ Ey eq_refl) as [s' Hd'].
            destruct (for_groups (xy fuel) yg) as [[r2|w|w]|] eqn:E2; cbn in Hr'; try discriminate. injection Hr' as <-.
            apply (good_perm (concat yg)); [eapply division_concat; eauto|].
            assert (good (concat yg) r2) as G2.
            { eapply (for_groups_good _); [exact E2|]. intros; apply IH; auto. }
            exact G2.
          - injection Hr' as <-. split; [split|]; cbn [fst concat].
            + rewrite app_nil_r. reflexivity.
            + intros x [<-|[]]. destruct Hd as (_ & _ & _ & _ & _ & Hne). auto.
            + intros x [<-|[]]. red. eauto. }
        exact G.
      - destruct (yCut pos impl my cy el) as [[[ok yg] yc]|w|w] eqn:Ey; cbn [rbind] in H; try discriminate.
        destruct ok; cbn [negb] in H.
        + destruct (ycut_div _ _ _ _ _ _ Ey eq_refl) as [s' Hd'].
          destruct (for_groups (xy fuel) yg) as [[r2|w|w]|] eqn:E2; cbn in H; try discriminate. injection H as <-.
          apply (good_perm (concat yg)); [eapply division_concat; eauto|].
          assert (good (concat yg) r2) as G2.
          { eapply (for_groups_good _); [exact E2|]. intros; apply IH; auto. }
          exact G2.
        + injection H as <-. split; [split|]; cbn [fst concat].
          * rewrite app_nil_r. reflexivity.
          * intros x [<-|[]]. discriminate.
          * intros x [<-|[]]. red. eauto.
    Qed.
    (** Definedness of the whole recursion. *)
    Lemma for_groups_ok f gs : (forall g, In g gs -> exists r, f g = Some (Ok r)) ->
      exists r, for_groups f gs = Some (Ok (r : xy_result (A:=A))).
    Proof.
      induction gs as [|g t IH]; intros H; cbn; [eauto|].
      destruct (H g (or_introl eq_refl)) as [r ->]. destruct IH as [r' ->]; [intros; apply H; right; auto|]. cbn. eauto.
    Qed.
    Lemma division_parsed elements s b gs cs g : division elements s b gs cs -> parsed elements -> In g gs -> parsed g.
    Proof.
      intros Hd Hp Hg e He. apply Hp. apply (Permutation_in _ (division_concat _ _ _ _ _ Hd)). apply in_concat. eauto.
    Qed.
    Lemma xyCut_ok fuel : (0 < queue_capacity k)%N -> total_chooser cx -> total_chooser cy ->
      forall elements, parsed elements -> length elements <= fuel -> exists r, xy fuel elements = Some (Ok r).
    Proof.
      intros Hk Hcx Hcy. induction fuel as [|fuel IH]; intros elements Hp Hl.
      - destruct elements; [cbn; eauto|cbn in Hl; lia].
      - destruct elements as [|e0 l]; [cbn; eauto|]. set (el := e0 :: l) in *.
        assert (forall g, parsed g -> length g < length el -> exists r, xy fuel g = Some (Ok r)) as IH' by (intros g Hg Hlt; apply IH; auto; lia).
        rewrite !xyCut_S by discriminate. destruct (xCut_ok mx k cx el Hk Hp Hcx) as [[[ok xg] xc] Ex]. rewrite Ex. cbn [rbind].
        destruct ok; cbn [negb].
        + destruct (xcut_div _ _ _ _ _ _ _ Ex eq_refl) as [s Hd].
          match goal with |- context [for_groups ?f xg] => destruct (for_groups_ok f xg) as [r ->] end.
          { intros g Hg. pose proof (division_shrinks _ _ _ _ _ g Hd eq_refl Hg) as Hlt.
            pose proof (division_parsed _ _ _ _ _ g Hd Hp Hg) as Hpg.
            destruct (yCut_ok my cy g Hpg Hcy) as [[[ok yg] yc] Ey]. rewrite Ey. cbn [rbind].
            destruct ok; cbn [negb]; eauto. destruct (ycut_div _ _ _ _ _ _ Ey eq_refl) as [s' Hd'].
            destruct (for_groups_ok (xy fuel) yg) as [r ->]; [|cbn; eauto].
            intros g' Hg'. apply IH'. { exact (division_parsed _ _ _ _ _ g' Hd' Hpg Hg'). }
            pose proof (division_shrinks _ _ _ _ _ g' Hd' eq_refl Hg'). lia. }
          cbn; eauto.
        + destruct (yCut_ok my cy el Hp Hcy) as [[[ok yg] yc] Ey]. rewrite Ey. cbn [rbind].
          destruct ok; cbn [negb]; eauto. destruct (ycut_div _ _ _ _ _ _ Ey eq_refl) as [s' Hd'].
          destruct (for_groups_ok (xy fuel) yg) as [r ->]; [|cbn; eauto].
          intros g' Hg'. apply IH'. { exact (division_parsed _ _ _ _ _ g' Hd' Hp Hg'). }
          exact (division_shrinks _ _ _ _ _ g' Hd' eq_refl Hg').
    Qed.
  End Rec.
End P.

Lemma capacity_of k : (0 <= k < 2 ^ 31)%Z -> queue_capacity k = (Z.to_N k + 1)%N.
Proof. intros H. unfold queue_capacity. rewrite Z.mod_small by lia. lia. Qed.
Lemma apply_flags_in {A} (cands : list (cut A)) : forall fl c, In c (apply_flags cands fl) ->
  exists c0, In c0 cands /\ exists b, c = set_chosen c0 b.
Proof.
  induction cands as [|c0 t IH]; intros fl c H; cbn in H; [destruct H|]. destruct H as [<-|H].
  - exists c0. split; [left; auto|eauto].
  - apply IH in H as (c1 & H1 & H2). exists c1. split; [right; auto|auto].
Qed.
Lemma apply_flags_in_rev {A} (cands : list (cut A)) : forall fl c0, In c0 cands ->
  exists b, In (set_chosen c0 b) (apply_flags cands fl).
Proof.
  induction cands as [|c1 t IH]; intros fl c0 H; [destruct H|]. cbn. destruct H as [->|H].
  - eexists. left. reflexivity.
  - destruct (IH (tl fl) c0 H) as [b Hb]. eauto.
Qed.

(** A concrete priority queue: the first place holding an element that no element exceeds. *)
Fixpoint first_where {A} (p : A -> bool) (l : list A) : nat :=
  match l with [] => 0 | x :: t => if p x then 0 else S (first_where p t) end.
Definition top_first {A} (cmp : A -> A -> bool) (q : list A) : nat :=
  first_where (fun x => forallb (fun y => negb (cmp x y)) q) q.
Lemma first_where_spec {A} (p : A -> bool) l : (exists x, In x l /\ p x = true) ->
  exists x, nth_error l (first_where p l) = Some x /\ p x = true.
Proof.
  induction l as [|a l IH]; intros (x & Hx & Hp); [destruct Hx|]. cbn. destruct (p a) eqn:E; [exists a; auto|].
  destruct Hx as [->|Hx]; [congruence|]. cbn. apply IH. eauto.
Qed.
Lemma swo_max_exists {A} (cmp : A -> A -> bool) q : swo cmp q -> q <> [] -> exists x, In x q /\ forall y, In y q -> cmp x y = false.
Proof.
  induction q as [|a q IH]; [congruence|]. intros Hs _. destruct q as [|b q].
  - exists a. split; [left; auto|]. intros y [<-|[]]. apply Hs. left; auto.
  - destruct IH as (x & Hx & Hm); [|discriminate|].
    { eapply swo_incl; [|exact Hs]. intros y Hy; right; auto. }
    destruct Hs as (H1 & H2 & H3). destruct (cmp x a) eqn:C.
    + exists a. split; [left; auto|]. intros y [<-|Hy]; [apply H1; left; auto|].
      destruct (cmp a y) eqn:D; auto. assert (cmp x y = true) as F.
      { apply (H2 x a y); auto; [right; auto|left; auto|right; auto]. } rewrite (Hm y Hy) in F. discriminate.
    + exists x. split; [right; auto|]. intros y [<-|Hy]; auto.
Qed.
Lemma top_first_ok {A} : top_ok (@top_first A).
Proof.
  intros cmp q Hne Hs. unfold top_first.
  destruct (first_where_spec (fun x => forallb (fun y => negb (cmp x y)) q) q) as (x & Hx & Hp).
  - destruct (swo_max_exists cmp q Hs Hne) as (x & Hx & Hm). exists x. split; auto. apply forallb_forall. intros y Hy. rewrite (Hm y Hy). reflexivity.
  - exists x. split; auto. intros y Hy. rewrite forallb_forall in Hp. specialize (Hp y Hy). now apply negb_true_iff.
Qed.
(** The push used by xCut is an instance of the queue specified in Counter.v. *)
Lemma push_f_refines {A} (pos : A -> position) topi cap q v r : top_ok topi -> swo (rightXDesc pos) (v :: q) ->
  pq_push_f pos topi cap q v = Ok r -> pq_push (rightXDesc pos) cap q v (Some r).
Proof.
  intros Ht Hs H. unfold pq_push_f in H. rewrite (proj2 (swo_b_spec _ _) Hs) in H.
  destruct (N.eqb_spec (N.of_nat (length q)) cap) as [Hf|Hf].
  - destruct q as [|x q0] eqn:Eq; [discriminate|]. rewrite <- Eq in *. injection H as <-.
    destruct (Ht (rightXDesc pos) q) as (tp & Hn & Hm); [rewrite Eq; discriminate| |].
    { eapply swo_incl; [|exact Hs]. intros y Hy; right; auto. }
    apply PushFull with (q' := pq_remove_top pos topi q); auto.
    unfold pq_remove_top. apply PqPop with (x := tp); auto.
    pose proof (firstn_skipn (topi (rightXDesc pos) q) q) as F. rewrite <- F at 1. f_equal.
    clear -Hn. revert Hn. generalize (topi (rightXDesc pos) q). intros n. revert q.
    induction n as [|n IH]; intros [|y q] Hn; cbn in Hn; try discriminate; [injection Hn as ->; reflexivity|].
    cbn [skipn]. apply IH; auto.
  - injection H as <-. apply PushFree; auto.
Qed.
