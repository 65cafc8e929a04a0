(** ReadingOrderExact.v - the exact choice of cuts of the reading order detection. *)
From Coq Require Import ZArith NArith.
From Verif Require Import Base Double DoubleFacts MathUtils MathUtilsProofs Sort Elements GeometrySpec ElementsProofs GridProofs Counter XYCut XYCutSpec
  XYCutProofs CutPlaceProofs Document SegmentationSpec ReadingOrder ReadingOrderProofs ReadingOrderSpec.
Local Opaque TOL dZ dadd dsub ddiv dmul DBL_MAX DBL_MIN.

Section P.
  Context (impl : (relem -> relem -> bool) -> list relem -> list relem)
          (topi : (relem -> relem -> bool) -> list relem -> nat).
  Notation rdiv := (rdiv impl topi).

  Lemma seq_split_lt a m : forall l1 i l2, seq a m = l1 ++ i :: l2 -> forall j, In j l1 <-> a <= j < i.
  Proof.
    revert a. induction m as [|m IH]; intros a l1 i l2 H j; cbn [seq] in H.
    { destruct l1; discriminate. }
    destruct l1 as [|x l1]; injection H as H1 H2.
    - subst. cbn. lia.
    - subst x. cbn [In]. rewrite (IH _ _ _ _ H2). assert (S a <= i).
      { assert (In i (seq (S a) m)) as Q by (rewrite H2; apply in_or_app; right; left; reflexivity). apply in_seq in Q. lia. }
      lia.
  Qed.
  Lemma rev_seq_split_gt a m l1 i l2 : rev (seq a m) = l1 ++ i :: l2 -> forall j, In j l1 <-> i < j < a + m.
  Proof.
    intros H j. apply (f_equal (@rev nat)) in H. rewrite rev_involutive, rev_app_distr in H. cbn [rev] in H.
    rewrite <- app_assoc in H. cbn [app] in H. pose proof (seq_split_lt _ _ _ _ _ H) as Q.
    assert (ND : NoDup (rev l2 ++ i :: rev l1)) by (rewrite <- H; apply seq_NoDup).
    rewrite (in_rev l1). split.
    - intros Hj. assert (In j (seq a m)) as Hs by (rewrite H; apply in_or_app; right; right; exact Hj). apply in_seq in Hs.
      split; [|lia]. destruct (Nat.lt_trichotomy j i) as [L|[L|L]]; [| |exact L].
      + exfalso. assert (In j (rev l2)) as J2 by (apply Q; lia).
        apply NoDup_remove_1 in ND. revert J2 Hj ND. clear. induction (rev l2) as [|x t IH]; intros J2 Hj ND; [destruct J2|].
        cbn [app] in ND. inversion ND as [|? ? N1 N2]; subst. destruct J2 as [->|J2]; [|auto].
        apply N1, in_or_app. right. exact Hj.
      + exfalso. subst j. apply NoDup_remove_2 in ND. apply ND, in_or_app. right. exact Hj.
    - intros Hj. assert (In j (seq a m)) as Hs by (apply in_seq; assert (In i (seq a m)) as Hi by (rewrite H; apply in_or_app; right; left; reflexivity); apply in_seq in Hi; lia).
      rewrite H in Hs. apply in_app_or in Hs as [Hs|[Hs|Hs]]; [apply Q in Hs; lia|lia|exact Hs].
  Qed.

  Lemma test_true el ps i (f : nat -> nat * nat) : (do p <- pos_at ps i ; divisible impl topi el (fst (f p)) (snd (f p))) = Ok true ->
    exists p, nth_error ps i = Some p /\ rdiv el (fst (f p)) (snd (f p)).
  Proof.
    unfold pos_at. destruct (nth_error ps i) as [p|]; [|discriminate]. cbn [obind]. intros H. exists p. split; [reflexivity|].
    apply divisible_spec in H. apply H. reflexivity.
  Qed.
  Lemma test_false el ps i (f : nat -> nat * nat) p : (do p <- pos_at ps i ; divisible impl topi el (fst (f p)) (snd (f p))) = Ok false ->
    nth_error ps i = Some p -> ~ rdiv el (fst (f p)) (snd (f p)).
  Proof.
    unfold pos_at. intros H Hp. rewrite Hp in H. cbn [obind] in H. apply divisible_spec in H. intros Q. apply H in Q. discriminate.
  Qed.

  Lemma pair_loop_exact el ps lst fuel : lst < length ps -> forall i l, length ps <= fuel + i ->
    pair_loop impl topi fuel el ps lst i = Ok l -> paired (rdiv el) ps lst i l.
  Proof.
    intros Hl. induction fuel as [|fuel IH]; intros i l Hf H; cbn [pair_loop] in H.
    - injection H as <-. constructor. lia.
    - destruct (Nat.ltb_spec i lst) as [Hi|Hi]; [|injection H as <-; constructor; exact Hi].
      match type of H with obind ?m _ = _ => destruct m as [r|w|w] eqn:F; cbn [obind] in H; try discriminate end.
      destruct (nth_error ps i) as [p|] eqn:Ep; [|apply nth_error_None in Ep; lia].
      apply find_index_spec in F.
      assert (TF : forall j r, (do hi <- pos_at ps i; do lo <- pos_at ps j; divisible impl topi el hi lo) = Ok false ->
                 nth_error ps j = Some r -> ~ rdiv el p r).
      { intros j r0 T Q. unfold pos_at in T. rewrite Ep, Q in T. cbn [obind] in T. apply divisible_spec in T. intros X. apply T in X. discriminate. }
      destruct r as [j|].
      + destruct F as (l1 & l2 & S1 & T & F1). pose proof (rev_seq_split_gt _ _ _ _ _ S1) as Q.
        assert (Ij : In j (seq i (lst + 1 - i))) by (apply in_rev; rewrite S1; apply in_or_app; right; left; reflexivity). apply in_seq in Ij.
        match type of H with obind ?m _ = _ => destruct m as [l'|w|w] eqn:G; cbn [obind] in H; try discriminate end.
        injection H as <-.
        destruct (nth_error ps j) as [q|] eqn:Eq; [|apply nth_error_None in Eq; lia].
        apply pd_pair with (p := p) (q := q); auto; try lia.
        * unfold pos_at in T. rewrite Ep, Eq in T. cbn [obind] in T. apply divisible_spec in T. apply T. reflexivity.
        * intros k r0 Hk Hr. apply (TF k r0); [|exact Hr]. apply F1. apply Q. lia.
        * apply IH; [lia|exact G].
      + apply pd_skip with (p := p); auto.
        * intros k r0 Hk Hr. apply (TF k r0); [|exact Hr]. apply F. apply -> in_rev. apply in_seq. lia.
        * apply IH; [lia|exact H].
  Qed.
  Lemma ro_chosen_exact el ps l : ps <> [] -> ro_chosen impl topi el ps = Ok l -> chosen_y_cuts (rdiv el) ps (length el) l.
  Proof.
    intros Hne H. unfold ro_chosen in H. assert (0 < length ps) as Hpos by (destruct ps; [congruence|cbn; lia]).
    match type of H with obind ?m _ = _ => destruct m as [low|w|w] eqn:E1; cbn [obind] in H; try discriminate end.
    set (lst := match low with Some i => i | None => length ps - 1 end) in *.
    match type of H with obind ?m _ = _ => destruct m as [high|w|w] eqn:E2; cbn [obind] in H; try discriminate end.
    match type of H with obind ?m _ = _ => destruct m as [prs|w|w] eqn:E3; cbn [obind] in H; try discriminate end.
    injection H as <-. exists low, high, prs.
    apply find_index_spec in E1. apply find_index_spec in E2.
    assert (Hlow : lower_cut (rdiv el) ps (length el) low).
    { destruct low as [i|]; cbn [lower_cut].
      - destruct E1 as (l1 & l2 & S1 & T & F). pose proof (seq_split_lt _ _ _ _ _ S1) as Q.
        destruct (test_true el ps i (fun p => (p, length el)) T) as (p & Hp & HD). exists p. split; [exact Hp|]. split; [exact HD|].
        intros j q Hj Hq. apply (test_false el ps j (fun p => (p, length el)) q); [|exact Hq]. apply F, Q. lia.
      - intros j q Hq. apply (test_false el ps j (fun p => (p, length el)) q); [|exact Hq]. apply E1, in_seq.
        assert (j < length ps) by (apply nth_error_Some; congruence). lia. }
    assert (Hlst : lst < length ps).
    { unfold lst. destruct low as [i|]; [|lia]. destruct Hlow as (p & Hp & _). apply nth_error_Some. congruence. }
    split; [exact Hlow|]. cbn beta zeta. fold lst. split; [split|].
    - destruct high as [i|]; cbn [upper_cut].
      + destruct E2 as (l1 & l2 & S1 & T & F). pose proof (rev_seq_split_gt _ _ _ _ _ S1) as Q.
        assert (Ij : In i (seq 0 (lst + 1))) by (apply in_rev; rewrite S1; apply in_or_app; right; left; reflexivity). apply in_seq in Ij.
        split; [lia|].
        destruct (test_true el ps i (fun p => (0, p)) T) as (p & Hp & HD). exists p. split; [exact Hp|]. split; [exact HD|].
        intros j q Hj Hq. apply (test_false el ps j (fun p => (0, p)) q); [|exact Hq]. apply F, Q. lia.
      + intros j q Hj Hq. apply (test_false el ps j (fun p => (0, p)) q); [|exact Hq]. apply E2. apply -> in_rev. apply in_seq. lia.
    - eapply pair_loop_exact; [exact Hlst| |exact E3]. lia.
    - intros k. rewrite !in_app_iff. destruct low as [a|], high as [b|]; cbn [opt_list In]; split; intros H;
        repeat match goal with
          | H : _ \/ _ |- _ => destruct H as [H|H]
          | H : False |- _ => destruct H
          | H : Some _ = Some _ |- _ => injection H as ->
          | H : None = Some _ |- _ => discriminate H
        end; subst; auto 6.
  Qed.
  Lemma ro_y_flags_exact cuts el fl : cuts <> [] -> el <> [] -> ro_chooseYCuts impl topi cuts el = Ok fl ->
    exists chosen, chosen_y_cuts (rdiv el) (map cut_pos cuts) (length el) chosen /\ length fl = length cuts /\
      forall k, k < length cuts -> (nth k fl false = true <-> In k chosen).
  Proof.
    intros Hc He H. unfold ro_chooseYCuts in H. destruct el as [|e es]; [congruence|]. destruct cuts as [|c0 cs]; [congruence|].
    set (el := e :: es) in *. set (cuts := c0 :: cs) in *.
    destruct (ro_chosen impl topi el (map cut_pos cuts)) as [l|w|w] eqn:F; cbn [obind] in H; try discriminate.
    apply ro_chosen_exact in F; [|discriminate]. clearbody el cuts. injection H as <-. exists l. split; [exact F|].
    rewrite map_length, seq_length. split; [reflexivity|]. intros k Hk.
    rewrite (nth_indep _ false (existsb (Nat.eqb 0) l)) by (rewrite map_length, seq_length; exact Hk).
    rewrite (map_nth (fun i => existsb (Nat.eqb i) l)), seq_nth by exact Hk. rewrite existsb_exists. split.
    - intros (x & Hx & Ex). apply Nat.eqb_eq in Ex. cbn in Ex. subst. exact Hx.
    - intros Hi. exists k. split; [exact Hi|apply Nat.eqb_refl].
  Qed.

  (** *** Primary cuts *)
  Context (avgCharWidth avgCharHeight : double).
  Lemma rotated_iff r : rotated r = true <-> rotated_block r.
  Proof.
    unfold rotated, rotated_block. destruct r as [b|e|e]; cbn [re_block].
    - rewrite orb_true_iff, !negb_true_iff, !Z.eqb_neq. split; [intros H; exists b; auto|]. intros (c & Q & H). injection Q as ->. exact H.
    - split; [discriminate|]. intros (c & Q & _). discriminate.
    - split; [discriminate|]. intros (c & Q & _). discriminate.
  Qed.
  Lemma different_iff r s : (match re_block r, re_block s with
    | Some b1, Some b2 => negb (wMode (b_pos b1) =? wMode (b_pos b2))%Z || negb (rotation (b_pos b1) =? rotation (b_pos b2))%Z
    | _, _ => false end) = true <-> differently_rotated r s.
  Proof.
    unfold differently_rotated. destruct r as [b|e|e]; cbn [re_block].
    - destruct s as [c|e|e]; cbn [re_block].
      + rewrite orb_true_iff, !negb_true_iff, !Z.eqb_neq. split; [intros H; exists b, c; auto|].
        intros (b' & c' & Q1 & Q2 & H). injection Q1 as ->. injection Q2 as ->. exact H.
      + split; [discriminate|]. intros (b' & c' & _ & Q & _). discriminate.
      + split; [discriminate|]. intros (b' & c' & _ & Q & _). discriminate.
    - split; [discriminate|]. intros (b' & c' & Q & _). discriminate.
    - split; [discriminate|]. intros (b' & c' & Q & _). discriminate.
  Qed.
  Lemma vsep_iff mid r : separates_vertically avgCharHeight mid r = true <-> vertical_separator avgCharHeight mid r.
  Proof.
    unfold separates_vertically, vertical_separator, getHeight, dgt. destruct r as [b|e|e]; cbn [re_nontext].
    - split; [discriminate|]. intros (e & [Q|Q] & _); discriminate.
    - rewrite !andb_true_iff. split; [intros ((H1 & H2) & H3); exists e; auto|]. intros (e' & [Q|Q] & H1 & H2 & H3); [|discriminate].
      injection Q as ->. auto.
    - rewrite !andb_true_iff. split; [intros ((H1 & H2) & H3); exists e; auto|]. intros (e' & [Q|Q] & H1 & H2 & H3); [discriminate|].
      injection Q as ->. auto.
  Qed.
  Lemma hsep_iff mid r : separates_horizontally avgCharWidth mid r = true <-> horizontal_separator avgCharWidth mid r.
  Proof.
    unfold separates_horizontally, horizontal_separator, getWidth, dgt. destruct r as [b|e|e]; cbn [re_nontext].
    - split; [discriminate|]. intros (e & [Q|Q] & _); discriminate.
    - rewrite !andb_true_iff. split; [intros ((H1 & H2) & H3); exists e; auto|]. intros (e' & [Q|Q] & H1 & H2 & H3); [|discriminate].
      injection Q as ->. auto.
    - rewrite !andb_true_iff. split; [intros ((H1 & H2) & H3); exists e; auto|]. intros (e' & [Q|Q] & H1 & H2 & H3); [discriminate|].
      injection Q as ->. auto.
  Qed.
  Lemma role_iff k r : has_role k r = true <-> with_role k r.
  Proof.
    unfold has_role, with_role. destruct r as [b|e|e]; cbn [re_block].
    - rewrite Nat.eqb_eq. split; [intros H; exists b; auto|]. intros (c & Q & H). injection Q as ->. exact H.
    - split; [discriminate|]. intros (c & Q & _). discriminate.
    - split; [discriminate|]. intros (c & Q & _). discriminate.
  Qed.
  Lemma role_change_iff k r s : xorb (has_role k r) (has_role k s) = true <-> role_changes k r s.
  Proof.
    unfold role_changes. rewrite <- (role_iff k r), <- (role_iff k s). destruct (has_role k r), (has_role k s); cbn; intuition congruence.
  Qed.
  Lemma primary_x_iff minY maxY c : primary_x avgCharHeight minY maxY c = true <->
    primary_x_cut avgCharHeight (middle minY maxY) (cut_before c) (cut_after c).
  Proof.
    unfold primary_x, primary_x_cut. change (dadd minY (ddiv (dsub maxY minY) (dZ 2))) with (middle minY maxY). cbv zeta.
    rewrite !orb_true_iff, !rotated_iff, !vsep_iff.
    rewrite (different_iff (cut_before c) (cut_after c)). tauto.
  Qed.
  Lemma primary_y_iff minX maxX c : primary_y avgCharWidth minX maxX c = true <->
    primary_y_cut avgCharWidth (middle minX maxX) (cut_before c) (cut_after c).
  Proof.
    unfold primary_y, primary_y_cut. change (dadd minX (ddiv (dsub maxX minX) (dZ 2))) with (middle minX maxX). cbv zeta.
    rewrite !orb_true_iff, !role_change_iff, !hsep_iff. unfold ROLE_TITLE, ROLE_AUTHOR_INFO, ROLE_MARGINAL. tauto.
  Qed.

  Lemma flags_map (f : cut relem -> bool) cands : forall c, In c (apply_flags cands (map f cands)) ->
    exists c0, In c0 cands /\ c = set_chosen c0 (f c0).
  Proof.
    induction cands as [|c0 t IH]; intros c Hc; cbn [map apply_flags hd tl] in Hc; [destruct Hc|].
    destruct Hc as [<-|Hc]; [exists c0; split; [left; reflexivity|reflexivity]|].
    destruct (IH c Hc) as (c1 & H1 & H2). exists c1. split; [right; exact H1|exact H2].
  Qed.
  Lemma finish_flags (f : cut relem -> bool) (ch : chooser relem) cands s b gs cs :
    (s <> [] -> ch cands s = Ok (map f cands)) -> (forall c v, f (set_chosen c v) = f c) -> s <> [] ->
    finish ch cands s = Ok (b, gs, cs) -> forall c, In c cs -> cut_chosen c = f c.
  Proof.
    intros Hch Hf Hs H c Hc. unfold finish in H. rewrite (Hch Hs) in H. cbn [obind] in H. inv_do H.
    assert (Q : apply_flags cands (map f cands) = cs) by (inversion H; reflexivity). rewrite <- Q in Hc.
    destruct (flags_map f cands c Hc) as (c0 & _ & ->). rewrite Hf. reflexivity.
  Qed.
  Lemma xCut_flags mg k (f : cut relem -> bool) (ch : chooser relem) el b gs cs :
    (forall cands s, s <> [] -> ch cands s = Ok (map f cands)) -> (forall c v, f (set_chosen c v) = f c) ->
    xCut re_pos impl topi mg k ch el = Ok (b, gs, cs) -> forall c, In c cs -> cut_chosen c = f c.
  Proof.
    intros Hch Hf H. unfold xCut in H. destruct el as [|e0 l]; [assert (cs = []) as -> by (inversion H; reflexivity); intros c []|].
    inv_do H. destruct a as [|e1 rest]; [discriminate|]. inv_do H. inv_do H.
    eapply finish_flags; [apply Hch|exact Hf| |exact H]. discriminate.
  Qed.
  Lemma yCut_flags mg (f : cut relem -> bool) (ch : chooser relem) el b gs cs :
    (forall cands s, s <> [] -> ch cands s = Ok (map f cands)) -> (forall c v, f (set_chosen c v) = f c) ->
    yCut re_pos impl mg ch el = Ok (b, gs, cs) -> forall c, In c cs -> cut_chosen c = f c.
  Proof.
    intros Hch Hf H. unfold yCut in H. destruct el as [|e0 l]; [assert (cs = []) as -> by (inversion H; reflexivity); intros c []|].
    inv_do H. destruct a as [|e1 rest]; [discriminate|].
    eapply finish_flags; [apply Hch|exact Hf| |exact H]. discriminate.
  Qed.
  Lemma for_groups_in {A} (f : list A -> run (xy_result (A := A))) gs : forall r, for_groups f gs = Some (Ok r) ->
    exists rs, Forall2 (fun g x => f g = Some (Ok x)) gs rs /\ snd r = concat (map snd rs) /\ fst r = concat (map fst rs).
  Proof.
    induction gs as [|g t IH]; intros r H; cbn [for_groups] in H.
    - assert (r = ([], [])) as -> by (inversion H; reflexivity). exists []. split; [constructor|]. split; reflexivity.
    - destruct (f g) as [[x|w|w]|] eqn:F; cbn [rbind] in H; try discriminate.
      destruct (for_groups f t) as [[y|w|w]|] eqn:G; cbn [rbind] in H; try discriminate.
      assert (r = (fst x ++ fst y, snd x ++ snd y)) as -> by (inversion H; reflexivity).
      destruct (IH y eq_refl) as (rs & R1 & R2 & R3). exists (x :: rs). split; [constructor; assumption|].
      cbn [fst snd map concat]. rewrite R2, R3. split; reflexivity.
  Qed.
  Lemma min_run_least (g : position -> double) (el : list relem) : (forall e, In e el -> nn (g (re_pos e))) ->
    least_of (DBL_MAX :: map (fun e => g (re_pos e)) el) (fold_left (fun m e => minimum m (g (re_pos e))) el DBL_MAX).
  Proof.
    intros Hn. rewrite (fold_map_pos re_pos minimum g).
    destruct (nn_min_run g (map re_pos el) DBL_MAX) as (R1 & R2 & R3 & R4).
    { reflexivity. } { intros p Hp. apply in_map_iff in Hp as (x & <- & Hx). apply Hn. exact Hx. }
    split.
    - destruct R4 as [-> |(p & Hp & ->)]; [left; reflexivity|]. right. apply in_map_iff in Hp as (x & <- & Hx).
      apply (in_map (fun e => g (re_pos e))). exact Hx.
    - intros x [<-|Hx]; [exact R2|]. apply in_map_iff in Hx as (e & <- & He). apply R3, in_map. exact He.
  Qed.
  Lemma max_run_greatest (g : position -> double) (el : list relem) : (forall e, In e el -> nn (g (re_pos e))) ->
    greatest_of (DBL_MIN :: map (fun e => g (re_pos e)) el) (fold_left (fun m e => maximum m (g (re_pos e))) el DBL_MIN).
  Proof.
    intros Hn. rewrite (fold_map_pos re_pos maximum g).
    destruct (nn_max_run g (map re_pos el) DBL_MIN) as (R1 & R2 & R3 & R4).
    { reflexivity. } { intros p Hp. apply in_map_iff in Hp as (x & <- & Hx). apply Hn. exact Hx. }
    split.
    - destruct R4 as [-> |(p & Hp & ->)]; [left; reflexivity|]. right. apply in_map_iff in Hp as (x & <- & Hx).
      apply (in_map (fun e => g (re_pos e))). exact Hx.
    - intros x [<-|Hx]; [exact R2|]. apply in_map_iff in Hx as (e & <- & He). apply R3, in_map. exact He.
  Qed.

  Lemma ro_groups_primary el gs cuts : (forall e, In e el -> nn_pos (re_pos e)) ->
    ro_groups impl topi avgCharWidth avgCharHeight el = Some (Ok (gs, cuts)) ->
    exists minX minY maxX maxY xcuts stripes,
      least_of (DBL_MAX :: map (fun e => leftX (re_pos e)) el) minX /\ least_of (DBL_MAX :: map (fun e => upperY (re_pos e)) el) minY /\
      greatest_of (DBL_MIN :: map (fun e => rightX (re_pos e)) el) maxX /\ greatest_of (DBL_MIN :: map (fun e => lowerY (re_pos e)) el) maxY /\
      cuts = xcuts ++ concat (map (fun s : list (cut relem) * list (cut relem) => fst s ++ snd s) stripes) /\
      (forall c, In c xcuts -> (cut_chosen c = true <-> primary_x_cut avgCharHeight (middle minY maxY) (cut_before c) (cut_after c))) /\
      (forall s c, In s stripes -> In c (fst s) ->
         (cut_chosen c = true <-> primary_y_cut avgCharWidth (middle minX maxX) (cut_before c) (cut_after c))).
  Proof.
    intros Hn H. unfold ro_groups in H.
    set (minX := fold_left (fun m e => minimum m (leftX (re_pos e))) el DBL_MAX) in *.
    set (minY := fold_left (fun m e => minimum m (upperY (re_pos e))) el DBL_MAX) in *.
    set (maxX := fold_left (fun m e => maximum m (rightX (re_pos e))) el DBL_MIN) in *.
    set (maxY := fold_left (fun m e => maximum m (lowerY (re_pos e))) el DBL_MIN) in *.
    cbv zeta in H.
    match type of H with rbind (Some ?m) _ = _ => destruct m as [[[b xg] xc]|w|w] eqn:FX; cbn [rbind] in H; try discriminate end.
    match type of H with rbind ?m _ = _ => destruct m as [[r|w|w]|] eqn:FG; cbn [rbind] in H; try discriminate end.
    assert (Q : xc ++ snd r = cuts) by (inversion H; reflexivity).
    apply for_groups_in in FG. destruct FG as (rs & R1 & R2 & _).
    assert (HS : exists stripes : list (list (cut relem) * list (cut relem)), concat (map snd rs) = concat (map (fun s => fst s ++ snd s) stripes) /\
       forall s c, In s stripes -> In c (fst s) ->
         (cut_chosen c = true <-> primary_y_cut avgCharWidth (middle minX maxX) (cut_before c) (cut_after c))).
    { clear -R1. induction R1 as [|g x xg rs F R1 IH].
      - exists []. split; [reflexivity|]. intros s c [].
      - destruct IH as (st & S1 & S2). cbn beta in F.
        match type of F with match ?m with _ => _ end = _ => destruct m as [[[b yg] yc]|w|w] eqn:FY; cbn [rbind] in F; try discriminate end.
        match type of F with rbind ?m _ = _ => destruct m as [[r|w|w]|] eqn:FG; cbn [rbind] in F; try discriminate end.
        assert (Q : snd x = yc ++ snd r) by (inversion F; reflexivity).
        exists ((yc, snd r) :: st). cbn [map concat fst snd]. split; [rewrite Q, S1; reflexivity|].
        intros s c [<-|Hs] Hc; [|exact (S2 s c Hs Hc)]. cbn [fst] in Hc.
        rewrite (yCut_flags _ (primary_y avgCharWidth minX maxX) _ _ _ _ _ ) with (c := c) (4 := Hc) (3 := FY).
        + apply primary_y_iff.
        + intros cands s Hs. unfold choosePrimaryYCuts. destruct s; [congruence|reflexivity].
        + reflexivity. }
    destruct HS as (st & S1 & S2).
    exists minX, minY, maxX, maxY, xc, st.
    split; [apply min_run_least; intros e He; apply (Hn e He)|].
    split; [apply min_run_least; intros e He; apply (Hn e He)|].
    split; [apply max_run_greatest; intros e He; apply (Hn e He)|].
    split; [apply max_run_greatest; intros e He; apply (Hn e He)|].
    split; [rewrite <- Q, R2, S1; reflexivity|]. split; [|exact S2].
    intros c Hc. rewrite (xCut_flags _ _ (primary_x avgCharHeight minY maxY) _ _ _ _ _ ) with (c := c) (4 := Hc) (3 := FX).
    + apply primary_x_iff.
    + intros cands s Hs. unfold choosePrimaryXCuts. destruct s; [congruence|reflexivity].
    + reflexivity.
  Qed.
End P.
