(** XYOrderProofs.v - the order of the groups of the XY-cut. *)
From Coq Require Import ZArith NArith Reals Lra.
From Flocq Require Import Core.
From Verif Require Import Base Double DoubleFacts MathUtils MathUtilsProofs Sort Elements GeometrySpec ElementsProofs GridProofs
  Counter XYCut XYCutSpec XYCutProofs.
Local Opaque TOL dZ dadd dsub ddiv DBL_MAX DBL_MIN.

Section Lists.
  Context {A : Type}.
  Definition cross (R : A -> A -> Prop) (g h : list A) : Prop := forall x y, In x g -> In y h -> R x y.
  Lemma FOP_app (R : list A -> list A -> Prop) l1 l2 : ForallOrdPairs R l1 -> ForallOrdPairs R l2 ->
    (forall g h, In g l1 -> In h l2 -> R g h) -> ForallOrdPairs R (l1 ++ l2).
  Proof.
    induction 1 as [|g l1 Hg Hl IH]; intros H2 Hc; cbn; auto. constructor.
    - apply Forall_app. split; auto. apply Forall_forall. intros h Hh. apply Hc; [left|]; auto.
    - apply IH; auto. intros; apply Hc; [right|]; auto.
  Qed.
  Lemma FOP_impl (R S : list A -> list A -> Prop) l : (forall g h, R g h -> S g h) -> ForallOrdPairs R l -> ForallOrdPairs S l.
  Proof. intros Hi. induction 1; constructor; auto. eapply Forall_impl; [|eassumption]. auto. Qed.
  Lemma FOP_nth (R : list A -> list A -> Prop) l : ForallOrdPairs R l ->
    forall i j g h, i < j -> nth_error l i = Some g -> nth_error l j = Some h -> R g h.
  Proof.
    induction 1 as [|x l Hx Hl IH]; intros i j g h Hij Hi Hj; [destruct i; discriminate|].
    destruct j as [|j]; [lia|]. destruct i as [|i].
    - injection Hi as <-. cbn in Hj. apply nth_error_In in Hj. rewrite Forall_forall in Hx. auto.
    - cbn in Hi, Hj. apply (IH i j); auto. lia.
  Qed.
End Lists.

Section O.
  Context {A : Type} (pos : A -> position).
  Context (impl : (A -> A -> bool) -> list A -> list A) (topi : (A -> A -> bool) -> list A -> nat).
  Context (Himpl : sort_ok impl) (Htop : top_ok topi).
  Context (Q : A -> Prop) (Rx Ry : A -> A -> Prop).
  Definition Rxy x y := Rx x y \/ Ry x y.
  Context (mx my : double) (k : Z) (cx cy : chooser A).
  Context (HX : forall el b gs cs, (forall e, In e el -> Q e) -> xCut pos impl topi mx k cx el = Ok (b, gs, cs) -> ForallOrdPairs (cross Rx) gs).
  Context (HY : forall el b gs cs, (forall e, In e el -> Q e) -> yCut pos impl my cy el = Ok (b, gs, cs) -> ForallOrdPairs (cross Ry) gs).
  Notation xy fuel := (xyCut pos impl topi fuel mx my k cx cy).
  Notation gord := (ForallOrdPairs (cross Rxy)).

  Lemma for_groups_ord f gs : forall r, for_groups (A:=A) f gs = Some (Ok r) -> gord gs ->
    (forall g r', In g gs -> f g = Some (Ok r') -> gord (fst r') /\ incl (concat (fst r')) g) ->
    gord (fst r) /\ incl (concat (fst r)) (concat gs).
  Proof.
    induction gs as [|g t IH]; intros r H Hg Hf; cbn in H.
    - injection H as <-. cbn. split; [constructor|intros ? []].
    - destruct (f g) as [[r1|w|w]|] eqn:E1; try discriminate. cbn in H.
      destruct (for_groups f t) as [[r2|w|w]|] eqn:E2; try discriminate. injection H as <-. cbn [fst].
      inversion Hg as [|? ? Hg1 Hg2]; subst.
      destruct (Hf g r1 (or_introl eq_refl) E1) as [O1 I1].
      destruct (IH r2 eq_refl Hg2) as [O2 I2]. { intros g' r' Hg'. apply Hf. right; auto. }
      split.
      + apply FOP_app; auto. intros h1 h2 H1 H2 x y Hx Hy.
        assert (In x g) as Hxg by (apply I1, in_concat; eauto).
        assert (In y (concat t)) as Hyt by (apply I2, in_concat; eauto).
        apply in_concat in Hyt as (h & Hh & Hy'). rewrite Forall_forall in Hg1. apply (Hg1 h Hh); auto.
      + rewrite concat_app. cbn [concat]. apply incl_app; [apply incl_appl|apply incl_appr]; auto.
  Qed.
  Lemma single_ord (l : list A) : gord [l].
  Proof. constructor; constructor. Qed.
  Lemma xyCut_ord fuel : forall el r, (forall e, In e el -> Q e) -> xy fuel el = Some (Ok r) ->
    gord (fst r) /\ incl (concat (fst r)) el.
  Proof.
    induction fuel as [|fuel IH]; intros el r HQ H; destruct el as [|e0 l]; try discriminate.
    1,2: injection H as <-; split; [constructor|intros ? []].
    set (el := e0 :: l) in *. rewrite xyCut_S in H by discriminate.
    destruct (xCut pos impl topi mx k cx el) as [[[ok xg] xc]|w|w] eqn:Ex; cbn [rbind] in H; try discriminate.
    assert (forall g yg yc ok' r1, incl g el -> yCut pos impl my cy g = Ok (ok', yg, yc) -> ok' = true ->
       for_groups (xy fuel) yg = Some (Ok r1) -> gord (fst r1) /\ incl (concat (fst r1)) g) as Hrec.
    { intros g yg yc ok' r1 Hg Ey Hok E1. destruct (ycut_div pos impl Himpl _ _ _ _ _ _ Ey Hok) as [s Hd].
      assert (incl (concat yg) g) as Hin. { intros x Hx. apply (Permutation_in _ (division_concat _ _ _ _ _ Hd)); auto. }
      destruct (for_groups_ord _ _ _ E1) as [O1 I1].
      - eapply FOP_impl; [|eapply HY; [|exact Ey]]; [intros g1 g2 Hc x y Hx Hy; right; auto|intros e He; apply HQ, Hg; auto].
      - intros g' r' Hg' E'. apply (IH g' r'); auto. intros e He. apply HQ, Hg, Hin, in_concat. eauto.
      - split; auto. eapply incl_tran; eauto. }
    destruct ok; cbn [negb] in H.
    - destruct (xcut_div pos impl topi Himpl Htop _ _ _ _ _ _ _ Ex eq_refl) as [s Hd].
      assert (incl (concat xg) el) as Hin. { intros x Hx. apply (Permutation_in _ (division_concat _ _ _ _ _ Hd)); auto. }
      match type of H with rbind ?m _ = _ => destruct m as [[r1|w|w]|] eqn:E1; cbn in H; try discriminate end.
      injection H as <-. cbn [fst].
      destruct (for_groups_ord _ _ _ E1) as [O1 I1].
      + eapply FOP_impl; [|eapply HX; [|exact Ex]]; [intros g1 g2 Hc x y Hx Hy; left; auto|auto].
      + intros g r' Hg E'. cbn beta in E'.
        assert (incl g el) as Hgi by (intros x Hx; apply Hin, in_concat; eauto).
        destruct (yCut pos impl my cy g) as [[[ok' yg] yc]|w|w] eqn:Ey; cbn [rbind] in E'; try discriminate.
        destruct ok'; cbn [negb] in E'.
        * match type of E' with rbind ?m _ = _ => destruct m as [[r2|w|w]|] eqn:E2; cbn in E'; try discriminate end.
          injection E' as <-. cbn [fst]. eapply Hrec; eauto.
        * injection E' as <-. cbn [fst concat]. split; [apply single_ord|]. rewrite app_nil_r. apply incl_refl.
      + split; auto. eapply incl_tran; eauto.
    - destruct (yCut pos impl my cy el) as [[[ok' yg] yc]|w|w] eqn:Ey; cbn [rbind] in H; try discriminate.
      destruct ok'; cbn [negb] in H.
      + match type of H with rbind ?m _ = _ => destruct m as [[r2|w|w]|] eqn:E2; cbn in H; try discriminate end.
        injection H as <-. cbn [fst]. eapply Hrec; eauto. apply incl_refl.
      + injection H as <-. cbn [fst concat]. split; [apply single_ord|]. rewrite app_nil_r. apply incl_refl.
  Qed.
End O.

(** *** Instance 1: the order of the sorting *)
Section Instances.
  Context {A : Type} (pos : A -> position).
  Context (impl : (A -> A -> bool) -> list A -> list A) (topi : (A -> A -> bool) -> list A -> nat).
  Context (Himpl : sort_ok impl) (Htop : top_ok topi).

  Lemma ordered_groups (lt : A -> A -> bool) gs : ordered lt (concat gs) ->
    ForallOrdPairs (cross (fun x y => lt y x = false)) gs.
  Proof.
    induction gs as [|g t IH]; intros H; constructor.
    - apply Forall_forall. intros h Hh x y Hx Hy. cbn in H. apply in_split in Hx as (g1 & g2 & ->).
      assert (In y (concat t)) as Hyt by (apply in_concat; eauto). apply in_split in Hyt as (t1 & t2 & Ht). rewrite Ht in H.
      apply (H g1 x (g2 ++ t1) y t2). rewrite <- !app_assoc. reflexivity.
    - apply IH. intros l1 x l2 y l3 E. apply (H (g ++ l1) x l2 y l3). cbn. rewrite E, <- app_assoc. reflexivity.
  Qed.
  Lemma xCut_sorted mg k choose el b gs cs : xCut pos impl topi mg k choose el = Ok (b, gs, cs) ->
    ForallOrdPairs (cross (fun x y => leftXAsc pos y x = false)) gs.
  Proof.
    intros H. apply (xCut_spec pos impl topi Himpl Htop) in H as [(_ & _ & -> & _)|(s & cands & fl & _ & HO & (_ & _ & (Hcc & _) & _) & _)]; [constructor|].
    apply ordered_groups. rewrite Hcc. exact HO.
  Qed.
  Lemma yCut_sorted mg choose el b gs cs : yCut pos impl mg choose el = Ok (b, gs, cs) ->
    ForallOrdPairs (cross (fun x y => upperYAsc pos y x = false)) gs.
  Proof.
    intros H. apply (yCut_spec pos impl Himpl) in H as [(_ & _ & -> & _)|(s & cands & fl & _ & HO & (_ & _ & (Hcc & _) & _) & _)]; [constructor|].
    apply ordered_groups. rewrite Hcc. exact HO.
  Qed.

  (** *** Instance 2: separation, for parsed upright boxes with positive extents *)
  Lemma cut_at_split (ps : list nat) (s : list A) gs : cut_at ps s gs -> forall i j g h, i < j -> nth_error gs i = Some g -> nth_error gs j = Some h ->
    exists p, In p ps /\ incl g (firstn p s) /\ incl h (skipn p s).
  Proof.
    intros (Hcc & Hlen & Hpre) i j g h Hij Hg Hh.
    assert (j < length gs) as Hj by (apply nth_error_Some; congruence).
    destruct (nth_error ps i) as [p|] eqn:Ep; [|apply nth_error_None in Ep; lia].
    exists p. split; [eapply nth_error_In; eauto|]. specialize (Hpre i p Ep).
    pose proof (firstn_skipn (S i) gs) as Hsp. rewrite <- Hsp, concat_app, Hpre in Hcc.
    rewrite <- (firstn_skipn p s) in Hcc at 2. apply app_inv_head in Hcc. rewrite <- Hcc, <- Hpre. split.
    - intros x Hx. apply in_concat. exists g. split; auto.
      apply nth_error_split in Hg as (l1 & l2 & -> & Hl). rewrite firstn_app. apply in_or_app. right.
      replace (S i - length l1) with 1 by lia. cbn. auto.
    - intros x Hx. apply in_concat. exists h. split; auto.
      rewrite <- (firstn_skipn (S i) gs) in Hh. rewrite nth_error_app2 in Hh.
      + eapply nth_error_In; eauto. + rewrite firstn_length. lia.
  Qed.
  Lemma FOP_intro (R : list A -> list A -> Prop) l : (forall i j g h, i < j -> nth_error l i = Some g -> nth_error l j = Some h -> R g h) ->
    ForallOrdPairs R l.
  Proof.
    induction l as [|x l IH]; intros H; constructor.
    - apply Forall_forall. intros h Hh. apply In_nth_error in Hh as [j Hj]. apply (H 0 (S j)); auto. lia.
    - apply IH. intros i j g h Hij Hi Hj. apply (H (S i) (S j)); auto. lia.
  Qed.
End Instances.

Lemma tenth_le k l a b : tenth k a -> tenth l b -> (dle a b = true <-> (k <= l)%Z).
Proof.
  intros Ha Hb. pose proof (tenth_err _ _ Ha) as [A1 A2]. pose proof (tenth_err _ _ Hb) as [B1 B2].
  destruct Ha as (_ & Fa & Ea), Hb as (_ & Fb & Eb). rewrite dle_E by (apply fin_nn; auto). split.
  - intros H. destruct (Z_le_gt_dec k l) as [|Hgt]; auto. exfalso.
    assert (IZR k >= IZR l + 1)%R by (rewrite <- plus_IZR; apply IZR_ge; lia). apply Rabs_le_inv in A1, B1. lra.
  - intros H. rewrite Ea, Eb. apply rd_mono. apply IZR_le in H. lra.
Qed.
Lemma tenth_lt k l a b : tenth k a -> tenth l b -> (dlt a b = true <-> (k < l)%Z).
Proof.
  intros Ha Hb. pose proof (tenth_le _ _ _ _ Hb Ha) as H.
  rewrite dlt_negb_dle, negb_true_iff by (apply fin_nn; apply Ha || apply Hb).
  destruct (dle b a); split; intros; try lia; try congruence.
  all: try (destruct (Z_lt_ge_dec k l); [assumption|exfalso; assert (false = true) by (apply H; lia); discriminate]).
  all: try (exfalso; assert (l <= k)%Z by (apply H; auto); lia).
Qed.
Lemma gap_tenth k l a b : tenth k a -> tenth l b -> equalOrLarger (dsub a b) dzero TOL = true -> (l <= k)%Z.
Proof.
  intros Ha Hb H. destruct (Z_le_gt_dec l k) as [|Hgt]; auto. exfalso.
  pose proof (tenth_err _ _ Ha) as [A1 A2]. pose proof (tenth_err _ _ Hb) as [B1 B2].
  destruct Ha as (_ & Fa & Ea), Hb as (_ & Fb & Eb). pose proof M_big as HM. pose proof TOL_E as HT.
  destruct (dsub_E a b Fa Fb) as [Hn HE]. destruct (dsub_E dzero TOL eq_refl TOL_fin) as [Hn2 HE2].
  assert (IZR l >= IZR k + 1)%R by (rewrite <- plus_IZR; apply IZR_ge; lia). apply Rabs_le_inv in A1, A2, B1, B2.
  unfold equalOrLarger, dge in H. apply dle_E in H; auto. rewrite HE, HE2 in H.
  pose proof e30 as Hq. pose proof e22 as Hq2.
  assert (E dzero = 0%R) as Z0 by reflexivity. rewrite Z0 in *.
  assert (Rabs (E a - E b) <= bpow Zaux.radix2 30)%R as R1 by (apply Rabs_le; lra).
  assert (Rabs (0 - E TOL) <= bpow Zaux.radix2 30)%R as R2 by (apply Rabs_le; lra).
  apply rd_err in R1, R2. apply Rabs_le_inv in R1, R2. rewrite Hq2 in *.
  rewrite !clamp_id in H by lra. lra.
Qed.

Section Separation.
  Context {A : Type} (pos : A -> position).
  Context (impl : (A -> A -> bool) -> list A -> list A) (topi : (A -> A -> bool) -> list A -> nat).
  Context (Himpl : sort_ok impl) (Htop : top_ok topi).
  Definition proper (e : A) : Prop := proper_box (pos e).
  (** One axis: [lo], [hi] are the edges, [gap] the gap function. *)
  Lemma axis_separates (lo hi : A -> double) (gap : A -> A -> double) (s : list A) p m e x y :
    (forall a, In a s -> rounded1 (lo a) /\ rounded1 (hi a) /\ dlt (lo a) (hi a) = true) ->
    (forall a b, In a s -> In b s -> gap a b = if smaller (lo a) (lo b) TOL then dsub (lo b) (hi a) else dsub (lo a) (hi b)) ->
    ordered (fun a b => smaller (lo a) (lo b) TOL) s ->
    reaches_farthest hi [] m (firstn p s) -> nth_error s p = Some e -> equalOrLarger (gap m e) dzero TOL = true ->
    In x (firstn p s) -> In y (skipn p s) -> dle (hi x) (lo y) = true.
  Proof.
    intros HP Hgap HO (rest & Hr1 & Hr2) He Hg Hx Hy. cbn [app] in Hr1.
    apply nth_error_split in He as (s1 & s2 & -> & <-).
    rewrite firstn_app, Nat.sub_diag, firstn_all in *. cbn [firstn] in *. rewrite app_nil_r in *.
    rewrite skipn_app, Nat.sub_diag, skipn_all in Hy. cbn [skipn app] in Hy.
    assert (In m s1) as Hm by (apply (Permutation_in _ (Permutation_sym Hr1)); left; auto).
    set (s := s1 ++ e :: s2) in *.
    assert (In m s /\ In e s /\ In x s /\ In y s) as (Im & Ie & Ix & Iy).
    { unfold s. rewrite !in_app_iff. repeat split; auto. right; left; auto. }
    rewrite Hgap in Hg by auto.
    destruct (HP m Im) as (M1 & M2 & M3), (HP e Ie) as (E1 & E2 & E3), (HP x Ix) as (X1 & X2 & X3), (HP y Iy) as (Y1 & Y2 & Y3).
    destruct (rounded1_tenth _ M1) as [ml ML], (rounded1_tenth _ M2) as [mh MH], (rounded1_tenth _ E1) as [el EL],
      (rounded1_tenth _ E2) as [eh EH], (rounded1_tenth _ X1) as [xl XL], (rounded1_tenth _ X2) as [xh XH], (rounded1_tenth _ Y1) as [yl YL].
    apply (tenth_lt _ _ _ _ ML MH) in M3. apply (tenth_lt _ _ _ _ EL EH) in E3.
    assert (xh <= mh)%Z as Hxm.
    { apply (Permutation_in _ Hr1) in Hx as [<-|Hx].
      - assert (dle (hi m) (hi m) = true) as Hq by (apply dle_refl, fin_nn; apply MH). apply (tenth_le _ _ _ _ XH MH) in Hq. lia.
      - specialize (Hr2 x Hx). rewrite (larger_tenth _ _ _ _ XH MH) in Hr2. apply Z.ltb_ge in Hr2. exact Hr2. }
    assert (el <= yl)%Z as Hey.
    { destruct Hy as [<-|Hy].
      - assert (dle (lo e) (lo e) = true) as Hq by (apply dle_refl, fin_nn; apply EL). apply (tenth_le _ _ _ _ EL YL) in Hq. lia.
      - apply in_split in Hy as (t1 & t2 & ->). assert (smaller (lo y) (lo e) TOL = false) as Hs by (apply (HO s1 e t1 y t2); reflexivity).
        rewrite (smaller_tenth _ _ _ _ YL EL) in Hs. apply Z.ltb_ge in Hs. exact Hs. }
    assert (ml <= el)%Z as Hme.
    { apply in_split in Hm as (t1 & t2 & ->). assert (smaller (lo e) (lo m) TOL = false) as Hs.
      { apply (HO t1 m t2 e s2). unfold s. rewrite <- app_assoc. reflexivity. }
      rewrite (smaller_tenth _ _ _ _ EL ML) in Hs. apply Z.ltb_ge in Hs. exact Hs. }
    apply (tenth_le _ _ _ _ XH YL).
    rewrite (smaller_tenth _ _ _ _ ML EL) in Hg. destruct (Z.ltb_spec ml el) as [Hlt|Hge].
    - apply (gap_tenth _ _ _ _ EL MH) in Hg. lia.
    - apply (gap_tenth _ _ _ _ ML EH) in Hg. lia.
  Qed.
  Lemma xgap_form a b : upright (pos a) -> upright (pos b) ->
    computeHorizontalGap (pos a) (pos b) =
    if smaller (leftX (pos a)) (leftX (pos b)) TOL then dsub (leftX (pos b)) (rightX (pos a)) else dsub (leftX (pos a)) (rightX (pos b)).
  Proof.
    intros [A1 A2] [B1 B2]. unfold computeHorizontalGap. destruct (smaller (leftX (pos a)) (leftX (pos b)) TOL).
    - destruct (rotation (pos a)) as [|[[]|[]|]|]; try reflexivity; congruence.
    - destruct (rotation (pos b)) as [|[[]|[]|]|]; try reflexivity; congruence.
  Qed.
  Lemma ygap_form a b : upright (pos a) -> upright (pos b) ->
    computeVerticalGap (pos a) (pos b) =
    if smaller (upperY (pos a)) (upperY (pos b)) TOL then dsub (upperY (pos b)) (lowerY (pos a)) else dsub (upperY (pos a)) (lowerY (pos b)).
  Proof.
    intros [A1 A2] [B1 B2]. unfold computeVerticalGap. destruct (smaller (upperY (pos a)) (upperY (pos b)) TOL).
    - destruct (rotation (pos a)) as [|[[]|[]|]|]; try reflexivity; congruence.
    - destruct (rotation (pos b)) as [|[[]|[]|]|]; try reflexivity; congruence.
  Qed.
  Lemma chosen_pos_in (cs : list (cut A)) p : In p (chosen_pos cs) -> exists c, In c cs /\ cut_pos c = p /\ cut_chosen c = true.
  Proof. intros H. apply in_map_iff in H as (c & <- & Hc). apply filter_In in Hc as [H1 H2]. eauto. Qed.
  Lemma xCut_separates choose el b gs cs : (forall e, In e el -> proper e) ->
    xCut pos impl topi dzero 0 choose el = Ok (b, gs, cs) ->
    ForallOrdPairs (cross (fun x y => dle (rightX (pos x)) (leftX (pos y)) = true)) gs.
  Proof.
    intros HQ H. apply (xCut_spec pos impl topi Himpl Htop) in H as [(_ & _ & -> & _)|(s & cands & fl & _ & HO & (HP & _ & HD & _) & _ & -> & _ & _ & HX & _)]; [constructor|].
    change (queue_capacity 0) with 1%N in HX.
    apply FOP_intro. intros i j g h Hij Hg Hh x y Hx Hy.
    destruct (cut_at_split _ _ _ HD i j g h Hij Hg Hh) as (p & Hp & Ig & Ih).
    apply chosen_pos_in in Hp as (c & Hc & <- & _). apply apply_flags_in in Hc as (c0 & Hc0 & b0 & ->).
    cbn [set_chosen cut_pos] in *. destruct (HX c0 (or_introl eq_refl) Hc0) as (X1 & X2 & X3 & X4 & _).
    assert (cut_overlap c0 = []) as Ho by (destruct (cut_overlap c0); [auto|cbn [length] in X2; lia]). rewrite Ho in X3.
    assert (forall a, In a s -> proper a) as HQs by (intros a Ha; apply HQ, (Permutation_in _ (Permutation_sym HP)); auto).
    eapply (axis_separates (fun a => leftX (pos a)) (fun a => rightX (pos a)) (fun a b => computeHorizontalGap (pos a) (pos b)) s (cut_pos c0)); eauto.
    - intros a Ha. destruct (HQs a Ha) as ((P1 & P2 & P3 & P4) & U & L1 & L2). auto.
    - intros a b' Ha Hb. apply xgap_form; [apply (HQs a)|apply (HQs b')]; auto.
  Qed.
  Lemma yCut_separates choose el b gs cs : (forall e, In e el -> proper e) ->
    yCut pos impl dzero choose el = Ok (b, gs, cs) ->
    ForallOrdPairs (cross (fun x y => dle (lowerY (pos x)) (upperY (pos y)) = true)) gs.
  Proof.
    intros HQ H. apply (yCut_spec pos impl Himpl) in H as [(_ & _ & -> & _)|(s & cands & fl & _ & HO & (HP & _ & HD & _) & _ & -> & (_ & HC) & HX)]; [constructor|].
    apply FOP_intro. intros i j g h Hij Hg Hh x y Hx Hy.
    destruct (cut_at_split _ _ _ HD i j g h Hij Hg Hh) as (p & Hp & Ig & Ih).
    apply chosen_pos_in in Hp as (c & Hc & <- & _). apply apply_flags_in in Hc as (c0 & Hc0 & b0 & ->).
    cbn [set_chosen cut_pos] in *. destruct (HC c0 Hc0) as [C1 C2].
    destruct (nth_error s (cut_pos c0)) as [e|] eqn:He; [|apply nth_error_None in He; lia].
    destruct (HX (cut_pos c0) e C1 He) as (m & X3 & X4 & _).
    assert (equalOrLarger (computeVerticalGap (pos m) (pos e)) dzero TOL = true) as X5 by (apply X4, in_map; auto).
    assert (forall a, In a s -> proper a) as HQs by (intros a Ha; apply HQ, (Permutation_in _ (Permutation_sym HP)); auto).
    eapply (axis_separates (fun a => upperY (pos a)) (fun a => lowerY (pos a)) (fun a b => computeVerticalGap (pos a) (pos b)) s (cut_pos c0)); eauto.
    - intros a Ha. destruct (HQs a Ha) as ((P1 & P2 & P3 & P4) & U & L1 & L2). auto.
    - intros a b' Ha Hb. apply ygap_form; [apply (HQs a)|apply (HQs b')]; auto.
  Qed.
End Separation.
