(** CutPlaceProofs.v - where the cuts of XYCut.v lie on the page. *)
From Coq Require Import ZArith NArith Reals Lra.
From Flocq Require Import Core IEEE754.BinarySingleNaN.
From Verif Require Import Base Double DoubleFacts MathUtils MathUtilsProofs Sort Elements GeometrySpec ElementsProofs GridProofs ExactProofs
  Counter CounterProofs XYCut XYCutSpec XYCutProofs.
Local Opaque TOL dZ dadd dsub ddiv DBL_MAX DBL_MIN.

(** The middle of a gap, as computed. *)
Lemma mid_between a b : rounded1 a -> rounded1 b -> dle a b = true ->
  let m := dadd a (ddiv (dsub b a) (dZ 2)) in
  is_fin m = true /\ dle a m = true /\ dle m b = true /\ (Rabs (E m - (E a + E b) / 2) <= / 1000000)%R.
Proof.
  intros Ha Hb Hle m. destruct (rounded1_tenth a Ha) as [k K]. destruct (rounded1_tenth b Hb) as [l L].
  pose proof (tenth_err _ _ K) as [A1 A2]. pose proof (tenth_err _ _ L) as [B1 B2].
  rewrite (dle_tenth k l a b K L) in Hle. apply Z.leb_le in Hle.
  destruct K as (Kk & Fa & Ea), L as (Ll & Fb & Eb). pose proof M_big as MB.
  apply Rabs_le_inv in A1, A2, B1, B2.
  destruct (dsub_E b a Fb Fa) as [N1 E1].
  assert (Rabs (rd (E b - E a) - (E b - E a)) <= / 4194304)%R as R1.
  { rewrite <- e22. apply rd_err. rewrite e30. apply Rabs_le. lra. }
  apply Rabs_le_inv in R1. rewrite clamp_id in E1 by lra.
  assert (F1 : is_fin (dsub b a) = true) by (apply E_fin_iff; [exact N1|lra]).
  destruct (dZ_exact 2) as [F2 E2]; [lia|].
  destruct (ddiv_E (dsub b a) (dZ 2) F1 F2) as [N3 E3]; [lra|]. rewrite E1, E2 in E3.
  set (g := rd (E b - E a)) in *.
  assert (Rabs (rd (g / 2) - g / 2) <= / 4194304)%R as R2.
  { rewrite <- e22. apply rd_err. rewrite e30. apply Rabs_le. lra. }
  apply Rabs_le_inv in R2. rewrite clamp_id in E3 by lra.
  assert (F3 : is_fin (ddiv (dsub b a) (dZ 2)) = true) by (apply E_fin_iff; [exact N3|lra]).
  destruct (dadd_E a _ Fa F3) as [N4 E4]. rewrite E3 in E4.
  set (h := rd (g / 2)) in *.
  assert (Rabs (rd (E a + h) - (E a + h)) <= / 4194304)%R as R3.
  { rewrite <- e22. apply rd_err. rewrite e30. apply Rabs_le. lra. }
  apply Rabs_le_inv in R3. rewrite clamp_id in E4 by lra.
  fold m in N4, E4.
  assert (F4 : is_fin m = true) by (apply E_fin_iff; [exact N4|lra]).
  assert (Gap : (E a = E b /\ g = 0 /\ h = 0)%R \/ (E a + 9 / 100 <= E b)%R).
  { destruct (Z.eq_dec k l) as [->|Hne].
    - left. assert (E a = E b) as Q by congruence. split; [exact Q|].
      assert (g = 0)%R as G0 by (unfold g; rewrite Q, Rminus_diag_eq by reflexivity; apply rd_0).
      split; [exact G0|]. unfold h. rewrite G0. replace (0 / 2)%R with 0%R by lra. apply rd_0.
    - right. assert (IZR k + 1 <= IZR l)%R by (rewrite <- plus_IZR; apply IZR_le; lia). lra. }
  split; [exact F4|].
  assert (Q : (E a <= E m <= E b)%R).
  { rewrite E4. destruct Gap as [(Q1 & Q2 & Q3)|Q].
    - rewrite Q3, Rplus_0_r, rd_E by exact Fa. lra.
    - lra. }
  split; [apply dle_E; auto using fin_nn; lra|]. split; [apply dle_E; auto using fin_nn; lra|].
  rewrite E4. apply Rabs_le. lra.
Qed.

(** A non-negative computed difference of rounded coordinates. *)
Lemma dsub_nonneg_le a b : rounded1 a -> rounded1 b -> (0 <= E (dsub b a))%R -> dle a b = true.
Proof.
  intros Ha Hb H. destruct (rounded1_tenth a Ha) as [k K]. destruct (rounded1_tenth b Hb) as [l L].
  rewrite (dle_tenth k l a b K L). apply Z.leb_le.
  pose proof (tenth_err _ _ K) as [A1 A2]. pose proof (tenth_err _ _ L) as [B1 B2].
  destruct K as (Kk & Fa & Ea), L as (Ll & Fb & Eb). pose proof M_big as MB.
  apply Rabs_le_inv in A1, A2, B1, B2.
  destruct (dsub_E b a Fb Fa) as [N1 E1].
  assert (Rabs (rd (E b - E a) - (E b - E a)) <= / 4194304)%R as R1.
  { rewrite <- e22. apply rd_err. rewrite e30. apply Rabs_le. lra. }
  apply Rabs_le_inv in R1. rewrite clamp_id in E1 by lra.
  destruct (Z_lt_le_dec l k) as [Q|Q]; [|exact Q].
  assert (IZR l + 1 <= IZR k)%R by (rewrite <- plus_IZR; apply IZR_le; lia). lra.
Qed.
Lemma gap_nonneg g mg : is_fin mg = true -> dle TOL mg = true -> equalOrLarger g mg TOL = true -> nn g /\ (0 <= E g)%R.
Proof.
  intros F H G. unfold equalOrLarger, dge in G. destruct (dle_nn _ _ G) as [N1 N2]. split; [exact N2|].
  apply dle_E in G; auto. apply dle_E in H; auto using fin_nn, TOL_fin.
  pose proof (dsub_pos_fin_sign mg TOL F TOL_fin H). lra.
Qed.

Section P.
  Context {A : Type} (pos : A -> position).
  Context (impl : (A -> A -> bool) -> list A -> list A) (topi : (A -> A -> bool) -> list A -> nat).
  Context (Himpl : sort_ok impl) (Htop : top_ok topi).
  Notation cut := (cut A).

  Definition x_placed (y1 y2 : double) (c : cut) : Prop :=
    cut_x1 c = dadd (rightX (pos (cut_before c))) (ddiv (computeHorizontalGap (pos (cut_before c)) (pos (cut_after c))) (dZ 2)) /\
    cut_x2 c = cut_x1 c /\ cut_y1 c = y1 /\ cut_y2 c = y2 /\ cut_page c = pageNum (pos (cut_after c)) /\
    cut_gapHeight c = dsub y2 y1.
  Lemma find_gap_placed mg y1 y2 p e prevs : forall ov c, find_gap pos mg y1 y2 p e ov prevs = Some c -> x_placed y1 y2 c.
  Proof.
    induction prevs as [|prev t IH]; intros ov c H; cbn [find_gap] in H; [discriminate|].
    destruct (equalOrLarger _ mg TOL) eqn:G.
    - assert (Q : mkCut (pageNum (pos e)) (dadd (rightX (pos prev)) (ddiv (computeHorizontalGap (pos prev) (pos e)) (dZ 2))) y1
        (dadd (rightX (pos prev)) (ddiv (computeHorizontalGap (pos prev) (pos e)) (dZ 2))) y2 false prev e
        (computeHorizontalGap (pos prev) (pos e)) (dsub y2 y1) ov p = c) by (inversion H; reflexivity).
      rewrite <- Q. unfold x_placed. cbn [cut_x1 cut_x2 cut_y1 cut_y2 cut_before cut_after cut_page cut_gapHeight].
      repeat split.
    - exact (IH _ _ H).
  Qed.
  Lemma x_scan_placed mg y1 y2 cap rest : forall p q cs, x_scan pos impl topi mg y1 y2 cap p q rest = Ok cs ->
    forall c, In c cs -> x_placed y1 y2 c.
  Proof.
    induction rest as [|e t IH]; intros p q cs H c Hc; cbn [x_scan] in H.
    - assert (cs = []) as -> by (inversion H; reflexivity). destruct Hc.
    - inv_do H. inv_do H. inv_do H. inv_do H.
      assert (Q : opt_list (find_gap pos mg y1 y2 p e [] a) ++ a2 = cs) by (inversion H; reflexivity).
      rewrite <- Q in Hc. apply in_app_or in Hc as [Hc|Hc].
      + destruct (find_gap pos mg y1 y2 p e [] a) as [c'|] eqn:F; [|destruct Hc]. destruct Hc as [<-|[]]. exact (find_gap_placed _ _ _ _ _ _ _ _ F).
      + exact (IH _ _ _ E2 c Hc).
  Qed.
  Definition y_placed (x1 x2 : double) (c : cut) : Prop :=
    cut_y1 c = dadd (lowerY (pos (cut_before c))) (ddiv (computeVerticalGap (pos (cut_before c)) (pos (cut_after c))) (dZ 2)) /\
    cut_y2 c = cut_y1 c /\ cut_x1 c = x1 /\ cut_x2 c = x2 /\ cut_page c = pageNum (pos (cut_after c)) /\
    cut_gapWidth c = dsub x2 x1.
  Lemma y_scan_placed mg x1 x2 rest : forall p m c, In c (y_scan pos mg x1 x2 p m rest) -> y_placed x1 x2 c.
  Proof.
    induction rest as [|e t IH]; intros p m c Hc; cbn [y_scan] in Hc; [destruct Hc|].
    apply in_app_or in Hc as [Hc|Hc]; [|exact (IH _ _ _ Hc)].
    destruct (equalOrLarger _ mg TOL); [|destruct Hc]. destruct Hc as [<-|[]].
    unfold y_placed. cbn [cut_x1 cut_x2 cut_y1 cut_y2 cut_before cut_after cut_page cut_gapWidth]. repeat split.
  Qed.

  Lemma fold_map_pos (f : double -> double -> double) (g : position -> double) (l : list A) : forall a,
    fold_left (fun m e => f m (g (pos e))) l a = fold_left (fun m p => f m (g p)) (map pos l) a.
  Proof. induction l as [|x l IH]; intros a; cbn [fold_left map]; auto. Qed.
  Lemma run_spans (gmin gmax : position -> double) (l : list A) :
    (forall e, In e l -> nn (gmin (pos e)) /\ nn (gmax (pos e))) ->
    forall e, In e l ->
      dle (fold_left (fun m e => minimum m (gmin (pos e))) l DBL_MAX) (gmin (pos e)) = true /\
      dle (gmax (pos e)) (fold_left (fun m e => maximum m (gmax (pos e))) l DBL_MIN) = true.
  Proof.
    intros Hn e He. rewrite (fold_map_pos minimum gmin), (fold_map_pos maximum gmax). split.
    - apply nn_min_run; [reflexivity| |apply in_map; exact He]. intros p Hp. apply in_map_iff in Hp as (x & <- & Hx). apply Hn. exact Hx.
    - apply nn_max_run; [reflexivity| |apply in_map; exact He]. intros p Hp. apply in_map_iff in Hp as (x & <- & Hx). apply Hn. exact Hx.
  Qed.

  Lemma xCut_place mg k choose elements b gs cs : xCut pos impl topi mg k choose elements = Ok (b, gs, cs) ->
    (forall e, In e elements -> nn_pos (pos e)) ->
    forall c, In c cs ->
      cut_x1 c = dadd (rightX (pos (cut_before c))) (ddiv (computeHorizontalGap (pos (cut_before c)) (pos (cut_after c))) (dZ 2)) /\
      cut_x2 c = cut_x1 c /\ cut_page c = pageNum (pos (cut_after c)) /\ cut_gapHeight c = dsub (cut_y2 c) (cut_y1 c) /\
      forall e, In e elements -> dle (cut_y1 c) (upperY (pos e)) = true /\ dle (lowerY (pos e)) (cut_y2 c) = true.
  Proof.
    intros H Hn c Hc. unfold xCut in H. destruct elements as [|e0 l].
    { assert (cs = []) as -> by (inversion H; reflexivity). destruct Hc. }
    set (el := e0 :: l) in *. inv_do H. destruct a as [|e1 rest]; [discriminate|]. inv_do H. inv_do H.
    pose proof (std_sort_perm impl _ _ _ Himpl E) as HP.
    unfold finish in H. inv_do H. inv_do H.
    assert (Q : apply_flags a0 a1 = cs) by (inversion H; reflexivity). rewrite <- Q in Hc.
    apply apply_flags_in in Hc as (c0 & Hc0 & b0 & ->).
    destruct (x_scan_placed _ _ _ _ _ _ _ _ E1 c0 Hc0) as (P1 & P2 & P3 & P4 & P5 & P6).
    cbn [set_chosen cut_x1 cut_x2 cut_y1 cut_y2 cut_before cut_after cut_page cut_gapHeight].
    split; [exact P1|]. split; [exact P2|]. split; [exact P5|]. split; [rewrite P3, P4; exact P6|].
    intros e He. rewrite P3, P4. apply (run_spans upperY lowerY (e1 :: rest)).
    - intros x Hx. apply (Permutation_in _ (Permutation_sym HP)) in Hx. destruct (Hn x Hx) as (? & ? & ? & ?). split; assumption.
    - apply (Permutation_in _ HP). exact He.
  Qed.
  Lemma yCut_place mg choose elements b gs cs : yCut pos impl mg choose elements = Ok (b, gs, cs) ->
    (forall e, In e elements -> nn_pos (pos e)) ->
    forall c, In c cs ->
      cut_y1 c = dadd (lowerY (pos (cut_before c))) (ddiv (computeVerticalGap (pos (cut_before c)) (pos (cut_after c))) (dZ 2)) /\
      cut_y2 c = cut_y1 c /\ cut_page c = pageNum (pos (cut_after c)) /\ cut_gapWidth c = dsub (cut_x2 c) (cut_x1 c) /\
      forall e, In e elements -> dle (cut_x1 c) (leftX (pos e)) = true /\ dle (rightX (pos e)) (cut_x2 c) = true.
  Proof.
    intros H Hn c Hc. unfold yCut in H. destruct elements as [|e0 l].
    { assert (cs = []) as -> by (inversion H; reflexivity). destruct Hc. }
    set (el := e0 :: l) in *. inv_do H. destruct a as [|e1 rest]; [discriminate|].
    pose proof (std_sort_perm impl _ _ _ Himpl E) as HP.
    match type of H with finish _ ?cc _ = _ => set (cands := cc) in * end.
    assert (HY : forall c, In c cands -> y_placed (fold_left (fun m e => minimum m (leftX (pos e))) (e1 :: rest) DBL_MAX)
       (fold_left (fun m e => maximum m (rightX (pos e))) (e1 :: rest) DBL_MIN) c) by (intros c1 Hc1; exact (y_scan_placed _ _ _ _ _ _ _ Hc1)).
    clearbody cands.
    unfold finish in H. inv_do H. inv_do H.
    assert (Q : apply_flags cands a = cs) by (inversion H; reflexivity). rewrite <- Q in Hc.
    apply apply_flags_in in Hc as (c0 & Hc0 & b0 & ->).
    destruct (HY c0 Hc0) as (P1 & P2 & P3 & P4 & P5 & P6).
    cbn [set_chosen cut_x1 cut_x2 cut_y1 cut_y2 cut_before cut_after cut_page cut_gapWidth].
    split; [exact P1|]. split; [exact P2|]. split; [exact P5|]. split; [rewrite P3, P4; exact P6|].
    intros e He. rewrite P3, P4. apply (run_spans leftX rightX (e1 :: rest)).
    - intros x Hx. apply (Permutation_in _ (Permutation_sym HP)) in Hx. destruct (Hn x Hx) as (? & ? & ? & ?). split; assumption.
    - apply (Permutation_in _ HP). exact He.
  Qed.
End P.

(** With proper boxes, [p] not right of [q], and a sufficiently wide gap: the middle lies in the gap. *)
Lemma hgap_middle p q mg : proper_box p -> proper_box q -> smaller (leftX q) (leftX p) TOL = false ->
  is_fin mg = true -> dle TOL mg = true -> equalOrLarger (computeHorizontalGap p q) mg TOL = true ->
  let x := dadd (rightX p) (ddiv (computeHorizontalGap p q) (dZ 2)) in
  dle (rightX p) x = true /\ dle x (leftX q) = true /\ (Rabs (E x - (E (rightX p) + E (leftX q)) / 2) <= / 1000000)%R.
Proof.
  intros ((PL & PU & PR & PO) & (U2 & U3) & PW & PH) ((QL & QU & QR & QO) & (V2 & V3) & QW & QH) S F T G x.
  destruct (gap_nonneg _ _ F T G) as [N G0].
  assert (S' : dle (leftX p) (leftX q) = true).
  { destruct (rounded_comparisons (leftX q) (leftX p) QL PL) as (_ & Q & _). rewrite Q in S.
    destruct (rounded1_tenth _ PL) as [k K]. destruct (rounded1_tenth _ QL) as [l L].
    rewrite (dlt_tenth l k _ _ L K) in S. rewrite (dle_tenth k l _ _ K L). apply Z.ltb_ge in S. apply Z.leb_le. exact S. }
  assert (Q : computeHorizontalGap p q = dsub (leftX q) (rightX p) /\ dle (rightX p) (leftX q) = true).
  { unfold computeHorizontalGap in *. destruct (smaller (leftX p) (leftX q) TOL).
    - assert (Q : (match rotation p with 2 | 3 => dsub (rightX p) (leftX q) | _ => dsub (leftX q) (rightX p) end)%Z = dsub (leftX q) (rightX p))
        by (destruct (rotation p) as [|[[]|[]|]|]; try congruence; reflexivity).
      rewrite Q in *. split; [reflexivity|]. apply dsub_nonneg_le; auto.
    - exfalso. assert (Q : (match rotation q with 2 | 3 => dsub (rightX q) (leftX p) | _ => dsub (leftX p) (rightX q) end)%Z = dsub (leftX p) (rightX q))
        by (destruct (rotation q) as [|[[]|[]|]|]; try congruence; reflexivity).
      rewrite Q in *. apply dsub_nonneg_le in G0; auto.
      pose proof (dle_lt_trans _ _ _ S' QW) as Z1. pose proof (dlt_le_trans _ _ _ Z1 G0) as Z2. rewrite dlt_irrefl in Z2. discriminate. }
  destruct Q as [Q1 Q2]. unfold x. rewrite Q1. destruct (mid_between (rightX p) (leftX q) PR QL Q2) as (_ & M1 & M2 & M3).
  split; [exact M1|]. split; [exact M2|exact M3].
Qed.
Lemma vgap_middle p q mg : proper_box p -> proper_box q -> smaller (upperY q) (upperY p) TOL = false ->
  is_fin mg = true -> dle TOL mg = true -> equalOrLarger (computeVerticalGap p q) mg TOL = true ->
  let y := dadd (lowerY p) (ddiv (computeVerticalGap p q) (dZ 2)) in
  dle (lowerY p) y = true /\ dle y (upperY q) = true /\ (Rabs (E y - (E (lowerY p) + E (upperY q)) / 2) <= / 1000000)%R.
Proof.
  intros ((PL & PU & PR & PO) & (U2 & U3) & PW & PH) ((QL & QU & QR & QO) & (V2 & V3) & QW & QH) S F T G x.
  destruct (gap_nonneg _ _ F T G) as [N G0].
  assert (S' : dle (upperY p) (upperY q) = true).
  { destruct (rounded_comparisons (upperY q) (upperY p) QU PU) as (_ & Q & _). rewrite Q in S.
    destruct (rounded1_tenth _ PU) as [k K]. destruct (rounded1_tenth _ QU) as [l L].
    rewrite (dlt_tenth l k _ _ L K) in S. rewrite (dle_tenth k l _ _ K L). apply Z.ltb_ge in S. apply Z.leb_le. exact S. }
  assert (Q : computeVerticalGap p q = dsub (upperY q) (lowerY p) /\ dle (lowerY p) (upperY q) = true).
  { unfold computeVerticalGap in *. destruct (smaller (upperY p) (upperY q) TOL).
    - assert (Q : (match rotation p with 2 | 3 => dsub (lowerY p) (upperY q) | _ => dsub (upperY q) (lowerY p) end)%Z = dsub (upperY q) (lowerY p))
        by (destruct (rotation p) as [|[[]|[]|]|]; try congruence; reflexivity).
      rewrite Q in *. split; [reflexivity|]. apply dsub_nonneg_le; auto.
    - exfalso. assert (Q : (match rotation q with 2 | 3 => dsub (lowerY q) (upperY p) | _ => dsub (upperY p) (lowerY q) end)%Z = dsub (upperY p) (lowerY q))
        by (destruct (rotation q) as [|[[]|[]|]|]; try congruence; reflexivity).
      rewrite Q in *. apply dsub_nonneg_le in G0; auto.
      pose proof (dle_lt_trans _ _ _ S' QH) as Z1. pose proof (dlt_le_trans _ _ _ Z1 G0) as Z2. rewrite dlt_irrefl in Z2. discriminate. }
  destruct Q as [Q1 Q2]. unfold x. rewrite Q1. destruct (mid_between (lowerY p) (upperY q) PO QU Q2) as (_ & M1 & M2 & M3).
  split; [exact M1|]. split; [exact M2|exact M3].
Qed.
Lemma proper_nn p : proper_box p -> nn_pos p.
Proof.
  intros ((PL & PU & PR & PO) & _). assert (forall d, rounded1 d -> nn d) as N.
  { intros d D. destruct (rounded1_tenth d D) as [k (_ & F & _)]. apply fin_nn. exact F. }
  split; [apply N; exact PL|]. split; [apply N; exact PU|]. split; [apply N; exact PR|apply N; exact PO].
Qed.
