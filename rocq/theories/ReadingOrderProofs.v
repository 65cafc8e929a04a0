(** ReadingOrderProofs.v - proofs about the reading order detection. *)
From Coq Require Import ZArith NArith Reals Lra.
From Verif Require Import Base Double DoubleFacts MathUtils Sort Elements GeometrySpec ElementsProofs GridProofs Counter XYCut
  XYCutSpec XYCutProofs XYOrderProofs Document PageSegmentation SegmentationSpec SegmentationProofs ReadingOrder.
Local Opaque TOL dZ dadd dsub ddiv DBL_MAX DBL_MIN.

Section P.
  Context (impl : (relem -> relem -> bool) -> list relem -> list relem)
          (topi : (relem -> relem -> bool) -> list relem -> nat) (cw ch : double).
  Context (Himpl : sort_ok impl) (Htop : top_ok topi).
  Notation cut := (cut relem).
  Notation groups_of := (ro_groups impl topi cw ch).

  Section Ord.
    Context (Q : relem -> Prop) (Rx Ry : relem -> relem -> Prop).
    Context (HX : forall c el b gs cs, (forall e, In e el -> Q e) -> xCut re_pos impl topi minCutGap 0 c el = Ok (b, gs, cs) -> ForallOrdPairs (cross Rx) gs).
    Context (HY : forall c el b gs cs, (forall e, In e el -> Q e) -> yCut re_pos impl minCutGap c el = Ok (b, gs, cs) -> ForallOrdPairs (cross Ry) gs).
    Notation gord := (ForallOrdPairs (cross (Rxy Rx Ry))).
    Lemma xdiv mg k c el b gs cs : xCut re_pos impl topi mg k c el = Ok (b, gs, cs) -> Permutation (concat gs) el.
    Proof.
      intros H. apply (xCut_spec re_pos impl topi Himpl Htop) in H as [(-> & _ & -> & _)|(s & cands & fl & _ & _ & Hd & _)]; [constructor|].
      eapply division_concat; eauto.
    Qed.
    Lemma ydiv mg c el b gs cs : yCut re_pos impl mg c el = Ok (b, gs, cs) -> Permutation (concat gs) el.
    Proof.
      intros H. apply (yCut_spec re_pos impl Himpl) in H as [(-> & _ & -> & _)|(s & cands & fl & _ & _ & Hd & _)]; [constructor|].
      eapply division_concat; eauto.
    Qed.
    Lemma ro_groups_spec el r : (forall e, In e el -> Q e) -> groups_of el = Some (Ok r) ->
      gord (fst r) /\ Permutation el (concat (fst r)) /\ forall g, In g (fst r) -> g <> [].
    Proof.
      intros HQ H. unfold ro_groups in H.
      match type of H with rbind (Some ?m) _ = _ => destruct m as [[[bx xg] xc]|w|w] eqn:Ex; cbn [rbind] in H; try discriminate end.
      match type of H with rbind ?m _ = _ => destruct m as [[r1|w|w]|] eqn:E1; cbn in H; try discriminate end.
      injection H as <-. cbn [fst]. pose proof (xdiv _ _ _ _ _ _ _ Ex) as Px.
      assert (forall g r', In g xg ->
        rbind (Some (yCut re_pos impl minCutGap (choosePrimaryYCuts cw
           (fold_left (fun m e => minimum m (leftX (re_pos e))) el DBL_MAX) (fold_left (fun m e => maximum m (rightX (re_pos e))) el DBL_MIN)) g)) (fun ry =>
            let '(_, yGroups, yCuts) := ry in
            rbind (for_groups (fun g => xyCut re_pos impl topi (length g) minCutGap minCutGap 0 ro_chooseXCuts (ro_chooseYCuts impl topi) g)
                     yGroups)
              (fun r => Some (Ok (fst r, yCuts ++ snd r)))) = Some (Ok r') ->
        gord (fst r') /\ partition_of g (fst r')) as Hg.
      { intros g r' Hg E.
        assert (forall e, In e g -> Q e) as HQg by (intros e He; apply HQ, (Permutation_in _ Px), in_concat; eauto).
        match type of E with rbind (Some ?m) _ = _ => destruct m as [[[by_ yg] yc]|w|w] eqn:Ey; cbn [rbind] in E; try discriminate end.
        match type of E with rbind ?m _ = _ => destruct m as [[r2|w|w]|] eqn:E2; cbn in E; try discriminate end.
        injection E as <-. cbn [fst]. pose proof (ydiv _ _ _ _ _ _ Ey) as Py.
        destruct (for_groups_ord Rx Ry _ _ _ E2) as [O2 _].
        - eapply FOP_impl; [|eapply HY; [|exact Ey]; exact HQg]. intros g1 g2 Hc x y Hx Hy. right; auto.
        - intros g' r' Hg' E'. eapply (xyCut_ord re_pos impl topi Himpl Htop Q Rx Ry); [| |intros e He; apply HQg, (Permutation_in _ Py), in_concat; eauto|exact E']; eauto.
        - split; [exact O2|].
          destruct (for_groups_good re_pos impl minCutGap (ro_chooseYCuts impl topi) _ _ _ E2) as [[P2 N2] _].
          + intros g' r' Hg' E'. eapply xyCut_good; eauto.
          + split; auto. rewrite <- Py. exact P2. }
      destruct (for_groups_ord Rx Ry _ _ _ E1) as [O1 _].
      - eapply FOP_impl; [|eapply HX; [|exact Ex]; exact HQ]. intros g1 g2 Hc x y Hx Hy. left; auto.
      - intros g r' Hgin E. destruct (Hg g r' Hgin E) as [O [P N]]. split; auto. intros x Hx. apply (Permutation_in _ (Permutation_sym P)); auto.
      - split; [exact O1|].
        assert (partition_of (concat xg) (fst r1)) as [P1 N1]; [|split; auto; rewrite <- Px; exact P1].
        clear -Hg E1. revert r1 E1 Hg. generalize el at 1 2 3 4. intros el' r1 E1.
        revert r1 E1. induction xg as [|g t IH]; intros r1 E1 Hg.
        + injection E1 as <-. split; [constructor|intros ? []].
        + cbn [for_groups] in E1.
          match type of E1 with rbind ?m _ = _ => destruct m as [[ra|w|w]|] eqn:Ea; cbn [rbind] in E1; try discriminate end.
          match type of E1 with rbind ?m _ = _ => destruct m as [[rb|w|w]|] eqn:Eb; cbn [rbind] in E1; try discriminate end.
          injection E1 as <-. cbn [fst concat].
          destruct (Hg g ra (or_introl eq_refl) Ea) as [_ [Pa Na]].
          destruct (IH rb eq_refl) as [Pb Nb]. { intros g' r' Hg'. apply Hg. right; auto. }
          split; [rewrite concat_app, <- Pa, <- Pb; reflexivity|]. intros x Hx. apply in_app_or in Hx as [Hx|Hx]; auto.
    Qed.
  End Ord.

  (** *** Sorting the groups *)
  Lemma blocks_of_app a b : blocks_of (a ++ b) = blocks_of a ++ blocks_of b.
  Proof. apply flat_map_app. Qed.
  Lemma blocks_of_perm a b : Permutation a b -> Permutation (blocks_of a) (blocks_of b).
  Proof.
    induction 1 as [|x a b H IH|x y a|a b c H1 IH1 H2 IH2]; cbn.
    - constructor.
    - apply Permutation_app_head. exact IH.
    - rewrite !app_assoc. apply Permutation_app_tail, Permutation_app_comm.
    - transitivity (blocks_of b); auto.
  Qed.
  Lemma blocks_of_elements p : blocks_of (ro_elements p) = p_blocks p.
  Proof.
    unfold ro_elements. rewrite !blocks_of_app.
    assert (blocks_of (map RBlock (p_blocks p)) = p_blocks p) as ->.
    { unfold blocks_of. induction (p_blocks p) as [|b l IH]; cbn; [reflexivity|]. f_equal. exact IH. }
    assert (forall l, blocks_of (map RFigure l) = []) as -> by (induction l; auto).
    assert (forall l, blocks_of (map RShape l) = []) as -> by (induction l; auto).
    rewrite !app_nil_r. reflexivity.
  Qed.
  Lemma sort_groups_spec gs : forall bs, sort_groups impl gs = Ok bs ->
    exists ss, bs = blocks_of (concat ss) /\ Forall2 (fun g s => Permutation g s /\ ordered upperYLess s) gs ss.
  Proof.
    induction gs as [|g t IH]; intros bs H; cbn in H.
    - injection H as <-. exists []. split; auto.
    - destruct (std_sort impl upperYLess g) as [s|w|w] eqn:E; try discriminate. cbn in H.
      destruct (sort_groups impl t) as [r|w|w]; try discriminate. injection H as <-.
      destruct (IH r eq_refl) as (ss & -> & HF). exists (s :: ss). cbn [concat]. rewrite blocks_of_app. split; auto.
      constructor; auto. unfold std_sort in E. destruct (swo_b upperYLess g) eqn:X; [|discriminate]. injection E as <-.
      apply Himpl. apply swo_b_spec. exact X.
  Qed.
  Lemma sort_groups_perm gs bs : sort_groups impl gs = Ok bs -> Permutation (blocks_of (concat gs)) bs.
  Proof.
    intros H. apply sort_groups_spec in H as (ss & -> & HF). apply blocks_of_perm.
    induction HF as [|g s gs ss [HP _] _ IH]; cbn; [constructor|]. apply Permutation_app; auto.
  Qed.
  Lemma upperYLess_swo l : (forall e, In e l -> nn (upperY (re_pos e))) -> swo upperYLess l.
  Proof.
    intros H. unfold swo, incomp, upperYLess. split; [|split].
    - intros x Hx. apply dlt_irrefl.
    - intros x y z _ _ _. apply dlt_trans.
    - intros x y z Hx Hy Hz. apply H in Hx, Hy, Hz. rewrite !andb_true_iff, !negb_true_iff. rewrite !dlt_Ef by auto. lra.
  Qed.
  Lemma sort_groups_ok gs : (forall g e, In g gs -> In e g -> nn (upperY (re_pos e))) -> exists bs, sort_groups impl gs = Ok bs.
  Proof.
    induction gs as [|g t IH]; intros H; cbn; [eauto|].
    destruct (std_sort_spec impl upperYLess g Himpl) as (s & -> & _). { apply upperYLess_swo. intros e He. apply (H g); [left|]; auto. }
    cbn. destruct IH as [r ->]. { intros g' e Hg'. apply H. right; auto. } cbn. eauto.
  Qed.

  (** *** The choosers return *)
  Lemma ro_x_total : total_chooser re_pos ro_chooseXCuts.
  Proof. intros cands s _ _. unfold ro_chooseXCuts. eauto. Qed.
  Lemma primary_x_total a b : total_chooser re_pos (choosePrimaryXCuts ch a b).
  Proof. intros cands s _ _. unfold choosePrimaryXCuts. destruct s; eauto. Qed.
  Lemma primary_y_total a b : total_chooser re_pos (choosePrimaryYCuts cw a b).
  Proof. intros cands s _ _. unfold choosePrimaryYCuts. destruct s; eauto. Qed.
  Lemma divisible_ok el lo hi : parsed re_pos el -> lo <= hi <= length el -> exists b, divisible impl topi el lo hi = Ok b.
  Proof.
    intros Hp Hr. unfold divisible. rewrite (proj2 (Nat.leb_le lo hi)), (proj2 (Nat.leb_le hi (length el))) by lia. cbn [andb].
    destruct (xCut_ok re_pos impl topi Himpl Htop minCutGap 0 ro_chooseXCuts (firstn (hi - lo) (skipn lo el))) as [r ->].
    - reflexivity.
    - intros e He. apply Hp. eapply in_stripe. exact He.
    - apply ro_x_total.
    - cbn. eauto.
  Qed.
  Lemma find_index_ok test is : (forall i, In i is -> exists b, test i = Ok b) -> exists r, find_index test is = Ok r.
  Proof.
    induction is as [|i t IH]; intros H; cbn; [eauto|]. destruct (H i (or_introl eq_refl)) as [b ->]. cbn.
    destruct b; eauto. apply IH. intros; apply H; right; auto.
  Qed.
  Lemma find_index_spec test is : forall r, find_index test is = Ok r ->
    match r with
    | Some i => exists l1 l2, is = l1 ++ i :: l2 /\ test i = Ok true /\ forall j, In j l1 -> test j = Ok false
    | None => forall j, In j is -> test j = Ok false
    end.
  Proof.
    induction is as [|i t IH]; intros r H; cbn in H; [injection H as <-; intros j []|].
    destruct (test i) as [b|w|w] eqn:E; try discriminate. cbn in H. destruct b.
    - injection H as <-. exists [], t. split; auto. split; auto. intros j [].
    - apply IH in H. destruct r as [k|].
      + destruct H as (l1 & l2 & -> & H1 & H2). exists (i :: l1), l2. split; auto. split; auto. intros j [<-|Hj]; auto.
      + intros j [<-|Hj]; auto.
  Qed.
  Section Cand.
    Context (el : list relem) (ps : list nat).
    Context (Hp : parsed re_pos el) (Hs : StronglySorted lt ps) (Hr : forall p, In p ps -> p < length el).
    Lemma sorted_nth i j a b : i <= j -> nth_error ps i = Some a -> nth_error ps j = Some b -> a <= b.
    Proof.
      clear Hr. revert i j a b. induction Hs as [|x l Hl IH Hx]; intros i j a b Hij Hi Hj; [destruct i; discriminate|].
      rewrite Forall_forall in Hx. destruct i as [|i], j as [|j]; cbn in Hi, Hj; try lia.
      - injection Hi as <-. injection Hj as <-. lia.
      - injection Hi as <-. apply nth_error_In in Hj. specialize (Hx _ Hj). lia.
      - apply (IH Hl i j); auto. lia.
    Qed.
    Lemma pos_at_ok i : i < length ps -> exists p, pos_at ps i = Ok p /\ nth_error ps i = Some p /\ p < length el.
    Proof.
      intros Hi. unfold pos_at. destruct (nth_error ps i) as [p|] eqn:E; [|apply nth_error_None in E; lia].
      exists p. split; auto. split; auto. apply Hr. eapply nth_error_In; eauto.
    Qed.
    Lemma pair_loop_ok fuel : forall lst i, lst < length ps -> exists l, pair_loop impl topi fuel el ps lst i = Ok l.
    Proof.
      induction fuel as [|fuel IH]; intros lst i Hl; cbn [pair_loop]; [eauto|].
      destruct (Nat.ltb_spec i lst) as [Hlt|]; [|eauto].
      match goal with |- context [find_index ?t ?is] => destruct (find_index_ok t is) as [r ->] end.
      { intros j Hj. apply in_rev, in_seq in Hj. destruct (pos_at_ok i) as (a & -> & Ha & _); [lia|]. cbn [obind].
        destruct (pos_at_ok j) as (b & -> & Hb & Hlb); [lia|]. cbn [obind]. apply divisible_ok; auto. split; [|lia].
        apply (sorted_nth i j); auto. lia. }
      cbn [obind]. destruct r as [j|].
      - destruct (IH lst (S j) Hl) as [l ->]. cbn. eauto.
      - apply IH; auto.
    Qed.
    Lemma ro_chosen_ok : ps <> [] -> exists l, ro_chosen impl topi el ps = Ok l.
    Proof.
      intros Hne. assert (0 < length ps) as Hlen by (destruct ps; [congruence|cbn; lia]). unfold ro_chosen.
      match goal with |- context [find_index ?t ?is] => destruct (find_index_ok t is) as [low Elow] end.
      { intros j Hj. apply in_seq in Hj. destruct (pos_at_ok j) as (b & -> & Hb & Hlb); [lia|]. cbn [obind].
        apply divisible_ok; auto. lia. }
      rewrite Elow. cbn [obind].
      set (lst := match low with Some i => i | None => length ps - 1 end).
      assert (lst < length ps) as Hlst.
      { unfold lst. apply find_index_spec in Elow. destruct low as [i|]; [|lia]. destruct Elow as (l1 & l2 & Hi & _).
        assert (In i (seq 0 (length ps))) as Hin by (rewrite Hi; apply in_or_app; right; left; auto). apply in_seq in Hin. lia. }
      match goal with |- context [find_index ?t ?is] => destruct (find_index_ok t is) as [high ->] end.
      { intros j Hj. apply in_rev, in_seq in Hj. destruct (pos_at_ok j) as (b & -> & Hb & Hlb); [lia|]. cbn [obind].
        apply divisible_ok; auto. lia. }
      cbn [obind]. match goal with |- context [pair_loop ?a ?b ?c ?d ?e ?f ?g] => destruct (pair_loop_ok c f g Hlst) as [l ->] end.
      cbn. eauto.
    Qed.
  End Cand.
  Lemma ro_y_total : total_chooser re_pos (ro_chooseYCuts impl topi).
  Proof.
    intros cands s Hp [H1 H2]. unfold ro_chooseYCuts. destruct s as [|e es]; [eauto|]. destruct cands as [|c cs]; [eauto|].
    destruct (ro_chosen_ok (e :: es) (map cut_pos (c :: cs)) Hp H1) as [l ->]; [|discriminate|].
    - intros p Hin. apply in_map_iff in Hin as (d & <- & Hd). apply H2; auto.
    - cbn. eauto.
  Qed.

  (** *** Which cuts are chosen *)
  Definition rdiv (el : list relem) (lo hi : nat) : Prop :=
    exists gs cs, xCut re_pos impl topi minCutGap 0 ro_chooseXCuts (stripe el lo hi) = Ok (true, gs, cs).
  Lemma divisible_spec el lo hi b : divisible impl topi el lo hi = Ok b -> (b = true <-> rdiv el lo hi).
  Proof.
    unfold divisible, rdiv, stripe. destruct (_ && _); [|discriminate]. intros H.
    destruct (xCut re_pos impl topi minCutGap 0 ro_chooseXCuts (firstn (hi - lo) (skipn lo el))) as [[[b' gs] cs]|w|w]; try discriminate.
    injection H as <-. cbn [fst]. split; [intros ->; eauto|]. intros (gs' & cs' & [= -> _ _]). reflexivity.
  Qed.
  Lemma pair_loop_spec el ps lst fuel : forall i l, pair_loop impl topi fuel el ps lst i = Ok l ->
    forall k, In k l -> exists a b pa pb, (k = a \/ k = b) /\ In a l /\ In b l /\ i <= a /\ a <= b <= lst /\
      nth_error ps a = Some pa /\ nth_error ps b = Some pb /\ rdiv el pa pb.
  Proof.
    induction fuel as [|fuel IH]; intros i l H k Hk; cbn [pair_loop] in H; [injection H as <-; destruct Hk|].
    destruct (Nat.ltb_spec i lst) as [Hlt|]; [|injection H as <-; destruct Hk].
    match type of H with obind ?m _ = _ => destruct m as [[j|]|w|w] eqn:E; cbn [obind] in H; try discriminate end.
    - destruct (pair_loop impl topi fuel el ps lst (S j)) as [l'|w|w] eqn:E'; try discriminate. injection H as <-.
      apply find_index_spec in E. destruct E as (l1 & l2 & Hi & Ht & _).
      assert (In j (rev (seq i (lst + 1 - i)))) as Hin by (rewrite Hi; apply in_or_app; right; left; auto).
      apply in_rev, in_seq in Hin. unfold pos_at in Ht. destruct (nth_error ps i) as [pa|] eqn:Ea; [|discriminate]. cbn [obind] in Ht.
      destruct (nth_error ps j) as [pb|] eqn:Eb; [|discriminate]. cbn [obind] in Ht. apply divisible_spec in Ht.
      assert (rdiv el pa pb) as Hd by (apply Ht; auto).
      destruct Hk as [<-|[<-|Hk]].
      1,2: exists i, j, pa, pb; repeat split; auto; try lia; cbn; auto.
      destruct (IH _ _ E' k Hk) as (a & b & qa & qb & H1 & H2 & H3 & H4 & H5 & H6 & H7 & H8).
      exists a, b, qa, qb. repeat split; auto; try lia; cbn; auto.
    - destruct (IH _ _ H k Hk) as (a & b & qa & qb & H1 & H2 & H3 & H4 & H5 & H6 & H7 & H8).
      exists a, b, qa, qb. repeat split; auto; try lia.
  Qed.
  (** Why a cut is chosen. *)
  Lemma ro_chosen_spec el ps l : ro_chosen impl topi el ps = Ok l -> forall k, In k l ->
    exists p, nth_error ps k = Some p /\
      (rdiv el p (length el) \/ rdiv el 0 p \/
       exists j q, In j l /\ nth_error ps j = Some q /\ (k <= j /\ rdiv el p q \/ j <= k /\ rdiv el q p)).
  Proof.
    intros H k Hk. unfold ro_chosen in H.
    match type of H with obind ?m _ = _ => destruct m as [low|w|w] eqn:E1; cbn [obind] in H; try discriminate end.
    match type of H with obind ?m _ = _ => destruct m as [high|w|w] eqn:E2; cbn [obind] in H; try discriminate end.
    match type of H with obind ?m _ = _ => destruct m as [prs|w|w] eqn:E3; cbn [obind] in H; try discriminate end.
    injection H as <-. apply in_app_iff in Hk as [Hk|Hk].
    - destruct low as [i|]; [|destruct Hk]. destruct Hk as [<-|[]]. apply find_index_spec in E1. destruct E1 as (l1 & l2 & _ & Ht & _).
      unfold pos_at in Ht. destruct (nth_error ps i) as [p|] eqn:Ep; [|discriminate]. cbn [obind] in Ht. apply divisible_spec in Ht.
      exists p. split; auto. left. apply Ht; auto.
    - apply in_app_iff in Hk as [Hk|Hk].
      + destruct high as [i|]; [|destruct Hk]. destruct Hk as [<-|[]]. apply find_index_spec in E2. destruct E2 as (l1 & l2 & _ & Ht & _).
        unfold pos_at in Ht. destruct (nth_error ps i) as [p|] eqn:Ep; [|discriminate]. cbn [obind] in Ht. apply divisible_spec in Ht.
        exists p. split; auto. right; left. apply Ht; auto.
      + destruct (pair_loop_spec _ _ _ _ _ _ E3 k Hk) as (a & b & pa & pb & [->| ->] & Ha & Hb & _ & Hab & Ea & Eb & Hd).
        * exists pa. split; auto. right; right. exists b, pb. rewrite !in_app_iff. split; auto. split; auto. left. split; [lia|auto].
        * exists pb. split; auto. right; right. exists a, pa. rewrite !in_app_iff. split; auto. split; auto. right. split; [lia|auto].
  Qed.
  (** The topmost cut below which all elements can be divided is chosen. *)
  Lemma ro_chosen_low el ps l : ro_chosen impl topi el ps = Ok l -> forall i p, nth_error ps i = Some p -> rdiv el p (length el) ->
    (forall j q, j < i -> nth_error ps j = Some q -> ~ rdiv el q (length el)) -> In i l.
  Proof.
    intros H i p Hp Hd Hmin. unfold ro_chosen in H.
    match type of H with obind ?m _ = _ => destruct m as [low|w|w] eqn:E1; cbn [obind] in H; try discriminate end.
    match type of H with obind ?m _ = _ => destruct m as [high|w|w] eqn:E2; cbn [obind] in H; try discriminate end.
    match type of H with obind ?m _ = _ => destruct m as [prs|w|w] eqn:E3; cbn [obind] in H; try discriminate end.
    injection H as <-. apply in_app_iff. left. apply find_index_spec in E1.
    assert (In i (seq 0 (length ps))) as Hin by (apply in_seq; split; [lia|]; apply nth_error_Some; congruence).
    assert (forall j q, nth_error ps j = Some q -> (do p <- pos_at ps j; divisible impl topi el p (length el)) = Ok false -> ~ rdiv el q (length el)) as Hf.
    { intros j q Hq Ht Hx. unfold pos_at in Ht. rewrite Hq in Ht. cbn [obind] in Ht. apply divisible_spec in Ht. apply Ht in Hx. discriminate. }
    destruct low as [k|].
    - destruct E1 as (l1 & l2 & Hi & Ht & Hl1). left.
      assert (length l1 = k) as Hk.
      { pose proof (f_equal (fun l => nth_error l (length l1)) Hi) as Hn. cbn beta in Hn. rewrite nth_error_app2, Nat.sub_diag in Hn by lia. cbn in Hn.
        assert (length l1 < length ps) as Hl. { apply (f_equal (@length nat)) in Hi. rewrite seq_length, app_length in Hi. cbn in Hi. lia. }
        rewrite (nth_error_nth' _ 0), seq_nth in Hn by (rewrite ?seq_length; auto). injection Hn as Hn. lia. }
      destruct (lt_eq_lt_dec i k) as [[Hlt|]|Hgt]; auto; exfalso.
      + apply (Hf i p Hp); auto. apply Hl1. rewrite <- Hk in Hlt.
        pose proof (f_equal (fun l => nth_error l i) Hi) as Hn. cbn beta in Hn. rewrite nth_error_app1 in Hn by auto.
        rewrite (nth_error_nth' _ 0), seq_nth in Hn by (rewrite ?seq_length; apply in_seq in Hin; lia). symmetry in Hn. apply nth_error_In in Hn. exact Hn.
      + unfold pos_at in Ht. destruct (nth_error ps k) as [q|] eqn:Eq; [|discriminate]. cbn [obind] in Ht. apply divisible_spec in Ht.
        apply (Hmin k q Hgt Eq). apply Ht; auto.
    - exfalso. apply (Hf i p Hp); auto.
  Qed.

  (** *** The whole page *)
  Lemma ro_groups_terminates el : exists r, groups_of el = Some r.
  Proof.
    unfold ro_groups.
    match goal with |- context [xCut re_pos impl topi minCutGap 0 ?c el] => destruct (xCut re_pos impl topi minCutGap 0 c el) as [[[b xg] xc]|w|w] end;
      cbn [rbind]; [|eauto|eauto].
    match goal with |- context [for_groups ?f xg] => destruct (for_groups_some f xg) as [r ->] end.
    - intros g _.
      match goal with |- context [yCut re_pos impl minCutGap ?c g] => destruct (yCut re_pos impl minCutGap c g) as [[[b' yg] yc]|w|w] end; cbn [rbind]; [|eauto|eauto].
      match goal with |- context [for_groups ?f yg] => destruct (for_groups_some f yg) as [r ->] end.
      + intros g' _. destruct (xyCut_terminates re_pos impl topi Himpl Htop minCutGap minCutGap 0 ro_chooseXCuts (ro_chooseYCuts impl topi) (length g') g' (le_n _)) as [[r Hr] _]. eauto.
      + destruct r; cbn; eauto.
    - destruct r; cbn; eauto.
  Qed.
  Lemma order_page_terminates p : exists r, order_page impl topi cw ch p = Some r.
  Proof.
    unfold order_page. destruct (ro_groups_terminates (ro_elements p)) as [[r|w|w] ->]; cbn [rbind]; [|eauto|eauto].
    destruct (sort_groups impl (fst r)); cbn; eauto.
  Qed.
  Lemma order_page_spec p p' : order_page impl topi cw ch p = Some (Ok p') ->
    exists r, groups_of (ro_elements p) = Some (Ok r) /\ sort_groups impl (fst r) = Ok (p_blocks p') /\
      p_num p' = p_num p /\ p_width p' = p_width p /\ p_height p' = p_height p /\ p_figures p' = p_figures p /\ p_shapes p' = p_shapes p.
  Proof.
    unfold order_page. intros H. destruct (groups_of (ro_elements p)) as [[r|w|w]|]; cbn [rbind] in H; try discriminate.
    destruct (sort_groups impl (fst r)) as [bs|w|w] eqn:E; cbn in H; try discriminate. injection H as <-. exists r. cbn. auto 10.
  Qed.
  Lemma order_page_perm p p' : order_page impl topi cw ch p = Some (Ok p') -> Permutation (p_blocks p) (p_blocks p').
  Proof.
    intros H. apply order_page_spec in H as (r & Hr & Hs & _).
    destruct (ro_groups_spec (fun _ => True) (fun x y => leftXAsc re_pos y x = false) (fun x y => upperYAsc re_pos y x = false)) with (el := ro_elements p) (r := r) as (_ & HP & _); auto.
    - intros. eapply xCut_sorted; eauto.
    - intros. eapply yCut_sorted; eauto.
    - apply sort_groups_perm in Hs. rewrite <- Hs. rewrite <- (blocks_of_elements p). apply blocks_of_perm. exact HP.
  Qed.
  Lemma ro_groups_ok el : parsed re_pos el -> exists r, groups_of el = Some (Ok r).
  Proof.
    intros Hp. unfold ro_groups.
    match goal with |- context [xCut re_pos impl topi minCutGap 0 ?c el] => destruct (xCut_ok re_pos impl topi Himpl Htop minCutGap 0 c el) as [[[b xg] xc] Ex] end;
      [reflexivity|exact Hp|apply primary_x_total|]. rewrite Ex. cbn [rbind].
    match goal with |- context [for_groups ?f xg] => destruct (for_groups_ok f xg) as [r ->] end.
    - intros g Hg. pose proof (xdiv _ _ _ _ _ _ _ Ex) as Px.
      assert (parsed re_pos g) as Hpg by (intros e He; apply Hp, (Permutation_in _ Px), in_concat; eauto).
      match goal with |- context [yCut re_pos impl minCutGap ?c g] => destruct (yCut_ok re_pos impl Himpl minCutGap c g) as [[[b' yg] yc] Ey] end;
        [exact Hpg|apply primary_y_total|]. rewrite Ey. cbn [rbind].
      match goal with |- context [for_groups ?f yg] => destruct (for_groups_ok f yg) as [r ->] end.
      + intros g' Hg'. apply xyCut_ok; auto; [reflexivity|apply ro_x_total|apply ro_y_total|].
        intros e He. apply Hpg, (Permutation_in _ (ydiv _ _ _ _ _ _ Ey)), in_concat. eauto.
      + cbn. eauto.
    - cbn. eauto.
  Qed.
  Lemma order_page_ok p : parsed re_pos (ro_elements p) -> exists p', order_page impl topi cw ch p = Some (Ok p').
  Proof.
    intros Hp. unfold order_page. destruct (ro_groups_ok _ Hp) as [r Hr]. rewrite Hr. cbn [rbind].
    destruct (ro_groups_spec (fun _ => True) (fun x y => leftXAsc re_pos y x = false) (fun x y => upperYAsc re_pos y x = false)) with (el := ro_elements p) (r := r) as (_ & HP & _); auto.
    { intros. eapply xCut_sorted; eauto. } { intros. eapply yCut_sorted; eauto. }
    destruct (sort_groups_ok (fst r)) as [bs ->]; [|cbn; eauto].
    intros g e Hg He. assert (stored_coordinates (re_pos e)) as (_ & Hu & _).
    { apply Hp, (Permutation_in _ (Permutation_sym HP)), in_concat. eauto. }
    destruct Hu as [Hu|Hu]; [|rewrite Hu; reflexivity]. apply rounded1_tenth in Hu as (k & _ & F & _). apply fin_nn; auto.
  Qed.
  (** The order of two blocks. *)
  Lemma concat_split {A} (ss : list (list A)) l1 x l2 y l3 : concat ss = l1 ++ x :: l2 ++ y :: l3 ->
    (exists s a b c, In s ss /\ s = a ++ x :: b ++ y :: c) \/
    (exists i j g h, i < j /\ nth_error ss i = Some g /\ nth_error ss j = Some h /\ In x g /\ In y h).
  Proof.
    revert l1. induction ss as [|s t IH]; intros l1 H; cbn in H.
    - destruct l1; discriminate.
    - assert (exists m, (s = l1 ++ x :: m /\ m ++ concat t = l2 ++ y :: l3) \/ (s ++ m = l1 /\ concat t = m ++ x :: l2 ++ y :: l3)) as [m [[Hs Hm]|[Hs Hm]]].
      { clear IH. revert l1 H. induction s as [|z s IH]; intros l1 H; cbn in H.
        - exists l1. right. auto.
        - destruct l1 as [|w l1]; cbn in H.
          + injection H as -> H. exists s. left. split; auto.
          + injection H as -> H. destruct (IH l1 H) as [m [[-> Hm]|[<- Hm]]]; exists m; [left|right]; split; auto. }
      + assert (exists m', (m = l2 ++ y :: m' /\ m' ++ concat t = l3) \/ (m ++ m' = l2 /\ concat t = m' ++ y :: l3)) as [m' [[-> _]|[_ Ht]]].
        { clear -Hm. revert l2 Hm. induction m as [|z m IH]; intros l2 Hm; cbn in Hm.
          - exists l2. right. auto.
          - destruct l2 as [|w l2]; cbn in Hm; injection Hm as -> Hm.
            + exists m. left. auto.
            + destruct (IH l2 Hm) as [m' [[-> H]|[<- H]]]; exists m'; [left|right]; auto. }
        * left. exists s, l1, l2, m'. split; [left|]; auto.
        * right. assert (In y (concat t)) as Hy by (rewrite Ht; apply in_or_app; right; left; auto).
          apply in_concat in Hy as (h & Hh & Hyh). apply In_nth_error in Hh as [j Hj].
          exists 0, (S j), s, h. split; [lia|]. repeat split; auto. rewrite Hs. apply in_or_app; right; left; auto.
      + destruct (IH m Hm) as [(s' & a & b & c & Hi & He)|(i & j & g & h & Hij & Hi & Hj & Hx & Hy)].
        * left. exists s', a, b, c. split; [right|]; auto.
        * right. exists (S i), (S j), g, h. split; [lia|]. auto.
  Qed.
  Lemma blocks_split l l1 b1 l2 b2 l3 : blocks_of l = l1 ++ b1 :: l2 ++ b2 :: l3 ->
    exists m1 m2 m3, l = m1 ++ RBlock b1 :: m2 ++ RBlock b2 :: m3.
  Proof.
    assert (forall l l1 b r, blocks_of l = l1 ++ b :: r -> exists m1 m2, l = m1 ++ RBlock b :: m2 /\ blocks_of m2 = r) as Hone.
    { clear. induction l as [|e t IH]; intros l1 b r H; [destruct l1; discriminate|]. cbn in H. destruct e as [c|e|e]; cbn in H.
      - destruct l1 as [|z l1]; cbn in H; injection H as -> H.
        + exists [], t. auto.
        + destruct (IH _ _ _ H) as (m1 & m2 & -> & Hm). exists (RBlock z :: m1), m2. auto.
      - destruct (IH _ _ _ H) as (m1 & m2 & -> & Hm). exists (RFigure e :: m1), m2. auto.
      - destruct (IH _ _ _ H) as (m1 & m2 & -> & Hm). exists (RShape e :: m1), m2. auto. }
    intros H. apply Hone in H as (m1 & m2 & -> & H). apply Hone in H as (m3 & m4 & -> & _). exists m1, m3, m4. reflexivity.
  Qed.
  Lemma Forall2_nth {A B} (R : A -> B -> Prop) l l' : Forall2 R l l' -> forall i b, nth_error l' i = Some b -> exists a, nth_error l i = Some a /\ R a b.
  Proof. induction 1; intros [|i] b Hb; cbn in *; try discriminate; [injection Hb as <-; eauto|eauto]. Qed.
  Lemma order_page_order p p' l1 b1 l2 b2 l3 : (forall e, In e (ro_elements p) -> proper_box (re_pos e)) ->
    order_page impl topi cw ch p = Some (Ok p') -> p_blocks p' = l1 ++ b1 :: l2 ++ b2 :: l3 ->
    dle (rightX (b_pos b1)) (leftX (b_pos b2)) = true \/ dle (upperY (b_pos b1)) (upperY (b_pos b2)) = true.
  Proof.
    intros HQ H Hb. apply order_page_spec in H as (r & Hr & Hs & _).
    destruct (ro_groups_spec (fun e => proper_box (re_pos e)) (fun x y => dle (rightX (re_pos x)) (leftX (re_pos y)) = true)
      (fun x y => dle (lowerY (re_pos x)) (upperY (re_pos y)) = true)) with (el := ro_elements p) (r := r) as (HO & HP & _); auto.
    { intros. eapply xCut_separates; eauto. } { intros. eapply yCut_separates; eauto. }
    apply sort_groups_spec in Hs as (ss & Hbs & HF). rewrite Hbs in Hb. apply blocks_split in Hb as (m1 & m2 & m3 & Hb).
    apply concat_split in Hb as [(s & a & b & c & Hi & He)|(i & j & g & h & Hij & Hi & Hj & Hx & Hy)].
    - apply In_nth_error in Hi as [i Hi]. apply (Forall2_nth _ _ _ HF) in Hi as (g & Hg & HPg & Hord).
      specialize (Hord a (RBlock b1) b (RBlock b2) c He). unfold upperYLess in Hord. cbn [re_pos] in Hord. right.
      assert (forall e, In e s -> nn (upperY (re_pos e))) as Hn.
      { intros e Hes. apply (Permutation_in _ (Permutation_sym HPg)) in Hes. apply nth_error_In in Hg.
        assert (In e (ro_elements p)) as Hin by (apply (Permutation_in _ (Permutation_sym HP)), in_concat; eauto).
        destruct (HQ e Hin) as ((_ & Hu & _) & _). apply rounded1_tenth in Hu as (k & _ & F & _). apply fin_nn; auto. }
      rewrite dle_negb_dlt, Hord; auto.
      + apply (Hn (RBlock b1)). rewrite He. apply in_or_app; right; left; auto.
      + apply (Hn (RBlock b2)). rewrite He. apply in_or_app; right; right; apply in_or_app; right; left; auto.
    - apply (Forall2_nth _ _ _ HF) in Hi as (g0 & Hg & HPg & _). apply (Forall2_nth _ _ _ HF) in Hj as (h0 & Hh & HPh & _).
      apply (Permutation_in _ (Permutation_sym HPg)) in Hx. apply (Permutation_in _ (Permutation_sym HPh)) in Hy.
      destruct (FOP_nth _ _ HO i j g0 h0 Hij Hg Hh _ _ Hx Hy) as [Hq|Hq]; [left; exact Hq|right].
      cbn [re_pos] in Hq. apply nth_error_In in Hg.
      assert (In (RBlock b1) (ro_elements p)) as Hin by (apply (Permutation_in _ (Permutation_sym HP)), in_concat; eauto).
      destruct (HQ _ Hin) as (_ & _ & _ & Hlt). apply dlt_dle in Hlt. eapply dle_trans; eauto.
  Qed.
End P.
