(** SegmentationProofs.v - proofs about the page segmentation. *)
From Coq Require Import ZArith NArith.
From Verif Require Import Base Double DoubleFacts MathUtils Sort Elements GeometrySpec Counter XYCut XYCutSpec XYCutProofs
  PageSegmentation SegmentationSpec.
Local Opaque TOL dZ dadd dsub ddiv DBL_MAX DBL_MIN.

Section P.
  Context (impl : (pelem -> pelem -> bool) -> list pelem -> list pelem)
          (topi : (pelem -> pelem -> bool) -> list pelem -> nat) (cfg : ps_config).
  Context (Himpl : sort_ok impl) (Htop : top_ok topi).
  Notation cut := (cut pelem).

  Lemma is_false_if (b : bool) (t : trool) : is_false (if b then TFalse else t) = b || is_false t.
  Proof. destruct b; reflexivity. Qed.
  Lemma rule1 (c : cut) el : is_false (chooseXCut_overlappingElements cfg c el) = true <-> rule_overlapping cfg c el.
  Proof.
    unfold chooseXCut_overlappingElements, rule_overlapping. destruct (cut_overlap c) as [|o os] eqn:E.
    - split; [discriminate|]. intros [H _]. congruence.
    - rewrite !is_false_if, orb_true_iff. change (is_false TNone) with false. rewrite orb_false_r, Nat.ltb_lt, existsb_exists.
      split.
      + intros [H|(e & He & H)]; (split; [discriminate|]); [left; auto|right]. exists e. split; auto. apply orb_true_iff; auto.
      + intros (_ & [H|(e & He & H)]); [left; auto|right]. exists e. split; auto. apply orb_true_iff; auto.
  Qed.
  Lemma rule2 (c : cut) : is_false (chooseXCut_smallGapWidthHeight cfg c) = true <-> rule_small_gap cfg c.
  Proof.
    unfold chooseXCut_smallGapWidthHeight, rule_small_gap. rewrite is_false_if. change (is_false TNone) with false.
    rewrite orb_false_r. apply andb_true_iff.
  Qed.
  Lemma rule3 (c : cut) el : is_false (chooseXCut_contiguousWords cfg c el) = true <-> rule_contiguous_words cfg c el.
  Proof.
    unfold chooseXCut_contiguousWords, rule_contiguous_words. destruct (pe_word (cut_before c)) as [r|].
    - rewrite is_false_if. change (is_false TNone) with false. rewrite orb_false_r, existsb_exists. split.
      + intros (e & He & H). destruct (pe_word e) as [r'|] eqn:E; [|discriminate]. apply andb_true_iff in H as [H1 H2].
        apply Z.eqb_eq in H1. subst r'. apply negb_true_iff in H2. exists r, e. auto.
      + intros (r' & e & [= <-] & He & E & H). exists e. split; auto. rewrite E, Z.eqb_refl, H. reflexivity.
    - split; [discriminate|]. intros (r & e & H & _). discriminate.
  Qed.
  Lemma last_last_opt {A} (l : list A) d : l <> [] -> last_opt l = Some (last l d).
  Proof.
    intros H. destruct (exists_last H) as (l' & x & ->). unfold last_opt. rewrite rev_app_distr. cbn. rewrite last_last. reflexivity.
  Qed.
  Lemma rule4 prev (c : cut) el : is_false (chooseXCut_slimGroups cfg prev c el) = true <-> rule_slim_groups cfg prev c el.
  Proof.
    unfold chooseXCut_slimGroups, rule_slim_groups. destruct el as [|e0 l].
    - split; [discriminate|]. intros (? & ? & ? & ? & _). discriminate.
    - rewrite !is_false_if. change (is_false TNone) with false. rewrite orb_false_r, orb_true_iff. split.
      + intros H. exists e0, l, (last (e0 :: l) e0). split; auto. split; [apply last_last_opt; discriminate|]. exact H.
      + intros (e0' & l' & en & [= <- <-] & He & H). rewrite (last_last_opt _ e0) in He by discriminate. injection He as <-. exact H.
  Qed.
  Definition x_rules (prev : option cut) (c : cut) (el : list pelem) : Prop :=
    rule_overlapping cfg c el \/ rule_small_gap cfg c \/ rule_contiguous_words cfg c el \/ rule_slim_groups cfg prev c el.
  Lemma chooseXCut_spec prev c el : chooseXCut cfg prev c el = true <-> ~ x_rules prev c el.
  Proof.
    unfold chooseXCut, x_rules. rewrite !andb_true_iff, !negb_true_iff, <- rule1, <- rule2, <- rule3, <- rule4.
    destruct (is_false (chooseXCut_overlappingElements cfg c el)), (is_false (chooseXCut_smallGapWidthHeight cfg c)),
      (is_false (chooseXCut_contiguousWords cfg c el)), (is_false (chooseXCut_slimGroups cfg prev c el)); intuition congruence.
  Qed.
  Lemma loop_length el cuts : forall prev, length (chooseXCuts_loop cfg prev cuts el) = length cuts.
  Proof. induction cuts as [|c t IH]; intros prev; cbn [chooseXCuts_loop length]; auto. Qed.
  Lemma loop_spec el cuts : forall prev i c, nth_error cuts i = Some c ->
    exists p, (nth i (chooseXCuts_loop cfg prev cuts el) false = true <-> ~ x_rules p c el) /\
      ((exists c', p = Some c' /\ previous_chosen cuts (chooseXCuts_loop cfg prev cuts el) i (Some c')) \/
       (p = prev /\ forall j, j < i -> nth j (chooseXCuts_loop cfg prev cuts el) false = false)).
  Proof.
    induction cuts as [|c0 t IH]; intros prev i c H; [destruct i; discriminate|].
    cbn [chooseXCuts_loop]. destruct i as [|i].
    - injection H as ->. exists prev. cbn [nth]. split; [apply chooseXCut_spec|]. right. split; auto. intros j Hj. lia.
    - cbn in H. cbn [nth]. destruct (IH (if chooseXCut cfg prev c0 el then Some c0 else prev) i c H) as (p & H1 & H2).
      exists p. split; [exact H1|]. set (fl := chooseXCuts_loop _ _ _ _) in *. destruct H2 as [(c' & -> & H2)|[-> H2]].
      + left. exists c'. split; auto. cbn [previous_chosen] in *. destruct H2 as (j & J1 & J2 & J3 & J4).
        exists (S j). split; [lia|]. split; [exact J2|]. split; [exact J3|]. intros [|k] Hk; [lia|]. cbn [nth]. apply J4. lia.
      + destruct (chooseXCut cfg prev c0 el) eqn:E.
        * left. exists c0. split; auto. exists 0. split; [lia|]. split; [reflexivity|]. split; [reflexivity|].
          intros [|k] Hk; [lia|]. cbn [nth]. apply H2. lia.
        * right. split; auto. intros [|j] Hj; [reflexivity|]. cbn [nth]. apply H2. lia.
  Qed.
  Lemma chooseXCuts_spec cuts el fl : el <> [] -> chooseXCuts cfg cuts el = Ok fl ->
    length fl = length cuts /\ forall i c, nth_error cuts i = Some c -> exists p, previous_chosen cuts fl i p /\
      (nth i fl false = true <-> ~ x_rules p c el).
  Proof.
    intros Hne H. unfold chooseXCuts in H. destruct el as [|e0 l]; [congruence|]. injection H as <-.
    split; [apply loop_length|]. intros i c Hc. destruct (loop_spec (e0 :: l) cuts None i c Hc) as (p & H1 & H2).
    exists p. split; [|exact H1]. destruct H2 as [(c' & -> & H2)|[-> H2]]; [exact H2|]. exact H2.
  Qed.
  Lemma chooseXCuts_total : total_chooser pe_pos (chooseXCuts cfg).
  Proof. intros cands s _ _. unfold chooseXCuts. destruct s; eauto. Qed.

  (** *** y-cuts *)
  Notation xc := (xCut pe_pos impl topi (xCutMinGapWidth cfg) (xCutMaxNumOverlappingElements cfg) (chooseXCuts cfg)).
  Definition div (el : list pelem) (lo hi : nat) : Prop := exists gs cs, xc (stripe el lo hi) = Ok (true, gs, cs).
  Lemma stripe_div el lo hi b : stripe_divisible impl topi cfg el lo hi = Ok b -> (b = true <-> div el lo hi).
  Proof.
    unfold stripe_divisible, div, stripe. destruct (_ && _); [|discriminate]. intros H.
    destruct (xc (firstn (hi - lo) (skipn lo el))) as [[[b' gs] cs]|w|w]; try discriminate. injection H as <-. cbn [fst].
    split; [intros ->; eauto|]. intros (gs' & cs' & [= -> _ _]). reflexivity.
  Qed.
  Lemma count_spec el p others : forall n, count_partners impl topi cfg el p others = Ok n ->
    n <= length others /\ (forall q, In q (firstn n others) -> div el p q) /\
    (forall r, hd_error (skipn n others) = Some r -> ~ div el p r).
  Proof.
    induction others as [|q t IH]; intros n H; cbn [count_partners] in H.
    - injection H as <-. cbn. split; auto. split; [intros ? []|discriminate].
    - destruct (stripe_divisible impl topi cfg el p q) as [b|w|w] eqn:E; try discriminate. cbn [obind] in H.
      apply stripe_div in E. destruct b.
      + destruct (count_partners impl topi cfg el p t) as [m|w|w]; try discriminate. injection H as <-.
        destruct (IH m eq_refl) as (H1 & H2 & H3). cbn [length firstn skipn]. split; [lia|]. split; [|exact H3].
        intros r [<-|Hr]; [apply E; auto|auto].
      + injection H as <-. cbn. split; [lia|]. split; [intros ? []|]. intros r [= <-] Hd. apply E in Hd. discriminate.
  Qed.
  Lemma choose_stripes_spec el fuel : forall ccuts fl, length ccuts <= fuel -> choose_stripes impl topi cfg fuel el ccuts = Ok fl ->
    stripe_choice (div el) ccuts fl.
  Proof.
    induction fuel as [|fuel IH]; intros ccuts fl Hl H.
    - destruct ccuts; [|cbn in Hl; lia]. injection H as <-. constructor.
    - destruct ccuts as [|p rest]; cbn [choose_stripes] in H; [injection H as <-; constructor|].
      destruct (count_partners impl topi cfg el p rest) as [n|w|w] eqn:E; try discriminate. cbn [obind] in H.
      apply count_spec in E as (H1 & H2 & H3). cbn in Hl. destruct n as [|m].
      + destruct (choose_stripes impl topi cfg fuel el rest) as [fl'|w|w] eqn:E'; try discriminate. injection H as <-.
        constructor; [exact H3|]. apply IH; auto. lia.
      + destruct (choose_stripes impl topi cfg fuel el (skipn (S m) rest)) as [fl'|w|w] eqn:E'; try discriminate. injection H as <-.
        rewrite <- (firstn_skipn (S m) rest) at 1.
        assert (exists mid q, firstn (S m) rest = mid ++ [q] /\ length mid = m) as (mid & q & Hm & Hlm).
        { assert (length (firstn (S m) rest) = S m) as F by (rewrite firstn_length; lia).
          destruct (@exists_last _ (firstn (S m) rest)) as (l & x & Hx); [intros Z; rewrite Z in F; discriminate|].
          exists l, x. split; auto. rewrite Hx, app_length in F. cbn in F. lia. }
        rewrite Hm. rewrite <- app_assoc. cbn [app].
        replace (repeat false m) with (map (fun _ : nat => false) mid) by (rewrite <- Hlm; clear; induction mid; cbn; congruence).
        rewrite Hm in H2. constructor; auto. apply IH; auto. rewrite skipn_length. lia.
  Qed.
  Lemma stripe_choice_length dv cs fl : stripe_choice dv cs fl -> length fl = length cs.
  Proof. induction 1; cbn; auto. rewrite !app_length, map_length. cbn. auto. Qed.
  Lemma chooseYCuts_spec cuts el fl : cuts <> [] -> el <> [] -> chooseYCuts impl topi cfg cuts el = Ok fl ->
    length fl = length cuts /\ exists top bottom,
      stripe_choice (div el) (0 :: map cut_pos cuts ++ [length el]) (top :: fl ++ [bottom]).
  Proof.
    intros Hc He H. unfold chooseYCuts in H. destruct cuts as [|c cs]; [congruence|]. destruct el as [|e es]; [congruence|].
    set (cuts := c :: cs) in *. set (el := e :: es) in *.
    destruct (choose_stripes impl topi cfg (length (sentinel_positions cuts el)) el (sentinel_positions cuts el)) as [f|w|w] eqn:E; try discriminate.
    cbn [obind] in H. clearbody cuts el. injection H as <-. apply choose_stripes_spec in E; auto. pose proof (stripe_choice_length _ _ _ E) as Hl.
    unfold sentinel_positions in *. cbn [length] in Hl. rewrite app_length, map_length in Hl. cbn [length] in Hl.
    destruct f as [|b f]; [discriminate|]. cbn [tl]. cbn [length] in Hl.
    split; [rewrite firstn_length; lia|]. exists b.
    assert (exists bo, skipn (length cuts) f = [bo]) as [bo Hbo].
    { destruct (skipn (length cuts) f) as [|x [|y l]] eqn:F; apply (f_equal (@length bool)) in F; rewrite skipn_length in F; cbn in F; try lia. eauto. }
    exists bo. rewrite <- Hbo, firstn_skipn. exact E.
  Qed.
  (** Every chosen boundary has a chosen partner. *)
  Lemma stripe_choice_partner dv cs fl : stripe_choice dv cs fl -> forall i, nth i fl false = true ->
    exists a b pa pb, (i = a \/ i = b) /\ a < b /\ nth_error cs a = Some pa /\ nth_error cs b = Some pb /\ dv pa pb /\
      nth a fl false = true /\ nth b fl false = true /\ (forall k, a < k < b -> nth k fl false = false) /\
      (forall k pk, a < k <= b -> nth_error cs k = Some pk -> dv pa pk).
  Proof.
    induction 1 as [|p rest fl Hq H IH|p mid q rest fl Hd Hq H IH]; intros i Hi.
    - destruct i; discriminate.
    - destruct i as [|i]; [discriminate|]. cbn [nth] in Hi. destruct (IH i Hi) as (a & b & pa & pb & H1 & H2 & H3 & H4 & H5 & H6 & H7 & H8 & H9).
      exists (S a), (S b), pa, pb. split; [lia|]. split; [lia|]. split; [exact H3|]. split; [exact H4|]. split; [exact H5|].
      split; [exact H6|]. split; [exact H7|]. split; [intros [|k] Hk; [lia|]; apply H8; lia|].
      intros [|k] pk Hk; [lia|]. apply H9. lia.
    - set (n := length mid) in *.
      assert (forall k, nth (S (n + k)) (true :: map (fun _ => false) mid ++ true :: fl) false = nth k (true :: fl) false) as F1.
      { intros k. cbn [nth]. rewrite app_nth2; rewrite map_length; fold n; [|lia]. replace (n + k - n) with k by lia. reflexivity. }
      assert (forall k, k < n -> nth (S k) (true :: map (fun _ : nat => false) mid ++ true :: fl) false = false) as F2.
      { intros k Hk. cbn [nth]. rewrite app_nth1 by (rewrite map_length; exact Hk).
        clear. revert k. induction mid; intros [|k]; cbn; auto. }
      assert (forall k, nth_error (p :: mid ++ q :: rest) (S (n + k)) = nth_error (q :: rest) k) as F3.
      { intros k. cbn [nth_error]. rewrite nth_error_app2 by (fold n; lia). fold n. replace (n + k - n) with k by lia. reflexivity. }
      assert (i = 0 \/ i = S (n + 0) \/ exists k, i = S (n + S k)) as [->|[->|[k ->]]].
      { destruct i as [|i]; [auto|]. destruct (lt_dec i n) as [Hlt|Hge]; [rewrite F2 in Hi by auto; discriminate|].
        right. destruct (i - n) as [|k] eqn:Ek; [left; lia|right; exists k; lia]. }
      3:{ rewrite F1 in Hi. cbn [nth] in Hi. destruct (IH k Hi) as (a & b & pa & pb & H1 & H2 & H3 & H4 & H5 & H6 & H7 & H8 & H9).
          exists (S (n + S a)), (S (n + S b)), pa, pb. rewrite !F1, !F3. split; [lia|]. split; [lia|]. split; [exact H3|].
          split; [exact H4|]. split; [exact H5|]. split; [exact H6|]. split; [exact H7|]. split.
          - intros j Hj. replace j with (S (n + S (j - S (S n)))) by lia. rewrite F1. cbn [nth]. apply H8. lia.
          - intros j pj Hj. replace j with (S (n + S (j - S (S n)))) by lia. rewrite F3. cbn [nth_error]. apply H9. lia. }
      all: exists 0, (S (n + 0)), p, q; rewrite F1, F3.
      all: split; [auto|]; split; [lia|]; split; [reflexivity|]; split; [reflexivity|].
      all: split; [apply Hd; rewrite in_app_iff; cbn; auto|]; split; [reflexivity|]; split; [reflexivity|]; split.
      1,3: intros [|k] Hk; [lia|]; apply F2; lia.
      all: intros [|k] pk Hk Hn; [lia|]; cbn [nth_error] in Hn; apply Hd;
           change (mid ++ q :: rest) with (mid ++ [q] ++ rest) in Hn; rewrite app_assoc, nth_error_app1 in Hn by (rewrite app_length; cbn; lia);
           eapply nth_error_In; eauto.
  Qed.

  (** *** Definedness *)
  Lemma in_stripe {A} (el : list A) lo hi x : In x (stripe el lo hi) -> In x el.
  Proof.
    unfold stripe. intros H. rewrite <- (firstn_skipn lo el). apply in_or_app. right.
    rewrite <- (firstn_skipn (hi - lo) (skipn lo el)). apply in_or_app. auto.
  Qed.
  Context (Hcap : (0 < queue_capacity (xCutMaxNumOverlappingElements cfg))%N).
  Lemma stripe_divisible_ok el lo hi : parsed pe_pos el -> lo <= hi <= length el ->
    exists b, stripe_divisible impl topi cfg el lo hi = Ok b.
  Proof.
    intros Hp Hr. unfold stripe_divisible. rewrite (proj2 (Nat.leb_le lo hi)), (proj2 (Nat.leb_le hi (length el))) by lia. cbn [andb].
    destruct (xCut_ok pe_pos impl topi Himpl Htop (xCutMinGapWidth cfg) _ (chooseXCuts cfg) (firstn (hi - lo) (skipn lo el)) Hcap) as [r ->].
    - intros e He. apply Hp. eapply in_stripe. exact He.
    - apply chooseXCuts_total.
    - cbn. eauto.
  Qed.
  Lemma count_ok el p others : parsed pe_pos el -> (forall q, In q others -> p <= q <= length el) ->
    exists n, count_partners impl topi cfg el p others = Ok n.
  Proof.
    intros Hp. induction others as [|q t IH]; intros Hr; cbn [count_partners]; [eauto|].
    destruct (stripe_divisible_ok el p q Hp) as [b ->]; [apply Hr; left; auto|]. cbn [obind].
    destruct b; [|eauto]. destruct IH as [n ->]; [intros; apply Hr; right; auto|]. cbn. eauto.
  Qed.
  Lemma sorted_skipn n (l : list nat) : StronglySorted le l -> StronglySorted le (skipn n l).
  Proof.
    revert l. induction n; intros l H; [exact H|]. destruct l; [constructor|]. inversion H; subst. cbn. auto.
  Qed.
  Lemma in_skipn {A} n (l : list A) x : In x (skipn n l) -> In x l.
  Proof. intros H. rewrite <- (firstn_skipn n l). apply in_or_app; auto. Qed.
  Lemma choose_stripes_ok el fuel : parsed pe_pos el -> forall ccuts, StronglySorted le ccuts ->
    (forall q, In q ccuts -> q <= length el) -> exists fl, choose_stripes impl topi cfg fuel el ccuts = Ok fl.
  Proof.
    intros Hp. induction fuel as [|fuel IH]; intros ccuts Hs Hr; [destruct ccuts; cbn; eauto|].
    destruct ccuts as [|p rest]; cbn [choose_stripes]; [eauto|]. inversion Hs as [|? ? Hs' Ha]; subst. rewrite Forall_forall in Ha.
    destruct (count_ok el p rest Hp) as [n ->]. { intros q Hq. split; [auto|apply Hr; right; auto]. }
    cbn [obind]. destruct n.
    - destruct (IH rest) as [fl ->]; auto. { intros; apply Hr; right; auto. } cbn. eauto.
    - destruct (IH (skipn (S n) rest)) as [fl ->].
      { apply sorted_skipn; auto. } { intros q Hq. apply Hr. right. eapply in_skipn; eauto. }
      cbn. eauto.
  Qed.
  Lemma sentinel_sorted cuts el : cand_in 1 (length el) cuts -> StronglySorted le (sentinel_positions cuts el) /\ forall q, In q (sentinel_positions cuts el) -> q <= length el.
  Proof.
    intros [H1 H2]. unfold sentinel_positions.
    assert (forall q, In q (map cut_pos cuts ++ [length el]) -> q <= length el) as Hle.
    { intros q Hq. apply in_app_iff in Hq as [Hq|[<-|[]]]; [|lia]. apply in_map_iff in Hq as (c & <- & Hc). specialize (H2 c Hc). lia. }
    split.
    - constructor; [|apply Forall_forall; intros; lia].
      assert (forall l : list nat, StronglySorted lt l -> (forall q, In q l -> q < length el) -> StronglySorted le (l ++ [length el])) as Hx.
      { induction l as [|x l IH]; intros Hs Hq; cbn; [constructor; constructor|]. inversion Hs as [|? ? Hs' Ha]; subst. constructor.
        - apply IH; auto. intros; apply Hq; right; auto.
        - apply Forall_forall. rewrite Forall_forall in Ha. intros y Hy. apply in_app_iff in Hy as [Hy|[<-|[]]].
          + specialize (Ha y Hy). lia. + specialize (Hq x (or_introl eq_refl)). lia. }
      apply Hx; auto. intros q Hq. apply in_map_iff in Hq as (c & <- & Hc). apply H2; auto.
    - intros q [<-|Hq]; [lia|auto].
  Qed.
  Lemma chooseYCuts_total : total_chooser pe_pos (chooseYCuts impl topi cfg).
  Proof.
    intros cands s Hp HC. unfold chooseYCuts. destruct cands as [|c cs]; [destruct s; eauto|]. destruct s as [|e es]; [eauto|].
    destruct (sentinel_sorted (c :: cs) (e :: es) HC) as [H1 H2].
    destruct (choose_stripes_ok (e :: es) (length (sentinel_positions (c :: cs) (e :: es))) Hp _ H1 H2) as [fl ->]. cbn. eauto.
  Qed.
End P.
