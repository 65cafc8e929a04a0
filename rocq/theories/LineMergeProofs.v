(** LineMergeProofs.v - proofs about clusters, the merging of lines, and whole segments. *)
From Coq Require Import ZArith NArith.
From Verif Require Import Base Double DoubleFacts MathUtils MathUtilsProofs Sort Elements ElementsProofs GeometrySpec
  Counter CounterProofs UtilsSpec Document Lines LinesSpec WordsProofs LinesProofs.
Local Open Scope nat_scope.
Local Opaque TOL dZ dadd dsub ddiv dmul dec DBL_MAX DBL_MIN.

Lemma thr_not_zero (acw : double) gap : equalOrLarger dzero (overlap_threshold acw gap) TOL = false.
Proof. unfold overlap_threshold. destruct (dlt gap (dmul (dZ 3) acw)); vm_compute; reflexivity. Qed.

(** ** Association lists *)
Section Assoc.
  Context {K V : Type} (eqb : K -> K -> bool) (f : option V -> V).
  Lemma assoc_update_In k m k' v' : In (k', v') (assoc_update eqb f k m) ->
    (In (k', v') m) \/ (exists v, In (k', v) m /\ eqb k' k = true /\ v' = f (Some v)) \/
    (k' = k /\ v' = f None /\ forall e, In e m -> eqb (fst e) k = false).
  Proof.
    induction m as [|[a v] t IH]; cbn [assoc_update].
    - intros [[= <- <-]|[]]. right. right. split; [reflexivity|]. split; [reflexivity|]. intros e [].
    - destruct (eqb a k) eqn:E.
      + intros [[= <- <-]|H]; [|left; right; exact H]. right. left. exists v. split; [left; reflexivity|]. split; [exact E|reflexivity].
      + intros [[= <- <-]|H]; [left; left; reflexivity|]. destruct (IH H) as [H1|[(w & H1 & H2 & H3)|(H1 & H2 & H3)]].
        * left. right. exact H1.
        * right. left. exists w. split; [right; exact H1|]. split; assumption.
        * right. right. split; [exact H1|]. split; [exact H2|]. intros e [<-|He]; [exact E|apply H3, He].
  Qed.
  (** With pairwise different keys, an entry with the updated key has been updated. *)
  Lemma assoc_update_exact k m k' v' : (forall a b, eqb a b = true -> eqb b a = true) ->
    (forall a b c, eqb a b = true -> eqb b c = true -> eqb a c = true) ->
    ForallOrdPairs (fun a b => eqb (fst a) (fst b) = false) m ->
    In (k', v') (assoc_update eqb f k m) ->
    (In (k', v') m /\ eqb k' k = false) \/ (exists v, In (k', v) m /\ eqb k' k = true /\ v' = f (Some v)) \/
    (k' = k /\ v' = f None /\ forall e, In e m -> eqb (fst e) k = false).
  Proof.
    intros Sy Tr. induction m as [|[a v] t IH]; cbn [assoc_update]; intros FO.
    - intros [[= <- <-]|[]]. right. right. split; [reflexivity|]. split; [reflexivity|]. intros e [].
    - inversion FO as [|? ? HF HO]. subst. destruct (eqb a k) eqn:E.
      + intros [[= <- <-]|H].
        * right. left. exists v. split; [left; reflexivity|]. split; [exact E|reflexivity].
        * left. split; [right; exact H|]. destruct (eqb k' k) eqn:E'; [|reflexivity].
          rewrite Forall_forall in HF. specialize (HF _ H). cbn in HF. rewrite (Tr a k k') in HF; [discriminate|exact E|apply Sy, E'].
      + intros [[= <- <-]|H]; [left; split; [left; reflexivity|exact E]|].
        destruct (IH HO H) as [[H1 H1']|[(w & H1 & H2 & H3)|(H1 & H2 & H3)]].
        * left. split; [right; exact H1|exact H1'].
        * right. left. exists w. split; [right; exact H1|]. split; assumption.
        * right. right. split; [exact H1|]. split; [exact H2|]. intros e [<-|He]; [exact E|apply H3, He].
  Qed.
  Lemma assoc_update_has k m : eqb k k = true -> exists k' v', In (k', v') (assoc_update eqb f k m) /\ eqb k' k = true /\
    ((exists v, In (k', v) m /\ v' = f (Some v)) \/ (v' = f None)).
  Proof.
    intros R. induction m as [|[a v] t IH]; cbn [assoc_update].
    - exists k, (f None). split; [left; reflexivity|]. split; [exact R|right; reflexivity].
    - destruct (eqb a k) eqn:E.
      + exists a, (f (Some v)). split; [left; reflexivity|]. split; [exact E|]. left. exists v. split; [left; reflexivity|reflexivity].
      + destruct IH as (k' & v' & H1 & H2 & H3). exists k', v'. split; [right; exact H1|]. split; [exact H2|].
        destruct H3 as [(w & H3 & H4)|H3]; [|right; exact H3]. left. exists w. split; [right; exact H3|exact H4].
  Qed.
  Lemma assoc_update_keeps k m k' v' : In (k', v') m -> In (k', v') (assoc_update eqb f k m) \/ (eqb k' k = true /\ In (k', f (Some v')) (assoc_update eqb f k m)).
  Proof.
    induction m as [|[a v] t IH]; cbn [assoc_update]; [intros []|]. intros [[= <- <-]|H].
    - destruct (eqb a k) eqn:E; [right; split; [reflexivity|left; reflexivity]|left; left; reflexivity].
    - destruct (eqb a k) eqn:E; [left; right; exact H|]. destruct (IH H) as [H1|[H1 H2]]; [left; right; exact H1|right; split; [exact H1|right; exact H2]].
  Qed.
  Lemma assoc_update_pairs k m : ForallOrdPairs (fun a b => eqb (fst a) (fst b) = false) m ->
    ForallOrdPairs (fun a b => eqb (fst a) (fst b) = false) (assoc_update eqb f k m).
  Proof.
    induction m as [|[a v] t IH]; cbn [assoc_update]; intros FO; [constructor; constructor|].
    inversion FO as [|? ? HF HO]. subst. destruct (eqb a k) eqn:E.
    - constructor; assumption.
    - constructor; [|apply IH, HO]. apply Forall_forall. intros [k' v'] H. cbn [fst].
      rewrite Forall_forall in HF. destruct (assoc_update_In _ _ _ _ H) as [H1|[(w & H1 & _)|(-> & _)]]; [apply (HF _ H1)|apply (HF _ H1)|exact E].
  Qed.
  (** the values in sequence *)
  Lemma assoc_update_values {W} (val : V -> list W) (u : list W) k m :
    (forall v, Permutation (val (f (Some v))) (val v ++ u)) -> Permutation (val (f None)) u ->
    Permutation (flat_map (fun e => val (snd e)) (assoc_update eqb f k m)) (flat_map (fun e => val (snd e)) m ++ u).
  Proof.
    intros H1 H2. induction m as [|[a v] t IH]; cbn [assoc_update flat_map snd].
    - rewrite app_nil_r. exact H2.
    - destruct (eqb a k); cbn [flat_map snd].
      + rewrite <- app_assoc. transitivity ((val v ++ u) ++ flat_map (fun e => val (snd e)) t); [apply Permutation_app_tail, H1|].
        rewrite <- app_assoc. apply Permutation_app_head, Permutation_app_comm.
      + rewrite <- app_assoc. apply Permutation_app_head, IH.
  Qed.
End Assoc.

Section M.
  Context (implW : (nat -> nat -> bool) -> list nat -> list nat) (implL : (tline -> tline -> bool) -> list tline -> list tline).
  Context (ordS : list (str * N) -> list (str * N)) (ordD : list (double * N) -> list (double * N)).
  Context (ordR : list (Z * list (double * list nat)) -> list (Z * list (double * list nat)))
          (ordY : list (double * list nat) -> list (double * list nat)).
  Context (acw : double) (h : heap).
  Context (HW : sort_ok implW) (HL : sort_ok implL).
  Context (HS : forall m, Permutation m (ordS m)) (HD : forall m, Permutation m (ordD m)).
  Context (HR : forall m, Permutation m (ordR m)) (HY : forall m, Permutation m (ordY m)).

  Definition okl (l : tline) : Prop := (exists ws, line_of h ws l) /\ content l = l /\ fin_words h (l_words l).

  Lemma line_of_words ws l : line_of h ws l -> Permutation ws (l_words l) /\ ws <> [].
  Proof. intros (A & B & _). split; assumption. Qed.

  Lemma create_ok ws l : ws <> [] -> fin_words h ws -> createTextLine implW ordS ordD h ws = Ok l ->
    line_of h ws l /\ okl l.
  Proof.
    intros NE FW H. unfold createTextLine in H.
    destruct (properties_ok implW ordS ordD h HW HS HD (new_line ws) l) as [LO SR].
    - exact NE.
    - exact FW.
    - split; [apply box_pre_default; reflexivity|]. intros _. repeat split.
    - exact H.
    - cbn [new_line l_words] in LO. split; [exact LO|]. split; [exists ws; exact LO|]. split.
      + destruct SR as (S1 & S2 & S3). cbn [new_line l_rank l_prev l_next] in S1, S2, S3. destruct l as [r p t fn fs mx b w pr nx]. cbn in *. subst. reflexivity.
      + intros w Hw. apply FW. apply (Permutation_in _ (Permutation_sym (proj1 (line_of_words _ _ LO)))), Hw.
  Qed.

  Lemma merge_ok c p pq : okl c -> okl p -> mergeTextLines implW ordS ordD h c p = Ok pq ->
    line_of h (l_words p ++ l_words c) pq /\ okl pq.
  Proof.
    intros (_ & _ & FC) ((ws & LP) & CP & FP) H. unfold mergeTextLines in H.
    destruct (line_of_words _ _ LP) as [PP NE].
    assert (NEP : l_words p <> []) by (intros E; rewrite E in PP; apply Permutation_sym, Permutation_nil in PP; congruence).
    assert (FW : fin_words h (l_words p ++ l_words c)) by (intros w Hw; apply in_app_or in Hw as [Hw|Hw]; auto).
    eapply properties_ok in H; [|exact HW|exact HS|exact HD| | |].
    - cbn [l_words l_rank l_prev l_next] in H. destruct H as [LO SR]. split; [exact LO|]. split; [exists (l_words p ++ l_words c); exact LO|]. split.
      + destruct SR as (S1 & S2 & S3). cbn [l_rank l_prev l_next] in S1, S2, S3. rewrite <- CP in S1, S2, S3. cbn [content l_rank l_prev l_next] in S1, S2, S3.
        destruct pq as [r q t fn fs mx b w pr nx]. cbn in *. subst. reflexivity.
      + intros w Hw. apply FW. apply (Permutation_in _ (Permutation_sym (proj1 (line_of_words _ _ LO)))), Hw.
    - cbn [l_words]. destruct (l_words p); [congruence|discriminate].
    - exact FW.
    - destruct LP as (_ & _ & _ & _ & _ & SB & DF & _). split; cbn [l_pos l_words l_fontName l_fontSize l_maxFontSize l_base].
      + apply (box_pre_mono (l_pos p) (map (pos_of h) ws)); [|exact SB]. intros q Hq. apply in_map_iff in Hq as (w & <- & Hw).
        apply in_map. apply in_or_app. left. apply (Permutation_in _ PP), Hw.
      + intros E. apply DF. unfold all_chars in *. rewrite flat_map_app in E. apply app_eq_nil in E as [E _].
        apply Permutation_nil. rewrite <- E. apply Permutation_flat_map. symmetry. exact PP.
  Qed.

  (** ** Rounds *)
  Definition stable (ls : list tline) : Prop := forall l1 a b l2, ls = l1 ++ a :: b :: l2 -> same_line acw (l_pos a) (l_pos b) = false.
  Lemma do_merge_some p c : do_merge acw (Some p) c = same_line acw (l_pos p) (l_pos c).
  Proof. reflexivity. Qed.
  Lemma do_merge_none c : do_merge acw None c = false.
  Proof. apply thr_not_zero. Qed.
  Lemma stable_cons a b l : same_line acw (l_pos a) (l_pos b) = false -> stable (b :: l) -> stable (a :: b :: l).
  Proof.
    intros H1 H2 [|x l1] c d l2 E.
    - cbn in E. injection E as <- <- _. exact H1.
    - cbn in E. injection E as _ E. apply (H2 l1 c d l2 E).
  Qed.

  Notation mround := (merge_round implW ordS ordD acw h).
  Lemma merge_round_ok ls : forall acc prev did out did', Forall okl ls -> Forall okl acc -> (forall p, prev = Some p -> okl p) ->
    mround acc prev did ls = Ok (out, did') ->
    merged_from h acw (acc ++ opt_list prev ++ ls) out /\ Forall okl out /\
    length out <= length (acc ++ opt_list prev ++ ls) /\
    (did' = true -> did = true \/ length out < length (acc ++ opt_list prev ++ ls)) /\
    (did' = false -> did = false /\ out = acc ++ opt_list prev ++ ls /\ stable (opt_list prev ++ ls)) /\
    Permutation (flat_map l_words (acc ++ opt_list prev ++ ls)) (flat_map l_words out).
  Proof.
    induction ls as [|c t IH]; intros acc prev did out did' FL FA FP H.
    - cbn [merge_round] in H. injection H as <- <-. rewrite app_nil_r. split; [constructor|]. split.
      + apply Forall_app. split; [exact FA|]. destruct prev as [p|]; [constructor; [apply FP; reflexivity|constructor]|constructor].
      + split; [lia|]. split; [intros ->; left; reflexivity|]. split; [|reflexivity]. intros ->. split; [reflexivity|]. split; [reflexivity|].
        intros l1 a b l2 E. exfalso. destruct prev; destruct l1 as [|x [|y l1]]; discriminate.
    - inversion FL as [|? ? Hc Ht]. subst. cbn [merge_round] in H. destruct (do_merge acw prev c) eqn:EM.
      + destruct prev as [p|]; [|rewrite do_merge_none in EM; discriminate].
        destruct (mergeTextLines implW ordS ordD h c p) as [pq| |] eqn:EP; try discriminate. cbn [obind] in H.
        destruct (merge_ok c p pq Hc (FP p eq_refl) EP) as [LO OK].
        destruct (IH acc (Some pq) true out did' Ht FA) as (R1 & R2 & R3 & R4 & R5 & R6); [intros q [= <-]; exact OK|exact H|].
        cbn [opt_list app] in *. rewrite !app_length in *. cbn [length] in *. split.
        { apply (mf_step h acw acc p c t pq out); [rewrite <- do_merge_some; exact EM|exact LO|exact R1]. }
        split; [exact R2|]. split; [lia|]. split; [intros _; right; lia|]. split; [intros E; destruct (R5 E) as [X _]; discriminate|].
        rewrite <- R6. rewrite !flat_map_app. cbn [flat_map]. apply Permutation_app_head. rewrite app_assoc. apply Permutation_app_tail.
        apply (proj1 (line_of_words _ _ LO)).
      + destruct (IH (acc ++ opt_list prev) (Some c) did out did' Ht) as (R1 & R2 & R3 & R4 & R5 & R6).
        * apply Forall_app. split; [exact FA|]. destruct prev as [p|]; [constructor; [apply FP; reflexivity|constructor]|constructor].
        * intros q [= <-]. exact Hc.
        * exact H.
        * cbn [opt_list app] in *. rewrite <- app_assoc in *. split; [exact R1|]. split; [exact R2|]. split; [exact R3|]. split; [exact R4|].
          split; [|exact R6]. intros E. destruct (R5 E) as (E1 & E2 & E3). split; [exact E1|]. split; [exact E2|].
          destruct prev as [p|]; cbn [opt_list app]; [|exact E3]. apply stable_cons; [rewrite <- do_merge_some; exact EM|exact E3].
  Qed.

  Lemma merged_from_trans a b c : merged_from h acw a b -> merged_from h acw b c -> merged_from h acw a c.
  Proof. induction 1 as [ls|l1 p q l2 pq ls' E L _ IH]; intros H; [exact H|]. apply (mf_step h acw l1 p q l2 pq c E L). apply IH, H. Qed.

  Notation mrounds := (merge_rounds implW ordS ordD acw h).
  Lemma merge_rounds_ok fuel : forall ls out, Forall okl ls -> mrounds fuel ls = Some (Ok out) ->
    merged_from h acw ls out /\ Forall okl out /\ stable out /\ Permutation (flat_map l_words ls) (flat_map l_words out).
  Proof.
    induction fuel as [|n IH]; intros ls out FL H; [discriminate|]. cbn [merge_rounds] in H.
    destruct (mround [] None false ls) as [[ls' [|]]| |] eqn:ER; try discriminate.
    - destruct (merge_round_ok ls [] None false ls' true FL) as (R1 & R2 & _ & _ & _ & R6); [constructor|discriminate|exact ER|].
      destruct (IH ls' out R2 H) as (Q1 & Q2 & Q3 & Q4). split; [exact (merged_from_trans _ _ _ R1 Q1)|]. split; [exact Q2|]. split; [exact Q3|].
      etransitivity; eassumption.
    - destruct (merge_round_ok ls [] None false ls' false FL) as (R1 & R2 & _ & _ & R5 & R6); [constructor|discriminate|exact ER|].
      injection H as <-. destruct (R5 eq_refl) as (_ & E2 & E3). cbn [opt_list app] in *. split; [exact R1|]. split; [exact R2|]. split; [rewrite E2; exact E3|exact R6].
  Qed.

  (** Termination: the number of rounds is bounded by the number of lines. No assumption about the words is needed. *)
  Lemma merge_round_length ls : forall acc prev did out did', mround acc prev did ls = Ok (out, did') ->
    length out <= length acc + length (opt_list prev) + length ls /\
    (did' = true -> did = true \/ length out < length acc + length (opt_list prev) + length ls).
  Proof.
    induction ls as [|c t IH]; intros acc prev did out did' H; cbn [merge_round] in H.
    - injection H as <- <-. rewrite app_length. split; [lia|]. intros ->. left. reflexivity.
    - destruct (do_merge acw prev c) eqn:EM.
      + destruct prev as [p|]; [|discriminate]. destruct (mergeTextLines implW ordS ordD h c p) as [pq| |]; try discriminate. cbn [obind] in H.
        destruct (IH _ _ _ _ _ H) as [R1 R2]. cbn [opt_list length] in *. split; [lia|]. intros _. right. lia.
      + destruct (IH _ _ _ _ _ H) as [R1 R2]. rewrite app_length in *. cbn [opt_list length] in *. split; [lia|]. intros E. destruct (R2 E); [left; assumption|right; lia].
  Qed.
  Lemma merge_rounds_fuel fuel : forall ls, length ls < fuel -> mrounds fuel ls <> None.
  Proof.
    induction fuel as [|n IH]; intros ls L; [lia|]. cbn [merge_rounds].
    destruct (mround [] None false ls) as [[ls' [|]]| |] eqn:ER; try discriminate. apply IH.
    destruct (merge_round_length _ _ _ _ _ _ ER) as [_ R]. destruct (R eq_refl) as [X|X]; [discriminate|]. cbn in X. lia.
  Qed.
  Lemma merge_rounds_mono fuel : forall ls r, mrounds fuel ls = Some r -> forall k, mrounds (fuel + k) ls = Some r.
  Proof.
    induction fuel as [|n IH]; intros ls r H k; [discriminate|]. cbn [Nat.add merge_rounds] in *.
    destruct (mround [] None false ls) as [[ls' [|]]| |]; try exact H. apply IH, H.
  Qed.
  Lemma merge_rounds_enough ls f1 f2 : length ls < f1 -> length ls < f2 -> mrounds f1 ls = mrounds f2 ls.
  Proof.
    intros L1 L2. destruct (mrounds f1 ls) as [r1|] eqn:E1; [|exfalso; exact (merge_rounds_fuel f1 ls L1 E1)].
    destruct (mrounds f2 ls) as [r2|] eqn:E2; [|exfalso; exact (merge_rounds_fuel f2 ls L2 E2)].
    rewrite <- (merge_rounds_mono _ _ _ E1 f2), <- (merge_rounds_mono _ _ _ E2 f1). f_equal. apply Nat.add_comm.
  Qed.

  (** ** Clusters *)
  Lemma unit_with w : unit_of h w = with_parts h w.
  Proof. unfold unit_of, with_parts. destruct (w_partOf (h w)); reflexivity. Qed.
  Definition matches (r : Z) (y : double) (w : nat) : bool := (rotation (pos_of h w) =? r)%Z && deq (getRotLowerY (pos_of h w)) y.
  Lemma on_baseline_snoc ws w r y : on_baseline h (ws ++ [w]) r y = on_baseline h ws r y ++ (if matches r y w then with_parts h w else []).
  Proof.
    unfold on_baseline. rewrite filter_app, flat_map_app. f_equal. cbn [filter]. unfold matches.
    destruct ((rotation (pos_of h w) =? r)%Z && deq (getRotLowerY (pos_of h w)) y); [cbn; rewrite app_nil_r|]; reflexivity.
  Qed.
  Definition nonpart (w : nat) : Prop := w_partOf (h w) = None.
  Definition keys_apart {V} (eqb : V -> V -> bool) {W} (m : list (V * W)) : Prop := ForallOrdPairs (fun a b => eqb (fst a) (fst b) = false) m.
  Definition cinv (ws : list nat) (cl : list (Z * list (double * list nat))) : Prop :=
    keys_apart Z.eqb cl /\
    (forall r m, In (r, m) cl -> keys_apart deq m /\ m <> [] /\
       forall y l, In (y, l) m -> l = on_baseline h ws r y /\
         exists w, In w ws /\ nonpart w /\ rotation (pos_of h w) = r /\ getRotLowerY (pos_of h w) = y) /\
    (forall w, In w ws -> nonpart w -> exists m y l, In (rotation (pos_of h w), m) cl /\ In (y, l) m /\ deq y (getRotLowerY (pos_of h w)) = true).
  Definition nn_words (ws : list nat) : Prop := forall w, In w ws -> nn (getRotLowerY (pos_of h w)).

  Lemma filter_none {A} (g : A -> bool) l : (forall x, In x l -> g x = false) -> filter g l = [].
  Proof. induction l as [|x l IH]; intros H; [reflexivity|]. cbn. rewrite (H x) by (left; reflexivity). apply IH. intros y Hy. apply H. right. exact Hy. Qed.

  Lemma on_baseline_none ws r y : (forall w, In w ws -> nonpart w -> matches r y w = false) -> on_baseline h ws r y = [].
  Proof.
    intros H. unfold on_baseline. apply Permutation_nil. replace (flat_map _ _) with (@nil nat); [constructor|]. symmetry.
    induction ws as [|w ws IH]; [reflexivity|]. cbn [filter]. fold (matches r y w). specialize (IH (fun x Hx => H x (or_intror Hx))).
    destruct (matches r y w) eqn:EM; [|exact IH]. cbn [flat_map]. rewrite IH, app_nil_r. unfold with_parts.
    destruct (w_partOf (h w)) eqn:EP; [reflexivity|]. rewrite (H w (or_introl eq_refl) EP) in EM. discriminate.
  Qed.

  Lemma deq_sym' a b : deq a b = true -> deq b a = true.
  Proof. rewrite deq_sym. auto. Qed.
  Lemma Zeqb_sym' a b : (a =? b)%Z = true -> (b =? a)%Z = true.
  Proof. rewrite Z.eqb_sym. auto. Qed.
  Lemma Zeqb_trans' a b c : (a =? b)%Z = true -> (b =? c)%Z = true -> (a =? c)%Z = true.
  Proof. rewrite !Z.eqb_eq. congruence. Qed.

  Lemma cluster_add_inv ws cl w : nn_words (ws ++ [w]) -> cinv ws cl -> cinv (ws ++ [w]) (cluster_add h cl w).
  Proof.
    intros NW (I1 & I2 & I3). unfold cluster_add. rewrite unit_with.
    assert (Iw : In w (ws ++ [w])) by (apply in_or_app; right; left; reflexivity).
    assert (Iws : forall x, In x ws -> In x (ws ++ [w])) by (intros x Hx; apply in_or_app; left; exact Hx).
    unfold with_parts at 1. destruct (w_partOf (h w)) as [b|] eqn:EP.
    - split; [exact I1|]. split.
      + intros r m Hm. destruct (I2 r m Hm) as (A1 & A2 & A3). split; [exact A1|]. split; [exact A2|]. intros y l Hl.
        destruct (A3 y l Hl) as (B1 & x & B2 & B3). split; [|exists x; split; [apply Iws, B2|exact B3]].
        rewrite on_baseline_snoc, B1. unfold with_parts. rewrite EP. destruct (matches r y w); rewrite app_nil_r; reflexivity.
      + intros x Hx Nx. apply in_app_or in Hx as [Hx|[<-|[]]]; [apply I3; assumption|]. unfold nonpart in Nx. congruence.
    - assert (EU : with_parts h w = w :: w_parts (h w)) by (unfold with_parts; rewrite EP; reflexivity).
      rewrite <- EU. clear EU. set (u := with_parts h w). fold (wpos h). change (wpos h w) with (pos_of h w).
      set (r0 := rotation (pos_of h w)). set (y0 := getRotLowerY (pos_of h w)).
      assert (N0 : deq y0 y0 = true) by (apply deq_refl, NW, Iw).
      set (g := fun o : option (list (double * list nat)) => assoc_update deq (push_all u) y0 (match o with None => [] | Some m => m end)).
      (* what the inner update does to a map [m] that is right for the words [ws] *)
      assert (INNER : forall m, keys_apart deq m ->
                (forall y l, In (y, l) m -> l = on_baseline h ws r0 y /\ exists x, In x ws /\ nonpart x /\ rotation (pos_of h x) = r0 /\ getRotLowerY (pos_of h x) = y) ->
                (forall x, In x ws -> nonpart x -> rotation (pos_of h x) = r0 -> exists y l, In (y, l) m /\ deq y (getRotLowerY (pos_of h x)) = true) ->
                let m' := assoc_update deq (push_all u) y0 m in
                keys_apart deq m' /\ m' <> [] /\
                (forall y l, In (y, l) m' -> l = on_baseline h (ws ++ [w]) r0 y /\ exists x, In x (ws ++ [w]) /\ nonpart x /\ rotation (pos_of h x) = r0 /\ getRotLowerY (pos_of h x) = y) /\
                (forall x, In x (ws ++ [w]) -> nonpart x -> rotation (pos_of h x) = r0 -> exists y l, In (y, l) m' /\ deq y (getRotLowerY (pos_of h x)) = true)).
      { intros m K1 K2 K3 m'. split; [apply assoc_update_pairs, K1|]. split.
        { unfold m'. destruct m as [|[a v] t]; cbn [assoc_update]; [discriminate|]. destruct (deq a y0); discriminate. }
        split.
        - intros y l Hl. rewrite on_baseline_snoc.
          destruct (assoc_update_exact deq (push_all u) y0 m y l deq_sym' deq_trans K1 Hl) as [[H1 H2]|[(v & H1 & H2 & ->)|(-> & -> & H2)]].
          + destruct (K2 y l H1) as (B1 & x & B2 & B3). split; [|exists x; split; [apply Iws, B2|exact B3]].
            unfold matches. fold y0. rewrite (deq_sym y0 y), H2, andb_false_r, app_nil_r. exact B1.
          + destruct (K2 y v H1) as (B1 & x & B2 & B3). split; [|exists x; split; [apply Iws, B2|exact B3]].
            unfold matches. fold y0 r0. rewrite (deq_sym y0 y), H2, Z.eqb_refl. cbn [andb push_all]. rewrite B1. reflexivity.
          + split; [|exists w; split; [exact Iw|]; split; [exact EP|]; split; reflexivity].
            unfold matches. fold y0 r0. rewrite N0, Z.eqb_refl. cbn [andb push_all]. rewrite on_baseline_none; [reflexivity|].
            intros x Hx Nx. unfold matches. destruct (Z.eqb_spec (rotation (pos_of h x)) r0) as [Er|]; [|reflexivity]. cbn [andb].
            destruct (K3 x Hx Nx Er) as (y1 & l1 & Q1 & Q2). specialize (H2 _ Q1). cbn [fst] in H2.
            destruct (deq (getRotLowerY (pos_of h x)) y0) eqn:EQ; [|reflexivity]. rewrite (deq_trans _ _ _ Q2 EQ) in H2. discriminate.
        - intros x Hx Nx Er. apply in_app_or in Hx as [Hx|[<-|[]]].
          + destruct (K3 x Hx Nx Er) as (y1 & l1 & Q1 & Q2). destruct (assoc_update_keeps deq (push_all u) y0 m y1 l1 Q1) as [Q|[_ Q]]; [exists y1, l1|exists y1, (push_all u (Some l1))]; split; assumption.
          + destruct (assoc_update_has deq (push_all u) y0 m N0) as (k' & v' & Q1 & Q2 & _). exists k', v'. split; assumption. }
      assert (Ma : forall m, In (r0, m) cl -> keys_apart deq (g (Some m)) /\ g (Some m) <> [] /\
                (forall y l, In (y, l) (g (Some m)) -> l = on_baseline h (ws ++ [w]) r0 y /\ exists x, In x (ws ++ [w]) /\ nonpart x /\ rotation (pos_of h x) = r0 /\ getRotLowerY (pos_of h x) = y) /\
                (forall x, In x (ws ++ [w]) -> nonpart x -> rotation (pos_of h x) = r0 -> exists y l, In (y, l) (g (Some m)) /\ deq y (getRotLowerY (pos_of h x)) = true)).
      { intros m Hm. destruct (I2 r0 m Hm) as (A1 & A2 & A3). apply (INNER m A1 A3).
        intros x Hx Nx Er. destruct (I3 x Hx Nx) as (m1 & y1 & l1 & Q1 & Q2 & Q3). rewrite Er in Q1.
        assert (m1 = m) as ->; [|exists y1, l1; split; assumption].
        clear -I1 Q1 Hm. induction cl as [|[a v] t IH]; [destruct Q1|]. inversion I1 as [|? ? HF HO]. subst. rewrite Forall_forall in HF.
        destruct Q1 as [[= -> ->]|Q1], Hm as [[= E]|Hm].
        - congruence.
        - specialize (HF _ Hm). cbn in HF. rewrite Z.eqb_refl in HF. discriminate.
        - subst. specialize (HF _ Q1). cbn in HF. rewrite Z.eqb_refl in HF. discriminate.
        - apply IH; assumption. }
      assert (Mn : (forall e, In e cl -> (fst e =? r0)%Z = false) -> keys_apart deq (g None) /\ g None <> [] /\
                (forall y l, In (y, l) (g None) -> l = on_baseline h (ws ++ [w]) r0 y /\ exists x, In x (ws ++ [w]) /\ nonpart x /\ rotation (pos_of h x) = r0 /\ getRotLowerY (pos_of h x) = y) /\
                (forall x, In x (ws ++ [w]) -> nonpart x -> rotation (pos_of h x) = r0 -> exists y l, In (y, l) (g None) /\ deq y (getRotLowerY (pos_of h x)) = true)).
      { intros NK. apply (INNER []); [constructor|intros y l []|]. intros x Hx Nx Er. exfalso.
        destruct (I3 x Hx Nx) as (m1 & y1 & l1 & Q1 & _). rewrite Er in Q1. specialize (NK _ Q1). cbn in NK. rewrite Z.eqb_refl in NK. discriminate. }
      assert (GOAL : cinv (ws ++ [w]) (assoc_update Z.eqb g r0 cl)).
      { split; [apply assoc_update_pairs, I1|]. split.
        - intros r m Hm. destruct (assoc_update_exact Z.eqb g r0 cl r m Zeqb_sym' Zeqb_trans' I1 Hm) as [[H1 H2]|[(v & H1 & H2 & ->)|(-> & -> & H2)]].
          + destruct (I2 r m H1) as (A1 & A2 & A3). split; [exact A1|]. split; [exact A2|]. intros y l Hl. destruct (A3 y l Hl) as (B1 & x & B2 & B3).
            split; [|exists x; split; [apply Iws, B2|exact B3]]. rewrite on_baseline_snoc. unfold matches. fold r0. rewrite (Z.eqb_sym r0 r), H2. cbn [andb]. rewrite app_nil_r. exact B1.
          + apply Z.eqb_eq in H2. subst r. destruct (Ma v H1) as (A1 & A2 & A3 & _). split; [exact A1|]. split; [exact A2|exact A3].
          + destruct (Mn H2) as (A1 & A2 & A3 & _). split; [exact A1|]. split; [exact A2|exact A3].
        - intros x Hx Nx. apply in_app_or in Hx as [Hx|Hx].
          + destruct (I3 x Hx Nx) as (m1 & y1 & l1 & Q1 & Q2 & Q3). destruct (assoc_update_keeps Z.eqb g r0 cl _ _ Q1) as [Q|[Q Q']].
            * exists m1, y1, l1. split; [exact Q|]. split; assumption.
            * apply Z.eqb_eq in Q. assert (Q1' : In (r0, m1) cl) by (rewrite <- Q; exact Q1). destruct (Ma m1 Q1') as (_ & _ & _ & A4).
              destruct (A4 x (Iws x Hx) Nx Q) as (y2 & l2 & Q4 & Q5). exists (g (Some m1)), y2, l2. split; [exact Q'|]. split; assumption.
          + destruct Hx as [<-|[]]. fold r0. destruct (assoc_update_has Z.eqb g r0 cl (Z.eqb_refl r0)) as (k' & v' & Q1 & Q2 & Q3). apply Z.eqb_eq in Q2. subst k'.
            assert (EX : exists y l, In (y, l) v' /\ deq y y0 = true).
            { destruct (assoc_update_exact Z.eqb g r0 cl r0 v' Zeqb_sym' Zeqb_trans' I1 Q1) as [[_ H2]|[(v & H1 & H2 & ->)|(_ & -> & H2)]].
              - rewrite Z.eqb_refl in H2. discriminate.
              - destruct (Ma v H1) as (_ & _ & _ & A4). apply (A4 w Iw EP eq_refl).
              - destruct (Mn H2) as (_ & _ & _ & A4). apply (A4 w Iw EP eq_refl). }
            destruct EX as (y & l & H1 & H2). exists v', y, l. split; [exact Q1|]. split; assumption. }
      exact GOAL.
  Qed.

  Lemma clusters_inv ws : nn_words ws -> cinv ws (clusters h ws).
  Proof.
    unfold clusters. induction ws as [|w ws IH] using rev_ind; intros NW.
    - split; [constructor|]. split; [intros r m []|intros w []].
    - rewrite fold_left_app. cbn [fold_left]. apply cluster_add_inv; [exact NW|]. apply IH. intros x Hx. apply NW. apply in_or_app. left. exact Hx.
  Qed.
  Definition words_in (cl : list (Z * list (double * list nat))) : list nat := flat_map (fun e => flat_map snd (snd e)) cl.
  Lemma clusters_words ws : Permutation (words_in (clusters h ws)) (flat_map (with_parts h) ws).
  Proof.
    unfold clusters. induction ws as [|w ws IH] using rev_ind; [constructor|].
    rewrite fold_left_app, flat_map_app. cbn [fold_left flat_map]. rewrite app_nil_r.
    rewrite <- IH. unfold cluster_add. rewrite unit_with. destruct (with_parts h w) as [|x u] eqn:EU; [rewrite app_nil_r; reflexivity|].
    unfold words_in. rewrite <- EU. apply (assoc_update_values Z.eqb _ (fun m => flat_map snd m) (with_parts h w)).
    - intros m. apply (assoc_update_values deq (push_all (with_parts h w)) (fun l => l) (with_parts h w)); [intros v; reflexivity|reflexivity].
    - cbn. rewrite app_nil_r. reflexivity.
  Qed.

  (** ** Numbering *)
  Lemma number_nth n ls i l : nth_error (number_lines n ls) i = Some l <-> exists l0, nth_error ls i = Some l0 /\
    l = mkLine (n + Z.of_nat i) (l_pos l0) (l_text l0) (l_fontName l0) (l_fontSize l0) (l_maxFontSize l0) (l_base l0) (l_words l0)
            (if i =? 0 then None else Some (n + Z.of_nat i - 1)%Z)
            (if i <? length ls - 1 then Some (n + Z.of_nat i + 1)%Z else None).
  Proof.
    unfold number_lines. set (f := fun p : nat * tline => _). rewrite nth_error_map.
    assert (C : forall (k : nat) (l' : list tline) j, nth_error (combine (seq k (length l')) l') j = match nth_error l' j with Some x => Some (k + j, x) | None => None end).
    { intros k l'. revert k. induction l' as [|x l' IH]; intros k j; [destruct j; reflexivity|]. destruct j as [|j]; cbn [length seq combine nth_error].
      - rewrite Nat.add_0_r. reflexivity.
      - rewrite IH. destruct (nth_error l' j); [|reflexivity]. replace (k + S j) with (S k + j) by lia. reflexivity. }
    rewrite C. destruct (nth_error ls i) as [x|]; cbn [option_map]; split.
    - intros [= <-]. exists x. split; [reflexivity|]. unfold f. cbn [Nat.add]. reflexivity.
    - intros (l0 & [= <-] & ->). reflexivity.
    - discriminate.
    - intros (l0 & H & _). discriminate.
  Qed.
  Lemma number_length n ls : length (number_lines n ls) = length ls.
  Proof. unfold number_lines. rewrite map_length, combine_length, seq_length. lia. Qed.
  Lemma number_content n ls : map content (number_lines n ls) = map content ls.
  Proof.
    unfold number_lines. set (f := fun p : nat * tline => _).
    assert (F : forall p, content (f p) = content (snd p)) by (intros [i l]; reflexivity). clearbody f. generalize 0.
    induction ls as [|l ls IH]; intros k; [reflexivity|]. cbn [length seq combine map]. rewrite F. f_equal. apply IH.
  Qed.
  Lemma number_numbered n ls : numbered n (number_lines n ls).
  Proof.
    intros i l H. rewrite number_length. apply number_nth in H as (l0 & H & ->). cbn [l_rank l_prev l_next]. split; [reflexivity|].
    split; [destruct i; reflexivity|]. assert (L : i < length ls) by (apply nth_error_Some; congruence).
    destruct (Nat.ltb_spec i (length ls - 1)), (Nat.eqb_spec (S i) (length ls)); try reflexivity; lia.
  Qed.
  Lemma content_pos ls ls' : map content ls = map content ls' -> map l_pos ls = map l_pos ls' /\ map l_words ls = map l_words ls'.
  Proof.
    revert ls'. induction ls as [|l ls IH]; intros [|l' ls']; cbn [map]; intros H; try discriminate; [split; reflexivity|].
    injection H. intros H1 H2 H3 H4 H5 H6 H7 H8. destruct (IH ls' H1). split; congruence.
  Qed.
  Lemma stable_content ls ls' : map content ls = map content ls' -> stable ls -> stable ls'.
  Proof.
    intros E St l1 a b l2 ->. rewrite map_app in E. cbn [map] in E.
    assert (forall X Y : list tline, forall x : list tline, map content x = map content X ++ map content Y -> exists u v, x = u ++ v /\ map content u = map content X /\ map content v = map content Y) as SP.
    { intros X. induction X as [|z X IH]; intros Y x Hx; [exists [], x; repeat split; exact Hx|].
      destruct x as [|x0 x]; [discriminate|]. cbn [map app] in Hx. injection Hx as G1 G2 G3 G4 G5 G6 G7 G8. destruct (IH Y x G8) as (u & v & -> & A & B). exists (x0 :: u), v. split; [reflexivity|]. split; [|exact B]. cbn [map]. rewrite A. f_equal. unfold content. congruence. }
    destruct (SP l1 (a :: b :: l2) ls E) as (u & v & -> & A & B). destruct v as [|a' [|b' v]]; try discriminate. 
    pose proof (St u a' b' v eq_refl) as Q. apply content_pos in B as [B _]. cbn [map] in B. injection B as B1 B2 _. rewrite <- B1, <- B2. exact Q.
  Qed.

  Lemma omap_ok {A B} (f : A -> outcome B) l r : omap f l = Ok r -> Forall2 (fun x y => f x = Ok y) l r.
  Proof.
    revert r. induction l as [|x l IH]; cbn [omap]; intros r H; [injection H as <-; constructor|].
    destruct (f x) as [y| |] eqn:E; try discriminate. cbn [obind] in H. destruct (omap f l) as [ys'| |] eqn:E2; try discriminate. cbn [obind] in H.
    injection H as <-. constructor; [exact E|apply IH; reflexivity].
  Qed.

  (** ** One rotation, one segment *)
  Definition good_words (ws : list nat) : Prop := fin_words h ws /\ fin_words h (flat_map (with_parts h) ws).

  Lemma fin_rot p : fin_pos p -> nn (getRotLowerY p).
  Proof. intros (F1 & F2 & F3 & F4). apply fin_nn. unfold getRotLowerY. destruct (rotation p) as [|[[]|[]|]|]; assumption. Qed.
  Lemma on_baseline_incl ws r y w : In w (on_baseline h ws r y) -> In w (flat_map (with_parts h) ws).
  Proof. unfold on_baseline. intros H. apply in_flat_map in H as (x & Hx & H). apply filter_In in Hx as [Hx _]. apply in_flat_map. exists x. split; assumption. Qed.

  Lemma rotation_lines_ok n r m ws out : good_words ws -> In (r, m) (clusters h ws) ->
    rotation_lines implW implL ordS ordD ordY acw h n r m = Ok out ->
    lines_with_rotation h acw ws r out /\ numbered n out /\ Permutation (flat_map snd m) (flat_map l_words out).
  Proof.
    intros [G1 G2] Hm H. unfold rotation_lines in H.
    assert (NW : nn_words ws) by (intros w Hw; apply fin_rot, G1, Hw).
    destruct (clusters_inv ws NW) as (I1 & I2 & I3). destruct (I2 r m Hm) as (A1 & A2 & A3).
    destruct (omap _ (ordY m)) as [l0| |] eqn:EO; try discriminate. cbn [obind] in H. apply omap_ok in EO.
    destruct (std_sort implL (line_lt r) l0) as [l1| |] eqn:ES; try discriminate. cbn [obind] in H.
    destruct (merge_rounds _ _ _ _ _ _ _) as [[ls| |]|] eqn:EM; try discriminate. cbn [obind] in H. injection H as <-.
    pose proof (HY m) as PY.
    assert (F0 : Forall2 (fun e l => line_of h (on_baseline h ws r (fst e)) l /\ okl l /\ snd e = on_baseline h ws r (fst e)) (ordY m) l0).
    { revert EO. assert (SUB : forall e, In e (ordY m) -> In e m) by (intros e He; apply (Permutation_in _ (Permutation_sym PY)), He).
      generalize (ordY m) SUB. intros m0. revert l0 ES. intros l0 _. revert l0. induction m0 as [|[y l] m0 IH]; intros l0 SUB0 F; inversion F as [|? ? ? ? Hx Hr]; subst; constructor.
      - cbn [fst snd] in *. destruct (A3 y l (SUB0 _ (or_introl eq_refl))) as (B1 & w & B2 & B3 & B4 & B5).
        assert (NE : l <> []).
        { assert (Iw : In w l). { rewrite B1. unfold on_baseline. apply in_flat_map. exists w. split; [|unfold with_parts; rewrite B3; left; reflexivity].
            apply filter_In. split; [exact B2|]. rewrite B4, Z.eqb_refl, B5. cbn [andb]. apply deq_refl. rewrite <- B5. apply NW, B2. }
          intros E. rewrite E in Iw. destruct Iw. }
        assert (FW : fin_words h l) by (intros x Hx'; apply G2; rewrite B1 in Hx'; apply (on_baseline_incl _ _ _ _ Hx')).
        destruct (create_ok l y0 NE FW Hx) as [C1 C2]. rewrite <- B1. split; [exact C1|]. split; [exact C2|reflexivity].
      - apply IH; [|exact Hr]. intros e He. apply SUB0. right. exact He. }
    pose proof (std_sort_perm implL _ _ _ HL ES) as PL.
    assert (OL : ordered (line_lt r) l1) by (apply ord_ordered, (std_sort_ord implL _ _ _ HL ES)).
    destruct (perm_Forall2 _ _ _ PL _ F0) as (es & PE & F1).
    assert (OK1 : Forall okl l1) by (clear -F1; induction F1 as [|e l es l1 (_ & Q & _) _ IH]; constructor; assumption).
    destruct (merge_rounds_ok _ _ _ OK1 EM) as (M1 & M2 & M3 & M4).
    assert (CL : map content ls = ls) by (clear -M2; induction M2 as [|l ls (_ & Q & _) _ IH]; cbn [map]; [reflexivity|congruence]).
    pose proof (number_content n ls) as NC. split; [|split].
    - exists (map fst es), l1.
      assert (SUB : forall e, In e es <-> In e m).
      { intros e. split; intros He.
        - apply (Permutation_in _ (Permutation_sym PY)), (Permutation_in _ (Permutation_sym PE)), He.
        - apply (Permutation_in _ PE), (Permutation_in _ PY), He. }
      split; [|split; [|split; [|split; [|split; [|split]]]]].
      + intros y Hy. apply in_map_iff in Hy as ([y' l] & <- & He). apply SUB in He. destruct (A3 _ _ He) as (_ & w & B2 & B3 & B4 & B5). exists w. repeat split; assumption.
      + intros w Hw Nw Er. destruct (I3 w Hw Nw) as (m1 & y1 & ll & Q1 & Q2 & Q3). rewrite Er in Q1.
        assert (m1 = m) as ->.
        { clear -I1 Q1 Hm. induction (clusters h ws) as [|[a v] t IH]; [destruct Q1|]. inversion I1 as [|? ? HF HO]. subst. rewrite Forall_forall in HF.
          destruct Q1 as [[= -> ->]|Q1], Hm as [[= E]|Hm].
          - congruence.
          - specialize (HF _ Hm). cbn in HF. rewrite Z.eqb_refl in HF. discriminate.
          - subst. specialize (HF _ Q1). cbn in HF. rewrite Z.eqb_refl in HF. discriminate.
          - apply IH; assumption. }
        exists y1. split; [apply in_map_iff; exists (y1, ll); split; [reflexivity|apply SUB, Q2]|apply deq_sym', Q3].
      + assert (K : ForallOrdPairs (fun a b : double => deq a b = false) (map fst m)).
        { clear -A1. unfold keys_apart in A1. induction A1 as [|e t HF _ IH]; cbn [map]; constructor; [|exact IH]. apply Forall_forall. intros y Hy.
          apply in_map_iff in Hy as (e' & <- & He). rewrite Forall_forall in HF. apply HF, He. }
        apply (perm_FOP _ (fun x y Q => eq_trans (deq_sym y x) Q) (map fst m)); [|exact K]. apply Permutation_map. rewrite PY. exact PE.
      + clear -F1. induction F1 as [|e l es l1 (Q & _) _ IH]; cbn [map]; constructor; assumption.
      + intros a x b y c EQ. exact (OL a x b y c EQ).
      + rewrite NC, CL. exact M1.
      + apply (stable_content ls); [symmetry; exact NC|exact M3].
    - apply number_numbered.
    - transitivity (flat_map l_words ls).
      + rewrite <- M4. transitivity (flat_map snd es); [apply Permutation_flat_map; rewrite PY; exact PE|].
        clear -F1. induction F1 as [|e l es l1 (Q & _ & E) _ IH]; cbn [flat_map]; [reflexivity|]. apply Permutation_app; [|exact IH]. rewrite E. apply (proj1 (line_of_words _ _ Q)).
      + apply content_pos in NC as [_ NC]. rewrite !flat_map_concat_map, <- NC. reflexivity.
  Qed.

  Lemma rotations_lines_ok ws cls : good_words ws -> (forall e, In e cls -> In e (clusters h ws)) -> forall n out,
    rotations_lines implW implL ordS ordD ordY acw h n cls = Ok out ->
    grouped_lines h acw ws n (map fst cls) out /\ Permutation (words_in cls) (flat_map l_words (concat out)).
  Proof.
    intros GW. induction cls as [|[r m] t IH]; intros SUB n out H; cbn [rotations_lines] in H.
    - injection H as <-. split; constructor.
    - destruct (rotation_lines _ _ _ _ _ _ _ n r m) as [g| |] eqn:ER; try discriminate. cbn [obind] in H.
      destruct (rotations_lines _ _ _ _ _ _ _ _ t) as [gs| |] eqn:EG; try discriminate. cbn [obind] in H. injection H as <-.
      destruct (rotation_lines_ok n r m ws g GW (SUB _ (or_introl eq_refl)) ER) as (R1 & R2 & R3).
      destruct (IH (fun e He => SUB e (or_intror He)) _ _ EG) as [Q1 Q2]. split; [constructor; assumption|].
      unfold words_in. cbn [flat_map snd concat]. rewrite flat_map_app. apply Permutation_app; [exact R3|exact Q2].
  Qed.

  Lemma segment_lines_ok n ws gs : good_words ws -> segment_lines implW implL ordS ordD ordR ordY acw h n ws = Ok gs ->
    Permutation (flat_map (with_parts h) ws) (flat_map l_words (concat gs)) /\
    exists rs, NoDup rs /\ (forall r, In r rs <-> exists w, In w ws /\ w_partOf (h w) = None /\ rotation (pos_of h w) = r) /\
      grouped_lines h acw ws n rs gs.
  Proof.
    intros GW H. unfold segment_lines in H. destruct ws as [|w0 wt] eqn:EW.
    - injection H as <-. split; [constructor|]. exists []. split; [constructor|]. split; [|constructor]. intros r. split; [intros []|intros (w & [] & _)].
    - rewrite <- EW in *. clear EW w0 wt.
      assert (SUB : forall e, In e (ordR (clusters h ws)) <-> In e (clusters h ws)).
      { intros e. split; apply Permutation_in; [symmetry|]; apply HR. }
      destruct (rotations_lines_ok ws _ GW (fun e => proj1 (SUB e)) n gs H) as [R1 R2]. split.
      + rewrite <- R2, <- clusters_words. unfold words_in. apply Permutation_flat_map, HR.
      + assert (NW : nn_words ws) by (intros w Hw; apply fin_rot, (proj1 GW), Hw).
        destruct (clusters_inv ws NW) as (I1 & I2 & I3). exists (map fst (ordR (clusters h ws))). split; [|split; [|exact R1]].
        * apply (Permutation_NoDup (Permutation_map fst (HR (clusters h ws)))). clear -I1. unfold keys_apart in I1.
          induction I1 as [|e t HF _ IH]; cbn [map]; constructor; [|exact IH]. intros X. apply in_map_iff in X as (e' & E & He).
          rewrite Forall_forall in HF. specialize (HF _ He). rewrite E, Z.eqb_refl in HF. discriminate.
        * intros r. split.
          -- intros Hr. apply in_map_iff in Hr as ([r' m] & <- & He). apply SUB in He. destruct (I2 _ _ He) as (_ & NE & A3).
             destruct m as [|[y l] m]; [congruence|]. destruct (A3 y l (or_introl eq_refl)) as (_ & w & B1 & B2 & B3 & _). exists w. repeat split; assumption.
          -- intros (w & Hw & Nw & Er). destruct (I3 w Hw Nw) as (m & y & l & Q1 & _). rewrite Er in Q1. apply in_map_iff. exists (r, m). split; [reflexivity|apply SUB, Q1].
  Qed.
End M.
