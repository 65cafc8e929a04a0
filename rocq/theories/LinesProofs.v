(** LinesProofs.v - proofs about text lines. *)
From Coq Require Import ZArith NArith Reals Lra.
From Flocq Require Import Core.
From Verif Require Import Base Double DoubleFacts MathUtils MathUtilsProofs Sort Elements ElementsProofs GeometrySpec GridProofs
  Counter CounterProofs UtilsSpec Document Lines LinesSpec WordsProofs DiacriticsProofs.
Local Open Scope nat_scope.
Local Opaque TOL dZ dadd dsub ddiv dmul dec DBL_MAX DBL_MIN.

(** ** Lists *)
Section Lists.
  Context {A B : Type}.
  Lemma perm_Forall2 (P : A -> B -> Prop) (l l' : list B) : Permutation l l' -> forall bs, Forall2 P bs l ->
    exists bs', Permutation bs bs' /\ Forall2 P bs' l'.
  Proof.
    induction 1 as [|x l l' _ IH|x y l|l l' l'' _ IH1 _ IH2]; intros bs HF.
    - inversion HF. subst. exists []. split; constructor.
    - inversion HF as [|b ? bs0 ? Hb Hr]. subst. destruct (IH _ Hr) as (bs' & P1 & P2).
      exists (b :: bs'). split; constructor; assumption.
    - inversion HF as [|b ? bs0 ? Hb Hr]. subst. inversion Hr as [|b' ? bs1 ? Hb' Hr']. subst.
      exists (b' :: b :: bs1). split; [apply perm_swap|]. constructor; [assumption|]. constructor; assumption.
    - destruct (IH1 _ HF) as (bs1 & P1 & F1). destruct (IH2 _ F1) as (bs2 & P2 & F2).
      exists bs2. split; [etransitivity; eassumption|assumption].
  Qed.
  Lemma perm_FOP (R : A -> A -> Prop) : (forall x y, R x y -> R y x) -> forall l l', Permutation l l' ->
    ForallOrdPairs R l -> ForallOrdPairs R l'.
  Proof.
    intros S l l' HP. induction HP as [|x l l' P IH|x y l|l l' l'' _ IH1 _ IH2]; intros H.
    - constructor.
    - inversion H as [|? ? HF HO]. subst. constructor; [|apply IH, HO]. apply Forall_forall. intros z Hz.
      rewrite Forall_forall in HF. apply HF. apply (Permutation_in _ (Permutation_sym P)), Hz.
    - inversion H as [|? ? HF HO]. subst. inversion HO as [|? ? HF' HO']. subst.
      inversion HF as [|? ? Hxy HF2]. subst. constructor.
      + constructor; [apply S; assumption|assumption].
      + constructor; assumption.
    - apply IH2, IH1, H.
  Qed.
End Lists.

Lemma is_least_perm x l l' : Permutation l l' -> is_least x l -> is_least x l'.
Proof.
  intros P [H1 (v & H2 & H3)]. split.
  - intros u Hu. apply H1. apply (Permutation_in _ (Permutation_sym P)), Hu.
  - exists v. split; [apply (Permutation_in _ P), H2|exact H3].
Qed.
Lemma is_greatest_perm x l l' : Permutation l l' -> is_greatest x l -> is_greatest x l'.
Proof.
  intros P [H1 (v & H2 & H3)]. split.
  - intros u Hu. apply H1. apply (Permutation_in _ (Permutation_sym P)), Hu.
  - exists v. split; [apply (Permutation_in _ P), H2|exact H3].
Qed.
Lemma xs_perm p q : Permutation p q -> Permutation (xs p) (xs q).
Proof. intros H. apply Permutation_flat_map, H. Qed.
Lemma ys_perm p q : Permutation p q -> Permutation (ys p) (ys q).
Proof. intros H. apply Permutation_flat_map, H. Qed.
Lemma smallest_box_perm b p q : Permutation p q -> smallest_box b p -> smallest_box b q.
Proof.
  intros P (H1 & H2 & H3 & H4). split; [|split; [|split]].
  - apply (is_least_perm _ _ _ (xs_perm _ _ P) H1).
  - apply (is_least_perm _ _ _ (ys_perm _ _ P) H2).
  - apply (is_greatest_perm _ _ _ (perm_skip _ (xs_perm _ _ P)) H3).
  - apply (is_greatest_perm _ _ _ (perm_skip _ (ys_perm _ _ P)) H4).
Qed.

(** ** The running box *)
Definition fin_pos (p : position) : Prop :=
  is_fin (leftX p) = true /\ is_fin (upperY p) = true /\ is_fin (rightX p) = true /\ is_fin (lowerY p) = true.
Lemma line_box_fields l : forall b,
  leftX (fold_left line_box_add l b) = fold_left (fun x p => minimum x (minimum (leftX p) (rightX p))) l (leftX b) /\
  upperY (fold_left line_box_add l b) = fold_left (fun x p => minimum x (minimum (lowerY p) (upperY p))) l (upperY b) /\
  rightX (fold_left line_box_add l b) = fold_left (fun x p => maximum x (maximum (leftX p) (rightX p))) l (rightX b) /\
  lowerY (fold_left line_box_add l b) = fold_left (fun x p => maximum x (maximum (lowerY p) (upperY p))) l (lowerY b) /\
  pageNum (fold_left line_box_add l b) = pageNum b /\ rotation (fold_left line_box_add l b) = rotation b /\
  wMode (fold_left line_box_add l b) = wMode b.
Proof. induction l as [|p l IH]; intros b; cbn [fold_left]; [repeat split|]. apply (IH (line_box_add b p)). Qed.

(** [two p] are two values of a position of which [f] takes the smaller (larger). *)
Lemma run_least (f : position -> double) (two : position -> list double) l a :
  (forall p, In p l -> nn (f p) /\ (forall v, In v (two p) -> dle (f p) v = true) /\ In (f p) (two p)) -> l <> [] ->
  nn a -> (In a (flat_map two l) \/ exists v, In v (flat_map two l) /\ (deq a v = true \/ dle v a = true)) ->
  is_least (fold_left (fun x p => minimum x (f p)) l a) (flat_map two l).
Proof.
  intros Hf NE Na Ha.
  destruct (nn_min_run f l a Na (fun p Hp => proj1 (Hf p Hp))) as (R1 & R2 & R3 & R4).
  assert (LB : forall v, In v (flat_map two l) -> dle (fold_left (fun x p => minimum x (f p)) l a) v = true).
  { intros v Hv. apply in_flat_map in Hv as (p & Hp & Hv). eapply dle_trans; [apply (R3 p Hp)|]. apply (Hf p Hp), Hv. }
  split; [exact LB|]. destruct R4 as [R4|(p & Hp & R4)].
  - destruct Ha as [Ha|(v & Hv & [Ha|Ha])].
    + exists a. split; [exact Ha|]. rewrite R4. apply deq_refl, Na.
    + exists v. split; [exact Hv|]. rewrite R4. exact Ha.
    + exists v. split; [exact Hv|]. apply dle_antisym; [apply LB, Hv|]. rewrite R4. exact Ha.
  - exists (f p). split; [|rewrite R4; apply deq_refl, (Hf p Hp)].
    apply in_flat_map. exists p. split; [exact Hp|apply (Hf p Hp)].
Qed.
Lemma run_greatest (f : position -> double) (two : position -> list double) l a d : nn d ->
  (forall p, In p l -> nn (f p) /\ (forall v, In v (two p) -> dle v (f p) = true) /\ In (f p) (two p)) ->
  nn a -> dle d a = true -> (exists v, In v (d :: flat_map two l) /\ deq a v = true) ->
  is_greatest (fold_left (fun x p => maximum x (f p)) l a) (d :: flat_map two l).
Proof.
  intros Nd Hf Na Da Ha.
  destruct (nn_max_run f l a Na (fun p Hp => proj1 (Hf p Hp))) as (R1 & R2 & R3 & R4).
  split.
  - intros v [<-|Hv]; [eapply dle_trans; eassumption|].
    apply in_flat_map in Hv as (p & Hp & Hv). eapply dle_trans; [|apply (R3 p Hp)]. apply (Hf p Hp), Hv.
  - destruct R4 as [R4|(p & Hp & R4)].
    + destruct Ha as (v & Hv & Ha). exists v. split; [exact Hv|]. rewrite R4. exact Ha.
    + exists (f p). split; [|rewrite R4; apply deq_refl, (Hf p Hp)].
      right. apply in_flat_map. exists p. split; [exact Hp|apply (Hf p Hp)].
Qed.

(** What is known about a box before it is extended by the words [ps]. *)
Definition box_pre (b : position) (ps : list position) : Prop :=
  (leftX b = DBL_MAX \/ exists v, In v (xs ps) /\ deq (leftX b) v = true) /\
  (upperY b = DBL_MAX \/ exists v, In v (ys ps) /\ deq (upperY b) v = true) /\
  (dle DBL_MIN (rightX b) = true /\ exists v, In v (DBL_MIN :: xs ps) /\ deq (rightX b) v = true) /\
  (dle DBL_MIN (lowerY b) = true /\ exists v, In v (DBL_MIN :: ys ps) /\ deq (lowerY b) v = true).
Lemma DBL_MIN_nn : nn DBL_MIN. Proof. reflexivity. Qed.
Lemma DBL_MAX_nn : nn DBL_MAX. Proof. reflexivity. Qed.
Lemma box_pre_default b ps : leftX b = DBL_MAX -> upperY b = DBL_MAX -> rightX b = DBL_MIN -> lowerY b = DBL_MIN -> box_pre b ps.
Proof.
  intros H1 H2 H3 H4. split; [left; exact H1|]. split; [left; exact H2|]. split.
  - rewrite H3. split; [apply dle_refl, DBL_MIN_nn|]. exists DBL_MIN. split; [left; reflexivity|apply deq_refl, DBL_MIN_nn].
  - rewrite H4. split; [apply dle_refl, DBL_MIN_nn|]. exists DBL_MIN. split; [left; reflexivity|apply deq_refl, DBL_MIN_nn].
Qed.
Lemma box_pre_mono b ps qs : (forall p, In p ps -> In p qs) -> smallest_box b ps -> box_pre b qs.
Proof.
  intros I (H1 & H2 & H3 & H4).
  assert (IX : forall v, In v (xs ps) -> In v (xs qs)) by (intros v Hv; apply in_flat_map in Hv as (p & Hp & Hv); apply in_flat_map; exists p; split; [apply I, Hp|exact Hv]).
  assert (IY : forall v, In v (ys ps) -> In v (ys qs)) by (intros v Hv; apply in_flat_map in Hv as (p & Hp & Hv); apply in_flat_map; exists p; split; [apply I, Hp|exact Hv]).
  split; [|split; [|split]].
  - right. destruct H1 as [_ (v & Hv & E)]. exists v. split; [apply IX, Hv|exact E].
  - right. destruct H2 as [_ (v & Hv & E)]. exists v. split; [apply IY, Hv|exact E].
  - destruct H3 as [H (v & Hv & E)]. split; [apply H; left; reflexivity|]. exists v. split; [|exact E].
    destruct Hv as [<-|Hv]; [left; reflexivity|right; apply IX, Hv].
  - destruct H4 as [H (v & Hv & E)]. split; [apply H; left; reflexivity|]. exists v. split; [|exact E].
    destruct Hv as [<-|Hv]; [left; reflexivity|right; apply IY, Hv].
Qed.
Lemma box_extended b ps : ps <> [] -> (forall p, In p ps -> fin_pos p) -> box_pre b ps ->
  smallest_box (fold_left line_box_add ps b) ps.
Proof.
  intros NE FP (P1 & P2 & (P3 & P3') & (P4 & P4')).
  destruct (line_box_fields ps b) as (F1 & F2 & F3 & F4 & _). unfold smallest_box. rewrite F1, F2, F3, F4.
  assert (NN : forall p, In p ps -> nn (leftX p) /\ nn (rightX p) /\ nn (upperY p) /\ nn (lowerY p)).
  { intros p Hp. destruct (FP p Hp) as (? & ? & ? & ?). repeat split; apply fin_nn; assumption. }
  split; [|split; [|split]].
  - apply (run_least (fun p => minimum (leftX p) (rightX p)) (fun p => [leftX p; rightX p])); [|exact NE| |].
    + intros p Hp. destruct (NN p Hp) as (N1 & N2 & _). split; [apply minimum_nn; assumption|]. split.
      * intros v [<-|[<-|[]]]; [apply minimum_le_l|apply minimum_le_r]; assumption.
      * destruct (minimum_cases (leftX p) (rightX p)) as [->| ->]; [left|right; left]; reflexivity.
    + destruct P1 as [->|(v & Hv & E)]; [apply DBL_MAX_nn|apply (deq_nn _ _ E)].
    + right. destruct P1 as [->|(v & Hv & E)]; [|exists v; split; [exact Hv|left; exact E]].
      destruct ps as [|p t]; [congruence|]. exists (leftX p). split; [left; reflexivity|]. right. apply fin_le_max. apply (FP p (or_introl eq_refl)).
  - apply (run_least (fun p => minimum (lowerY p) (upperY p)) (fun p => [upperY p; lowerY p])); [|exact NE| |].
    + intros p Hp. destruct (NN p Hp) as (_ & _ & N1 & N2). split; [apply minimum_nn; assumption|]. split.
      * intros v [<-|[<-|[]]]; [apply minimum_le_r|apply minimum_le_l]; assumption.
      * destruct (minimum_cases (lowerY p) (upperY p)) as [->| ->]; [right; left|left]; reflexivity.
    + destruct P2 as [->|(v & Hv & E)]; [apply DBL_MAX_nn|apply (deq_nn _ _ E)].
    + right. destruct P2 as [->|(v & Hv & E)]; [|exists v; split; [exact Hv|left; exact E]].
      destruct ps as [|p t]; [congruence|]. exists (upperY p). split; [left; reflexivity|]. right. apply fin_le_max. apply (FP p (or_introl eq_refl)).
  - apply (run_greatest (fun p => maximum (leftX p) (rightX p)) (fun p => [leftX p; rightX p])); [apply DBL_MIN_nn| | |exact P3|exact P3'].
    + intros p Hp. destruct (NN p Hp) as (N1 & N2 & _). split; [apply maximum_nn; assumption|]. split.
      * intros v [<-|[<-|[]]]; [apply maximum_ge_l|apply maximum_ge_r]; assumption.
      * destruct (maximum_cases (leftX p) (rightX p)) as [->| ->]; [left|right; left]; reflexivity.
    + apply (dle_nn _ _ P3).
  - apply (run_greatest (fun p => maximum (lowerY p) (upperY p)) (fun p => [upperY p; lowerY p])); [apply DBL_MIN_nn| | |exact P4|exact P4'].
    + intros p Hp. destruct (NN p Hp) as (_ & _ & N1 & N2). split; [apply maximum_nn; assumption|]. split.
      * intros v [<-|[<-|[]]]; [apply maximum_ge_r|apply maximum_ge_l]; assumption.
      * destruct (maximum_cases (lowerY p) (upperY p)) as [->| ->]; [right; left|left]; reflexivity.
    + apply (dle_nn _ _ P4).
Qed.

(** ** Counters *)
Lemma occ_perm {K} (eqb : K -> K -> bool) k l l' : Permutation l l' -> occ eqb k l = occ eqb k l'.
Proof.
  intros P. unfold occ. apply Permutation_length. induction P as [|x l l' P IH|x y l|l l' l'' P1 IH1 P2 IH2]; cbn [filter].
  - reflexivity.
  - destruct (eqb k x); [constructor|]; exact IH.
  - destruct (eqb k x), (eqb k y); try reflexivity. apply perm_swap.
  - etransitivity; eassumption.
Qed.
Lemma most_frequent_perm {K} (eqb : K -> K -> bool) x l l' : Permutation l l' -> most_frequent eqb x l -> most_frequent eqb x l'.
Proof.
  intros P [H1 H2]. split; [apply (Permutation_in _ P), H1|]. intros y Hy.
  rewrite <- !(occ_perm eqb _ l l' P). apply H2. apply (Permutation_in _ (Permutation_sym P)), Hy.
Qed.
Lemma guarded_frequent {K} (eqb : K -> K -> bool) (k0 d : K) l m k :
  (forall a b, eqb a b = true -> eqb b a = true) -> (forall a b c, eqb a b = true -> eqb b c = true -> eqb a c = true) ->
  (forall x, In x l -> eqb x x = true) -> (N.of_nat (length l) < 2 ^ 32)%N -> l <> [] ->
  Permutation (count_all eqb l) m -> (if (0 <? sumCounts m)%N then mostFreq k0 m else Ok d) = Ok k -> most_frequent eqb k l.
Proof.
  intros HS HT HR L NE P H. rewrite (sumCounts_counted eqb l m L P) in H.
  assert (LP : length l <> 0) by (destruct l; [congruence|discriminate]).
  destruct (N.ltb_spec 0 (N.of_nat (length l))) as [_|X]; [|lia].
  destruct (mostFreq_counted eqb HS HT l k0 m HR L P) as [_ R]. destruct (R NE) as (k' & E1 & E2 & E3).
  unfold mostFreq in H. rewrite E1 in H. cbn in H. injection H as <-. split; assumption.
Qed.
Lemma count_keys {K} (eqb : K -> K -> bool) (l : list K) e : In e (count_all eqb l) -> In (fst e) l.
Proof.
  unfold count_all. revert e. induction l as [|x l IH] using rev_ind; intros e; [intros []|]. rewrite fold_left_app. cbn [fold_left].
  intros H. apply in_or_app. destruct (incr_keys eqb x _ e H) as [(m & Hm)|E].
  - left. apply (IH _ Hm).
  - right. left. symmetry. exact E.
Qed.
Lemma sum_pos {K} (m : list (K * N)) : (0 < sumCounts m)%N -> exists k n, In (k, n) m /\ (0 < n)%N.
Proof.
  rewrite sumCounts_mod. intros P.
  assert (Q : (0 < fold_right N.add 0%N (map snd m))%N).
  { destruct (N.eq_dec (fold_right N.add 0%N (map snd m)) 0%N) as [E|E]; [|lia]. rewrite E in P. cbn in P. lia. }
  clear P. induction m as [|[k n] m IH]; cbn in Q; [lia|]. destruct (N.eq_dec n 0%N) as [->|NZ].
  - destruct (IH Q) as (k' & n' & H1 & H2). exists k', n'. split; [right; exact H1|exact H2].
  - exists k, n. split; [left; reflexivity|lia].
Qed.
Lemma tenth_larger f : dle (dec 1 1) f = true -> larger f DBL_MIN TOL = true.
Proof.
  intros H. unfold larger, dgt. eapply dlt_le_trans; [|exact H]. vm_compute. reflexivity.
Qed.
Lemma guarded_max d l m : Permutation (count_all deq l) m -> (forall f, In f l -> dle (dec 1 1) f = true) ->
  exists x, (if (0 <? sumCounts m)%N then counter_max m else Ok d) = Ok x.
Proof.
  intros P H. destruct (N.ltb_spec 0 (sumCounts m)) as [Q|Q]; [|eauto].
  destruct (sum_pos m Q) as (k & n & H1 & H2). destruct (counter_max_guarded m) as [G _].
  destruct G as (x & n' & E & _); [|exists x; exact E].
  exists k, n. split; [exact H1|]. split; [exact H2|]. apply tenth_larger, H.
  apply (count_keys deq l (k, n)). apply (Permutation_in _ (Permutation_sym P)), H1.
Qed.
Lemma max_counted d l m x : Permutation (count_all deq l) m -> (N.of_nat (length l) < 2 ^ 32)%N -> l <> [] ->
  (forall f, In f l -> is_nan_d f = false) ->
  (if (0 <? sumCounts m)%N then counter_max m else Ok d) = Ok x -> In x l /\ forall f, In f l -> larger f x TOL = false.
Proof.
  intros P L NE NN H. rewrite (sumCounts_counted deq l m L P) in H.
  assert (LP : length l <> 0) by (destruct l; [congruence|discriminate]).
  destruct (N.ltb_spec 0 (N.of_nat (length l))) as [_|X]; [|lia].
  assert (HR : forall f, In f l -> deq f f = true) by (intros f Hf; apply deq_refl; unfold nn; apply NN, Hf).
  destruct (count_all_inv deq (fun a b Q => eq_trans (deq_sym b a) Q) deq_trans l HR L) as (I1 & I2 & _).
  destruct (counter_max_spec m) as [(x' & n & E & H1 & H2 & H3)|[(w & E) _]]; [|rewrite E in H; discriminate].
  rewrite E in H. injection H as <-. apply (Permutation_in _ (Permutation_sym P)) in H1. split; [apply (I1 _ _ H1)|].
  intros f Hf. destruct (I2 f Hf) as (k & n' & K1 & K2). pose proof (I1 _ _ K1) as [Kin Kn].
  assert (Z : larger k x' TOL = false).
  { apply (H3 k n'); [apply (Permutation_in _ P), K1|]. rewrite Kn. unfold occ.
    assert (In f (filter (deq k) l)) by (apply filter_In; split; [exact Hf|exact K2]).
    destruct (filter (deq k) l); [destruct H|cbn [length]; lia]. }
  destruct (larger f x' TOL) eqn:EL; [|reflexivity]. exfalso. unfold larger, dgt in *.
  rewrite (dlt_le_trans _ f k) in Z; [discriminate|exact EL|]. apply deq_dle. rewrite deq_sym. exact K2.
Qed.

(** ** Making a line *)
Section L.
  Context (implW : (nat -> nat -> bool) -> list nat -> list nat) (implL : (tline -> tline -> bool) -> list tline -> list tline).
  Context (ordS : list (str * N) -> list (str * N)) (ordD : list (double * N) -> list (double * N)).
  Context (ordR : list (Z * list (double * list nat)) -> list (Z * list (double * list nat)))
          (ordY : list (double * list nat) -> list (double * list nat)).
  Context (acw : double) (h : heap).
  Context (HW : sort_ok implW) (HL : sort_ok implL).
  Context (HS : forall m, Permutation m (ordS m)) (HD : forall m, Permutation m (ordD m)).
  Context (HR : forall m, Permutation m (ordR m)) (HY : forall m, Permutation m (ordY m)).

  Lemma word_lt_read rot i j : word_lt h rot i j = read_before rot (pos_of h i) (pos_of h j).
  Proof. reflexivity. Qed.
  Lemma chars_all ws : chars_of h ws = all_chars h ws.
  Proof. unfold chars_of, all_chars. rewrite flat_map_concat_map. reflexivity. Qed.
  Lemma chars_perm ws ws' : Permutation ws ws' -> Permutation (all_chars h ws) (all_chars h ws').
  Proof. intros P. apply Permutation_flat_map, P. Qed.
  Lemma join_blank ws : join_words h ws = blank_separated (map (fun i => w_text (h i)) ws).
  Proof.
    induction ws as [|w t IH]; [reflexivity|]. destruct t as [|w' t]; [reflexivity|].
    change (join_words h (w :: w' :: t)) with (w_text (h w) ++ " "%char :: join_words h (w' :: t)). rewrite IH. reflexivity.
  Qed.

  Definition pre (l : tline) : Prop :=
    box_pre (l_pos l) (map (pos_of h) (l_words l)) /\
    (all_chars h (l_words l) = [] -> l_fontName l = [] /\ l_fontSize l = dopp done /\ l_maxFontSize l = dzero /\ l_base l = dzero).
  Definition fin_words (ws : list nat) : Prop := forall w, In w ws -> fin_pos (pos_of h w).
  Definition same_refs (l l' : tline) : Prop := l_rank l' = l_rank l /\ l_prev l' = l_prev l /\ l_next l' = l_next l.

  Lemma properties_ok l l' : l_words l <> [] -> fin_words (l_words l) -> pre l ->
    computeTextLineProperties implW ordS ordD h l = Ok l' -> line_of h (l_words l) l' /\ same_refs l l'.
  Proof.
    intros NE FW [BP DF] H. unfold computeTextLineProperties in H. destruct (l_words l) as [|w0 wt] eqn:EW; [congruence|].
    cbn iota in H. cbv zeta in H. rewrite <- EW in *.
    destruct (std_sort implW (word_lt h (rotation (wpos h w0))) (l_words l)) as [ws| |] eqn:ES; try discriminate.
    cbn [obind] in H. pose proof (std_sort_perm implW _ _ _ HW ES) as P.
    assert (OR : ordered (word_lt h (rotation (wpos h w0))) ws) by (apply ord_ordered, (std_sort_ord implW _ _ _ HW ES)).
    destruct (if (0 <? sumCounts (ordS (count_all str_eqb (map c_fontName (chars_of h ws)))))%N then _ else _) as [fn| |] eqn:E1; try discriminate. cbn [obind] in H.
    destruct (if (0 <? sumCounts (ordD (count_all deq (map c_fontSize (chars_of h ws)))))%N then mostFreq _ _ else _) as [fs| |] eqn:E2; try discriminate. cbn [obind] in H.
    destruct (if (0 <? sumCounts (ordD (count_all deq (map c_fontSize (chars_of h ws)))))%N then counter_max _ else _) as [mx| |] eqn:E3; try discriminate. cbn [obind] in H.
    destruct (if (0 <? sumCounts (ordD (count_all deq (map c_base (chars_of h ws)))))%N then _ else _) as [bs| |] eqn:E4; try discriminate. cbn [obind] in H.
    injection H as <-. split; [|repeat split].
    rewrite chars_all in E1, E2, E3, E4. pose proof (chars_perm _ _ P) as PC.
    set (b0 := mkPos _ _ _ _ _ _ _). destruct (line_box_fields (map (wpos h) ws) b0) as (_ & _ & _ & _ & F5 & F6 & F7).
    unfold line_of. cbn [l_pos l_words l_text l_fontName l_fontSize l_maxFontSize l_base].
    split; [exact NE|]. split; [exact P|]. split.
    { rewrite F6. intros l1 a l2 b l3 EQ. apply (OR l1 a l2 b l3 EQ). }
    split; [apply join_blank|]. split.
    { exists w0, wt. split; [exact EW|]. rewrite F5, F6, F7. repeat split. }
    split.
    { apply (smallest_box_perm _ (map (pos_of h) ws)); [apply Permutation_map; symmetry; exact P|].
      apply (box_extended b0 (map (pos_of h) ws)).
      - intros EM. apply map_eq_nil in EM. subst ws. apply Permutation_sym, Permutation_nil in P. congruence.
      - intros p Hp. apply in_map_iff in Hp as (w & <- & Hw). apply FW. apply (Permutation_in _ (Permutation_sym P)), Hw.
      - assert (PX : Permutation (map (pos_of h) (l_words l)) (map (pos_of h) ws)) by (apply Permutation_map, P).
        destruct BP as (B1 & B2 & (B3 & B3') & B4 & B4'). unfold box_pre, b0. cbn [leftX upperY rightX lowerY].
        split; [|split; [|split; [split; [exact B3|]|split; [exact B4|]]]].
        + destruct B1 as [B1|(v & Hv & B1)]; [left; exact B1|right]. exists v. split; [apply (Permutation_in _ (xs_perm _ _ PX)), Hv|exact B1].
        + destruct B2 as [B2|(v & Hv & B2)]; [left; exact B2|right]. exists v. split; [apply (Permutation_in _ (ys_perm _ _ PX)), Hv|exact B2].
        + destruct B3' as (v & Hv & E). exists v. split; [apply (Permutation_in _ (perm_skip _ (xs_perm _ _ PX))), Hv|exact E].
        + destruct B4' as (v & Hv & E). exists v. split; [apply (Permutation_in _ (perm_skip _ (ys_perm _ _ PX))), Hv|exact E]. }
    split.
    { intros EC. destruct (DF EC) as (D1 & D2 & D3 & D4). rewrite EC in PC. apply Permutation_nil in PC. rewrite PC in E1, E2, E3, E4.
      cbn [map] in E1, E2, E3, E4. change (count_all str_eqb []) with (@nil (str * N)) in E1. change (count_all deq []) with (@nil (double * N)) in E2, E3, E4.
      assert (ZS : ordS [] = []) by (apply Permutation_nil, HS). assert (ZD : ordD [] = []) by (apply Permutation_nil, HD).
      rewrite ZS in E1. rewrite ZD in E2, E3, E4. cbn in E1, E2, E3, E4. injection E1 as <-. injection E2 as <-. injection E3 as <-. injection E4 as <-.
      repeat split; assumption. }
    intros NC LT NN.
    assert (NC' : all_chars h ws <> []) by (intros E; rewrite E in PC; apply Permutation_sym, Permutation_nil in PC; congruence).
    assert (MN : forall B (f : character -> B), map f (all_chars h ws) <> []) by (intros B f E; apply map_eq_nil in E; congruence).
    assert (LT' : forall B (f : character -> B), (N.of_nat (length (map f (all_chars h ws))) < 2 ^ 32)%N).
    { intros B f. rewrite map_length, <- (Permutation_length PC). exact LT. }
    assert (NF : forall f, In f (map c_fontSize (all_chars h ws)) -> is_nan_d f = false).
    { intros f Hf. apply in_map_iff in Hf as (c & <- & Hc). apply NN. apply (Permutation_in _ (Permutation_sym PC)), Hc. }
    assert (NB : forall f, In f (map c_base (all_chars h ws)) -> is_nan_d f = false).
    { intros f Hf. apply in_map_iff in Hf as (c & <- & Hc). apply NN. apply (Permutation_in _ (Permutation_sym PC)), Hc. }
    split; [|split; [|split]].
    - apply (most_frequent_perm _ _ (map c_fontName (all_chars h ws))); [apply Permutation_map; symmetry; exact PC|].
      apply (guarded_frequent str_eqb [] (l_fontName l) _ (ordS (count_all str_eqb (map c_fontName (all_chars h ws)))) fn).
      + intros a b Q. apply str_eqb_eq in Q. subst. apply str_eqb_refl.
      + intros a b c Q1 Q2. apply str_eqb_eq in Q1, Q2. subst. apply str_eqb_refl.
      + intros x _. apply str_eqb_refl.
      + apply LT'.
      + apply MN.
      + apply HS.
      + exact E1.
    - apply (most_frequent_perm _ _ (map c_fontSize (all_chars h ws))); [apply Permutation_map; symmetry; exact PC|].
      apply (guarded_frequent deq dzero (l_fontSize l) _ (ordD (count_all deq (map c_fontSize (all_chars h ws)))) fs).
      + intros a b Q. rewrite deq_sym. exact Q.
      + apply deq_trans.
      + intros x Hx. apply deq_refl. unfold nn. apply NF, Hx.
      + apply LT'.
      + apply MN.
      + apply HD.
      + exact E2.
    - apply (most_frequent_perm _ _ (map c_base (all_chars h ws))); [apply Permutation_map; symmetry; exact PC|].
      apply (guarded_frequent deq dzero (l_base l) _ (ordD (count_all deq (map c_base (all_chars h ws)))) bs).
      + intros a b Q. rewrite deq_sym. exact Q.
      + apply deq_trans.
      + intros x Hx. apply deq_refl. unfold nn. apply NB, Hx.
      + apply LT'.
      + apply MN.
      + apply HD.
      + exact E4.
    - destruct (max_counted (l_maxFontSize l) (map c_fontSize (all_chars h ws)) _ mx (HD _) (LT' _ _) (MN _ _) NF E3) as [M1 M2].
      assert (PM : Permutation (map c_fontSize (all_chars h (l_words l))) (map c_fontSize (all_chars h ws))) by (apply Permutation_map, PC).
      split; [apply (Permutation_in _ (Permutation_sym PM)), M1|].
      intros c Hc. apply M2. apply in_map. apply (Permutation_in _ PC), Hc.
  Qed.
End L.
