(** StackedProofs.v - proofs about stacked math symbols. *)
From Coq Require Import ZArith NArith.
From Verif Require Import Base Double DoubleFacts MathUtils MathUtilsProofs Elements Document Words WordsSpec DiacriticsProofs.
Local Open Scope nat_scope.
Local Opaque TOL dZ dadd dsub ddiv dmul dec DBL_MAX DBL_MIN.

Fixpoint takeWhile {A} (P : A -> bool) (l : list A) : list A :=
  match l with [] => [] | x :: t => if P x then x :: takeWhile P t else [] end.
Lemma takeWhile_ext {A} (P Q : A -> bool) l : (forall x, In x l -> P x = Q x) -> takeWhile P l = takeWhile Q l.
Proof.
  induction l as [|x t IH]; intros H; [reflexivity|]. cbn. rewrite (H x) by (left; reflexivity).
  rewrite IH; [reflexivity|]. intros y Hy. apply H. right. exact Hy.
Qed.
Lemma takeWhile_down P i : (exists a, a <= i /\ takeWhile P (rev (seq 0 i)) = rev (seq a (i - a))) /\
  forall j, In j (takeWhile P (rev (seq 0 i))) <-> j < i /\ forall k, j <= k < i -> P k = true.
Proof.
  induction i as [|i [(a & La & IH1) IH2]].
  - split; [exists 0; split; [lia|reflexivity]|]. intros j. cbn. split; [intros []|lia].
  - rewrite seq_S, rev_app_distr. cbn [rev app takeWhile Nat.add]. destruct (P i) eqn:EP.
    + split.
      * exists a. split; [lia|]. rewrite IH1. replace (S i - a) with (S (i - a)) by lia. rewrite seq_S, rev_app_distr. cbn [rev app].
        f_equal. lia.
      * intros j. cbn [In]. rewrite IH2. split.
        -- intros [<-|[L H]]; [split; [lia|]; intros k Hk; replace k with i by lia; exact EP|].
           split; [lia|]. intros k Hk. destruct (Nat.eq_dec k i) as [->|]; [exact EP|]. apply H. lia.
        -- intros [L H]. destruct (Nat.eq_dec j i) as [->|]; [left; reflexivity|right]. split; [lia|]. intros k Hk. apply H. lia.
    + split; [exists (S i); split; [lia|]; rewrite Nat.sub_diag; reflexivity|]. intros j. split; [intros []|].
      intros [L H]. rewrite H in EP; [discriminate|lia].
Qed.
Lemma takeWhile_up P n s : (exists m, m <= n /\ takeWhile P (seq s n) = seq s m) /\
  forall j, In j (takeWhile P (seq s n)) <-> s <= j < s + n /\ forall k, s <= k <= j -> P k = true.
Proof.
  revert s. induction n as [|n IH]; intros s.
  - split; [exists 0; split; [lia|reflexivity]|]. intros j. cbn. split; [intros []|lia].
  - cbn [seq takeWhile]. destruct (IH (S s)) as [(m & Lm & IH1) IH2]. destruct (P s) eqn:EP.
    + split; [exists (S m); split; [lia|]; rewrite IH1; reflexivity|]. intros j. cbn [In]. rewrite IH2. split.
      * intros [<-|[L H]]; [split; [lia|]; intros k Hk; replace k with s by lia; exact EP|].
        split; [lia|]. intros k Hk. destruct (Nat.eq_dec k s) as [->|]; [exact EP|]. apply H. lia.
      * intros [L H]. destruct (Nat.eq_dec j s) as [->|]; [left; reflexivity|right]. split; [lia|]. intros k Hk. apply H. lia.
    + split; [exists 0; split; [lia|reflexivity]|]. intros j. split; [intros []|]. intros [L H]. rewrite H in EP; [discriminate|lia].
Qed.

Section S.
  Context (cfg : words_config).

  Lemma same_word_refl w : same_word w w. Proof. repeat split. Qed.
  Lemma same_isBase w w' : same_word w w' -> isBase cfg w' = isBase cfg w.
  Proof. intros (_ & _ & _ & E1 & _ & _ & E2 & _). unfold isBase. rewrite E1, E2. reflexivity. Qed.
  Lemma same_isPart b b' w w' : same_word b b' -> same_word w w' -> isPart cfg b' w' = isPart cfg b w.
  Proof.
    intros (_ & _ & E1 & _ & _ & E2 & _) (_ & _ & E3 & _ & _ & E4 & _). unfold isPart. rewrite E1, E2, E3, E4. reflexivity.
  Qed.
  Lemma mem_In s l : mem s l = true <-> In s l.
  Proof.
    unfold mem. rewrite existsb_exists. split.
    - intros (x & Hx & E). apply str_eqb_eq in E. subst. exact Hx.
    - intros H. exists s. split; [exact H|apply str_eqb_refl].
  Qed.
  Lemma isBase_spec w : isBase cfg w = true <-> is_symbol cfg w.
  Proof.
    unfold isBase, is_symbol. rewrite orb_true_iff, existsb_exists, mem_In. split; (intros [(c & Hc & H)|H]; [left|right; exact H]).
    - exists c. split; [exact Hc|]. apply orb_true_iff in H. rewrite !mem_In in H. exact H.
    - exists c. split; [exact Hc|]. apply orb_true_iff. rewrite !mem_In. exact H.
  Qed.
  Lemma isPart_spec b w : isPart cfg b w = true <-> fits cfg b w.
  Proof. unfold isPart, fits. destruct (smaller (computeMaxXOverlapRatio _ _) _ _); intuition congruence. Qed.

  Definition part_b (ws : list word) (i j : nat) : bool :=
    match nth_error ws i, nth_error ws j with Some b, Some w => isPart cfg b w | _, _ => false end.
  Definition touch (i : nat) (run : list nat) (m : nat) (w : word) : word :=
    mkWord (w_id w) (w_rank w) (w_pos w) (w_text w) (w_fontName w) (w_fontSize w) (w_chars w)
      (if existsb (Nat.eqb m) run then Some i else w_partOf w) (w_parts w ++ (if m =? i then run else [])) (w_first w) (w_second w).
  Lemma same_touch i run m w : same_word w (touch i run m w). Proof. repeat split. Qed.
  Lemma touch_nil i m w : touch i [] m w = w.
  Proof. destruct w. unfold touch. cbn. destruct (m =? i); rewrite app_nil_r; reflexivity. Qed.
  Lemma touch_app i a b m w : touch i b m (touch i a m w) = touch i (a ++ b) m w.
  Proof.
    unfold touch. cbn [w_id w_rank w_pos w_text w_fontName w_fontSize w_chars w_partOf w_parts w_first w_second].
    rewrite existsb_app. destruct (existsb (Nat.eqb m) a), (existsb (Nat.eqb m) b), (m =? i); cbn [orb]; rewrite <- ?app_assoc, ?app_nil_r; reflexivity.
  Qed.
  Lemma modify_nth i f ws m : nth_error (modify i f ws) m = if m =? i then option_map f (nth_error ws m) else nth_error ws m.
  Proof.
    unfold modify. destruct (Nat.eqb_spec m i) as [->|N].
    - destruct (nth_error ws i) as [w|] eqn:E; [|rewrite E; reflexivity]. rewrite update_same; [reflexivity|]. apply nth_error_Some. congruence.
    - destruct (nth_error ws i); [apply update_other, N|reflexivity].
  Qed.

  Lemma stack_loop_nth i js : forall ws m, ~ In i js ->
    nth_error (stack_loop cfg i js ws) m = option_map (touch i (takeWhile (part_b ws i) js) m) (nth_error ws m).
  Proof.
    induction js as [|j t IH]; intros ws m NI.
    - cbn. destruct (nth_error ws m) as [w|]; [|reflexivity]. cbn. rewrite touch_nil. reflexivity.
    - cbn [stack_loop takeWhile].
      change (part_b ws i j) with (match nth_error ws i, nth_error ws j with Some b, Some w => isPart cfg b w | _, _ => false end).
      assert (ID : nth_error ws m = option_map (touch i [] m) (nth_error ws m)).
      { destruct (nth_error ws m) as [w|]; [|reflexivity]. cbn. rewrite touch_nil. reflexivity. }
      destruct (nth_error ws i) as [b|] eqn:Ei; [|exact ID]. destruct (nth_error ws j) as [w|] eqn:Ej; [|exact ID].
      destruct (isPart cfg b w); [|exact ID]. clear ID.
      assert (NE : j <> i) by (intros ->; apply NI; left; reflexivity).
      set (ws1 := modify j (fun w => set_partOf w i) (modify i (fun b => add_part b j) ws)).
      assert (W1 : forall m, nth_error ws1 m = option_map (touch i [j] m) (nth_error ws m)).
      { intros k. unfold ws1. rewrite !modify_nth. destruct (Nat.eqb_spec k j) as [->|N1].
        - destruct (Nat.eqb_spec j i); [congruence|]. destruct (nth_error ws j) as [x|]; [|reflexivity]. cbn [option_map]. f_equal.
          destruct x. unfold set_partOf, touch. cbn. rewrite Nat.eqb_refl. cbn. destruct (Nat.eqb_spec j i); [congruence|]. rewrite app_nil_r. reflexivity.
        - destruct (Nat.eqb_spec k i) as [->|N2].
          + destruct (nth_error ws i) as [x|]; [|reflexivity]. cbn [option_map]. f_equal. destruct x. unfold add_part, touch; cbn.
            destruct (Nat.eqb_spec i j); [congruence|]. cbn. rewrite Nat.eqb_refl. reflexivity.
          + destruct (nth_error ws k) as [x|]; [|reflexivity]. cbn [option_map]. f_equal. destruct x. unfold touch; cbn.
            destruct (Nat.eqb_spec k j); [congruence|]. cbn. destruct (Nat.eqb_spec k i); [congruence|]. rewrite app_nil_r. reflexivity. }
      rewrite IH by (intros H; apply NI; right; exact H). rewrite W1.
      replace (takeWhile (part_b ws1 i) t) with (takeWhile (part_b ws i) t).
      + destruct (nth_error ws m) as [x|]; [|reflexivity]. cbn [option_map]. rewrite touch_app. reflexivity.
      + apply takeWhile_ext. intros k _. unfold part_b. rewrite !W1. destruct (nth_error ws i) as [b'|]; [|reflexivity].
        destruct (nth_error ws k) as [x|]; [|reflexivity]. cbn [option_map]. symmetry. apply same_isPart; apply same_touch.
  Qed.
  Lemma stack_loop_length i js : forall ws, length (stack_loop cfg i js ws) = length ws.
  Proof.
    assert (M : forall k f ws, length (modify k f ws) = length ws).
    { intros k f ws. unfold modify. destruct (nth_error ws k); [apply update_length|reflexivity]. }
    induction js as [|j t IH]; intros ws; [reflexivity|]. cbn [stack_loop].
    destruct (nth_error ws i); [|reflexivity]. destruct (nth_error ws j); [|reflexivity]. destruct (isPart _ _ _); [|reflexivity].
    rewrite IH, !M. reflexivity.
  Qed.

  (** the parts of the word at [i] *)
  Definition parts_of (ws : list word) (i : nat) : list nat :=
    match nth_error ws i with
    | Some w => if isBase cfg w then takeWhile (part_b ws i) (rev (seq 0 i)) ++ takeWhile (part_b ws i) (seq (S i) (length ws - S i)) else []
    | None => []
    end.
  Lemma stack_step_nth ws i m : nth_error (stack_step cfg ws i) m = option_map (touch i (parts_of ws i) m) (nth_error ws m).
  Proof.
    unfold stack_step, parts_of.
    assert (ID : nth_error ws m = option_map (touch i [] m) (nth_error ws m)).
    { destruct (nth_error ws m) as [w|]; [|reflexivity]. cbn. rewrite touch_nil. reflexivity. }
    destruct (nth_error ws i) as [w|] eqn:Ei; [|exact ID]. destruct (isBase cfg w); [|exact ID]. clear ID.
    assert (N1 : ~ In i (rev (seq 0 i))) by (rewrite <- in_rev, in_seq; lia).
    assert (N2 : ~ In i (seq (S i) (length ws - S i))) by (rewrite in_seq; lia).
    rewrite stack_loop_nth by exact N2. rewrite (stack_loop_nth i (rev (seq 0 i))) by exact N1.
    destruct (nth_error ws m) as [x|]; [|reflexivity]. cbn [option_map]. rewrite touch_app. do 3 f_equal.
    apply takeWhile_ext. intros k _. unfold part_b. rewrite !stack_loop_nth by exact N1.
    destruct (nth_error ws i) as [b'|]; [|reflexivity]. destruct (nth_error ws k) as [y|]; [|reflexivity].
    cbn [option_map]. apply same_isPart; apply same_touch.
  Qed.
  Lemma stack_step_length ws i : length (stack_step cfg ws i) = length ws.
  Proof. unfold stack_step. destruct (nth_error ws i) as [w|]; [|reflexivity]. destruct (isBase cfg w); [|reflexivity]. rewrite !stack_loop_length. reflexivity. Qed.

  Lemma parts_of_same ws ws' i : length ws' = length ws ->
    (forall m w, nth_error ws m = Some w -> exists w', nth_error ws' m = Some w' /\ same_word w w') -> parts_of ws' i = parts_of ws i.
  Proof.
    intros L H.
    assert (PB : forall k, part_b ws' i k = part_b ws i k).
    { intros k. unfold part_b.
      assert (X : forall m, match nth_error ws m with Some w => exists w', nth_error ws' m = Some w' /\ same_word w w' | None => nth_error ws' m = None end).
      { intros m. destruct (nth_error ws m) as [w|] eqn:E; [apply H, E|]. apply nth_error_None in E. apply nth_error_None. lia. }
      pose proof (X i) as Xi. pose proof (X k) as Xk. destruct (nth_error ws i) as [b|].
      - destruct Xi as (b' & -> & Sb). destruct (nth_error ws k) as [w|]; [|rewrite Xk; reflexivity].
        destruct Xk as (w' & -> & Sw). apply same_isPart; assumption.
      - rewrite Xi. reflexivity. }
    unfold parts_of. rewrite L. destruct (nth_error ws i) as [w|] eqn:E.
    - destruct (H i w E) as (w' & -> & Sw). rewrite (same_isBase _ _ Sw). destruct (isBase cfg w); [|reflexivity].
      f_equal; apply takeWhile_ext; intros k _; apply PB.
    - replace (nth_error ws' i) with (@None word); [reflexivity|]. symmetry. apply nth_error_None. apply nth_error_None in E. lia.
  Qed.

  Lemma merge_spec ws k : k <= length ws ->
    let st := fold_left (stack_step cfg) (seq 0 k) ws in
    length st = length ws /\
    forall m w, nth_error ws m = Some w -> exists w', nth_error st m = Some w' /\ same_word w w' /\
      w_parts w' = w_parts w ++ (if m <? k then parts_of ws m else []) /\
      ((w_partOf w' = w_partOf w /\ forall i, i < k -> ~ In m (parts_of ws i)) \/
       exists i, i < k /\ In m (parts_of ws i) /\ w_partOf w' = Some i /\ forall i', i' < k -> In m (parts_of ws i') -> i' <= i).
  Proof.
    intros Hk. induction k as [|k IH].
    - cbn. split; [reflexivity|]. intros m w Hw. exists w. split; [exact Hw|]. split; [apply same_word_refl|].
      split; [rewrite app_nil_r; reflexivity|]. left. split; [reflexivity|]. intros; lia.
    - specialize (IH ltac:(lia)). rewrite seq_S, fold_left_app. cbn [fold_left Nat.add]. set (st := fold_left (stack_step cfg) (seq 0 k) ws) in *.
      cbv zeta in *. destruct IH as [L IH]. split; [rewrite stack_step_length; exact L|].
      assert (PS : parts_of st k = parts_of ws k).
      { apply parts_of_same; [exact L|]. intros m w Hw. destruct (IH m w Hw) as (w' & H1 & H2 & _). eauto. }
      intros m w Hw. destruct (IH m w Hw) as (w' & H1 & H2 & H3 & H4). rewrite stack_step_nth, H1, PS. cbn [option_map].
      eexists. split; [reflexivity|]. split; [exact H2|]. split.
      + cbn [touch w_parts]. rewrite H3, <- app_assoc. f_equal.
        destruct (Nat.eqb_spec m k) as [->|N].
        * rewrite Nat.ltb_irrefl. destruct (Nat.ltb_spec k (S k)); [reflexivity|lia].
        * rewrite app_nil_r. destruct (Nat.ltb_spec m k), (Nat.ltb_spec m (S k)); try lia; reflexivity.
      + cbn [touch w_partOf]. destruct (existsb (Nat.eqb m) (parts_of ws k)) eqn:EX.
        * right. exists k. apply existsb_exists in EX as (x & Hx & Q). apply Nat.eqb_eq in Q. subst x.
          split; [lia|]. split; [exact Hx|]. split; [reflexivity|]. intros; lia.
        * assert (NI : ~ In m (parts_of ws k)).
          { intros Hi. assert (existsb (Nat.eqb m) (parts_of ws k) = true); [|congruence].
            apply existsb_exists. exists m. split; [exact Hi|apply Nat.eqb_refl]. }
          destruct H4 as [[H4 H5]|(i & I1 & I2 & I3 & I4)].
          -- left. split; [exact H4|]. intros i Hi. destruct (Nat.eq_dec i k) as [->|]; [exact NI|apply H5; lia].
          -- right. exists i. split; [lia|]. split; [exact I2|]. split; [exact I3|]. intros i' Hi' Hin.
             destruct (Nat.eq_dec i' k) as [->|]; [destruct (NI Hin)|]. apply I4; [lia|exact Hin].
  Qed.

  Lemma parts_belongs ws i j : In j (parts_of ws i) <-> belongs cfg ws i j.
  Proof.
    unfold parts_of, belongs. destruct (nth_error ws i) as [b|] eqn:Eb.
    2:{ split; [intros []|]. intros (b & ? & _). discriminate. }
    assert (Hi : i < length ws) by (apply nth_error_Some; congruence).
    assert (PB : forall k, k < length ws -> (part_b ws i k = true <-> forall w, nth_error ws k = Some w -> fits cfg b w)).
    { intros k Hk. unfold part_b. rewrite Eb. destruct (nth_error ws k) as [w|] eqn:Ek; [|apply nth_error_None in Ek; lia].
      rewrite isPart_spec. split; [intros H w' E'; injection E' as <-; exact H|]. intros H. apply H. reflexivity. }
    destruct (isBase cfg b) eqn:EB.
    - apply isBase_spec in EB. rewrite in_app_iff, (proj2 (takeWhile_down _ _)), (proj2 (takeWhile_up _ _ _)). split.
      + intros [[L H]|[L H]].
        * exists b. split; [reflexivity|]. split; [exact EB|]. split; [lia|]. split; [lia|].
          intros k w [K|K] Hw; [|lia]. apply (PB k ltac:(lia)); [apply H; lia|exact Hw].
        * exists b. split; [reflexivity|]. split; [exact EB|]. split; [lia|]. split; [lia|].
          intros k w [K|K] Hw; [lia|]. apply (PB k ltac:(lia)); [apply H; lia|exact Hw].
      + intros (b' & E' & _ & NE & L & H). injection E' as <-.
        destruct (Nat.lt_ge_cases j i) as [C|C].
        * left. split; [exact C|]. intros k Hk. apply (PB k ltac:(lia)). intros w. apply H. lia.
        * right. split; [lia|]. intros k Hk. apply (PB k ltac:(lia)). intros w. apply H. lia.
    - split; [intros []|]. intros (b' & E' & SB & _). injection E' as <-. apply isBase_spec in SB. congruence.
  Qed.
  Lemma parts_shape ws i : parts_of ws i = [] \/ exists a n, a <= i /\ i + n < length ws /\ parts_of ws i = rev (seq a (i - a)) ++ seq (S i) n.
  Proof.
    unfold parts_of. destruct (nth_error ws i) as [b|] eqn:Eb; [|left; reflexivity]. destruct (isBase cfg b); [|left; reflexivity].
    assert (Hi : i < length ws) by (apply nth_error_Some; congruence).
    right. destruct (takeWhile_down (part_b ws i) i) as [(a & La & ->) _].
    destruct (takeWhile_up (part_b ws i) (length ws - S i) (S i)) as [(n & Ln & ->) _].
    exists a, n. repeat split; lia.
  Qed.
End S.
