(** Sort.v - [std::sort] by its contract ([alg.sorting]): the comparator must induce a strict weak
    ordering on the elements, otherwise the behaviour is undefined. *)
From Verif Require Import Base.

Section Swo.
  Context {A : Type}.
  (** Boolean checks of the strict-weak-order axioms on the elements of a list. *)
  Definition irrefl_b (lt : A -> A -> bool) (l : list A) : bool := forallb (fun x => negb (lt x x)) l.
  Definition trans_b (lt : A -> A -> bool) (l : list A) : bool :=
    forallb (fun x => forallb (fun y => forallb (fun z =>
      negb (lt x y && lt y z) || lt x z) l) l) l.
  Definition incomp (lt : A -> A -> bool) (x y : A) : bool := negb (lt x y) && negb (lt y x).
  Definition incomp_trans_b (lt : A -> A -> bool) (l : list A) : bool :=
    forallb (fun x => forallb (fun y => forallb (fun z =>
      negb (incomp lt x y && incomp lt y z) || incomp lt x z) l) l) l.
  Definition swo_b (lt : A -> A -> bool) (l : list A) : bool :=
    irrefl_b lt l && trans_b lt l && incomp_trans_b lt l.

  (** The same as a proposition. *)
  Definition swo (lt : A -> A -> bool) (l : list A) : Prop :=
    (forall x, In x l -> lt x x = false) /\
    (forall x y z, In x l -> In y l -> In z l -> lt x y = true -> lt y z = true -> lt x z = true) /\
    (forall x y z, In x l -> In y l -> In z l ->
       incomp lt x y = true -> incomp lt y z = true -> incomp lt x z = true).

  Lemma swo_b_spec lt l : swo_b lt l = true <-> swo lt l.
  Proof.
    unfold swo_b, swo, irrefl_b, trans_b, incomp_trans_b.
    rewrite !andb_true_iff, !forallb_forall. split.
    - intros [[H1 H2] H3]. repeat split.
      + intros x Hx. specialize (H1 x Hx). now apply negb_true_iff in H1.
      + intros x y z Hx Hy Hz Hxy Hyz. specialize (H2 x Hx).
        rewrite forallb_forall in H2. specialize (H2 y Hy). rewrite forallb_forall in H2.
        specialize (H2 z Hz). rewrite Hxy, Hyz in H2. exact H2.
      + intros x y z Hx Hy Hz Hxy Hyz. specialize (H3 x Hx).
        rewrite forallb_forall in H3. specialize (H3 y Hy). rewrite forallb_forall in H3.
        specialize (H3 z Hz). rewrite Hxy, Hyz in H3. exact H3.
    - intros (H1 & H2 & H3). repeat split.
      + intros x Hx. rewrite (H1 x Hx). reflexivity.
      + intros x Hx. apply forallb_forall. intros y Hy. apply forallb_forall. intros z Hz.
        destruct (lt x y && lt y z) eqn:E; [|reflexivity]. cbn.
        apply andb_true_iff in E as [E1 E2]. eauto.
      + intros x Hx. apply forallb_forall. intros y Hy. apply forallb_forall. intros z Hz.
        destruct (incomp lt x y && incomp lt y z) eqn:E; [|reflexivity]. cbn.
        apply andb_true_iff in E as [E1 E2]. eauto.
  Qed.

  (** An ordered output: no element precedes a strictly smaller one. *)
  Definition ordered (lt : A -> A -> bool) (l : list A) : Prop :=
    forall l1 x l2 y l3, l = l1 ++ x :: l2 ++ y :: l3 -> lt y x = false.

  (** What the standard library promises about an implementation of sorting. *)
  Definition sort_ok (impl : (A -> A -> bool) -> list A -> list A) : Prop :=
    forall lt l, swo lt l -> Permutation l (impl lt l) /\ ordered lt (impl lt l).

  (** The observable behaviour of [std::sort(l.begin(), l.end(), lt)]. *)
  Definition std_sort (impl : (A -> A -> bool) -> list A -> list A)
      (lt : A -> A -> bool) (l : list A) : outcome (list A) :=
    if swo_b lt l then Ok (impl lt l) else UB "std::sort: comparator is not a strict weak order".

  (** A concrete (stable insertion) sort showing that the contract can be met. *)
  Fixpoint insert_sorted (lt : A -> A -> bool) (x : A) (l : list A) : list A :=
    match l with
    | [] => [x]
    | y :: t => if lt x y then x :: l else y :: insert_sorted lt x t
    end.
  Fixpoint isort_rev (lt : A -> A -> bool) (acc l : list A) : list A :=
    match l with [] => acc | x :: t => isort_rev lt (insert_sorted lt x acc) t end.
  Definition isort lt l := isort_rev lt [] l.

  Lemma insert_sorted_perm lt x l : Permutation (x :: l) (insert_sorted lt x l).
  Proof.
    induction l as [|y t IH]; cbn; [reflexivity|]. destruct (lt x y); [reflexivity|].
    rewrite perm_swap. constructor. exact IH.
  Qed.
  Lemma isort_rev_perm lt l : forall acc, Permutation (acc ++ l) (isort_rev lt acc l).
  Proof.
    induction l as [|x t IH]; intros acc; cbn; [rewrite app_nil_r; reflexivity|].
    rewrite <- IH, <- insert_sorted_perm. cbn. rewrite Permutation_middle. reflexivity.
  Qed.
  Lemma isort_perm lt l : Permutation l (isort lt l).
  Proof. exact (isort_rev_perm lt l []). Qed.

  Inductive ord (lt : A -> A -> bool) : list A -> Prop :=
  | ord_nil : ord lt []
  | ord_cons x l : (forall y, In y l -> lt y x = false) -> ord lt l -> ord lt (x :: l).
  Lemma ord_ordered lt l : ord lt l -> ordered lt l.
  Proof.
    induction 1 as [|x l H1 H2 IH]; intros l1 a l2 b l3 E.
    - destruct l1; discriminate.
    - destruct l1 as [|c l1]; cbn in E; injection E as -> ->.
      + apply H1. apply in_or_app. right. left. reflexivity.
      + eapply IH. reflexivity.
  Qed.
  Lemma ordered_ord lt l : ordered lt l -> ord lt l.
  Proof.
    induction l as [|x l IH]; intros H; constructor.
    - intros y Hy. apply in_split in Hy as (l2 & l3 & ->). apply (H [] x l2 y l3 eq_refl).
    - apply IH. intros l1 a l2 b l3 E. apply (H (x :: l1) a l2 b l3). cbn. now rewrite E.
  Qed.

  Lemma insert_sorted_In lt x l y : In y (insert_sorted lt x l) <-> y = x \/ In y l.
  Proof. split; intros H.
    - apply (Permutation_in _ (Permutation_sym (insert_sorted_perm lt x l))) in H. destruct H; auto.
    - apply (Permutation_in _ (insert_sorted_perm lt x l)). destruct H; [left|right]; auto.
  Qed.

  Lemma insert_sorted_ord lt x l (U : list A) : swo lt U -> In x U -> incl l U ->
    ord lt l -> ord lt (insert_sorted lt x l).
  Proof.
    intros (Hi & Ht & Hin) Hx Hincl Hord. induction Hord as [|y l H1 H2 IH]; cbn.
    - constructor; [intros ? []|constructor].
    - assert (In y U) as HyU by (apply Hincl; left; reflexivity).
      assert (incl l U) as HlU by (intros z Hz; apply Hincl; right; exact Hz).
      destruct (lt x y) eqn:E.
      + constructor; [|constructor; assumption].
        intros z [<-|Hz].
        * destruct (lt y x) eqn:E2; [|reflexivity].
          pose proof (Ht x y x Hx HyU Hx E E2) as H. rewrite Hi in H by assumption. discriminate.
        * destruct (lt z x) eqn:E2; [|reflexivity].
          pose proof (Ht z x y (HlU z Hz) Hx HyU E2 E) as H. rewrite (H1 z Hz) in H. discriminate.
      + constructor.
        * intros z Hz. apply insert_sorted_In in Hz as [->|Hz]; auto.
        * apply IH; assumption.
  Qed.
  Lemma isort_rev_ord lt U l : swo lt U -> incl l U -> forall acc, incl acc U -> ord lt acc ->
    ord lt (isort_rev lt acc l).
  Proof.
    intros Hs. induction l as [|x t IH]; intros Hl acc Ha Ho; cbn; [assumption|].
    apply IH.
    - intros z Hz. apply Hl. right. exact Hz.
    - intros z Hz. apply insert_sorted_In in Hz as [->|Hz]; [apply Hl; left; reflexivity|apply Ha; exact Hz].
    - eapply insert_sorted_ord; eauto. apply Hl. left. reflexivity.
  Qed.
  Lemma isort_ok : sort_ok isort.
  Proof.
    intros lt l Hs. split; [apply isort_perm|]. apply ord_ordered.
    apply (isort_rev_ord lt l l Hs (incl_refl l) [] (fun x H => match H with end)). constructor.
  Qed.

  Lemma std_sort_perm impl lt l l' : sort_ok impl -> std_sort impl lt l = Ok l' -> Permutation l l'.
  Proof.
    intros Hok. unfold std_sort. destruct (swo_b lt l) eqn:E; [|discriminate]. intros [= <-].
    apply Hok. now apply swo_b_spec.
  Qed.
  Lemma std_sort_ord impl lt l l' : sort_ok impl -> std_sort impl lt l = Ok l' -> ord lt l'.
  Proof.
    intros Hok. unfold std_sort. destruct (swo_b lt l) eqn:E; [|discriminate]. intros [= <-].
    apply ordered_ord. apply Hok. now apply swo_b_spec.
  Qed.
  Lemma std_sort_spec impl lt l : sort_ok impl -> swo lt l ->
    exists s, std_sort impl lt l = Ok s /\ Permutation l s /\ ordered lt s.
  Proof.
    intros Hi Hs. unfold std_sort. rewrite (proj2 (swo_b_spec lt l) Hs). exists (impl lt l). split; [reflexivity|].
    exact (Hi lt l Hs).
  Qed.
  Lemma std_sort_not_throw impl lt l w : std_sort impl lt l <> Throw w.
  Proof. unfold std_sort. destruct (swo_b lt l); discriminate. Qed.
End Swo.
