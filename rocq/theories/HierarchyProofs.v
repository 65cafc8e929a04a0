(** HierarchyProofs.v - proofs about the hierarchy of text lines (C26). *)
From Coq Require Import ZArith Sorting.Sorted.
From Verif Require Import Base Double MathUtils Elements Lines HierarchySpec.
Local Open Scope nat_scope.
Local Opaque TOL dZ dadd dsub ddiv dmul dec DBL_MAX DBL_MIN.

Lemma set_at_eq {A} (f : nat -> A) i x : set_at f i x i = x.
Proof. unfold set_at. rewrite Nat.eqb_refl. reflexivity. Qed.
Lemma set_at_neq {A} (f : nat -> A) i x j : j <> i -> set_at f i x j = f j.
Proof. intros H. unfold set_at. destruct (Nat.eqb_spec j i); [contradiction|reflexivity]. Qed.

Section H.
  Context (acw : double) (absd : double -> double) (ps : list position).
  Notation thr := (dmul (dZ 1) acw).

  Definition prev_of (i : nat) : option position := match i with O => None | S j => nth_error ps j end.
  Lemma far_gap i p : nth_error ps i = Some p -> far absd (prev_of i) p = true <-> gap_before absd ps i.
  Proof.
    intros Hp. destruct i as [|j]; cbn [prev_of far].
    - split; [discriminate|]. intros (j & _ & _ & E & _). discriminate.
    - destruct (nth_error ps j) as [q|] eqn:Hq; cbn [far].
      + rewrite !andb_true_iff, !Z.eqb_eq. split.
        * intros [[A B] C]. exists j, q, p. repeat (split; [reflexivity || assumption|]). exact C.
        * intros (j' & q' & p' & E & H1 & H2 & H3 & H4 & H5). injection E as <-. rewrite Hq in H1. injection H1 as <-. rewrite Hp in H2. injection H2 as <-. auto.
      + split; [discriminate|]. intros (j' & q' & p' & E & H1 & _). injection E as <-. congruence.
  Qed.

  (** ** The general invariant *)
  Record inv (i : nat) (s : hstate) : Prop := {
    i_st : forall j q, In (j, q) (stack s) -> j < i /\ nth_error ps j = Some q /\ (forall k, j < k < i -> ~ gap_before absd ps k) /\ nextS s j = None;
    i_sort : StronglySorted (fun a b => fst b < fst a) (stack s);
    i_none : forall k, i <= k -> parent s k = None /\ prevS s k = None /\ nextS s k = None;
    i_sib : forall j k, nextS s j = Some k <-> prevS s k = Some j;
    i_prev : forall k j, prevS s k = Some j -> j < k < i /\ parent s k = parent s j /\ no_gap absd ps j k /\
       exists q p, nth_error ps j = Some q /\ nth_error ps k = Some p /\ aligned acw q p /\ below q p;
    i_par : forall k j, parent s k = Some j -> j < k < i /\ no_gap absd ps j k /\
       (prevS s k = None -> exists q p, nth_error ps j = Some q /\ nth_error ps k = Some p /\ indented acw q p /\ below q p)
  }.

  Lemma inv_init : inv 0 h_init.
  Proof.
    constructor; cbn [h_init stack parent prevS nextS].
    - intros j q [].
    - constructor.
    - intros k _. auto.
    - intros j k. split; discriminate.
    - discriminate.
    - discriminate.
  Qed.

  Lemma pop_suffix x st : exists a, st = a ++ pop_right acw x st.
  Proof.
    induction st as [|[j q] t IH]; [exists []; reflexivity|]. cbn [pop_right]. destruct (larger _ _ _); [|exists []; reflexivity].
    destruct IH as [a E]. exists ((j, q) :: a). cbn [app]. rewrite <- E. reflexivity.
  Qed.
  Lemma sorted_suffix {A} (R : A -> A -> Prop) a b : StronglySorted R (a ++ b) -> StronglySorted R b.
  Proof. induction a as [|x a IH]; [auto|]. intros H. inversion H. auto. Qed.

  Lemma step_inv i p s : nth_error ps i = Some p -> inv i s -> inv (S i) (h_step acw absd (prev_of i) i p s).
  Proof.
    intros Hp I. unfold h_step. set (st0 := if far absd (prev_of i) p then [] else stack s).
    assert (S0 : forall j q, In (j, q) st0 -> j < i /\ nth_error ps j = Some q /\ no_gap absd ps j i /\ nextS s j = None).
    { intros j q Hj. subst st0. destruct (far absd (prev_of i) p) eqn:F; [destruct Hj|].
      destruct (i_st _ _ I j q Hj) as (A & B & C & D). split; [exact A|]. split; [exact B|]. split; [|exact D].
      intros k Hk G. destruct (Nat.eq_dec k i) as [->|N]; [|apply (C k); [lia|exact G]]. apply (far_gap i p Hp) in G. congruence. }
    assert (T0 : StronglySorted (fun a b : nat * position => fst b < fst a) st0) by (subst st0; destruct (far _ _ _); [constructor|exact (i_sort _ _ I)]).
    clearbody st0. destruct (pop_suffix (leftX p) st0) as [a Ea]. set (st := pop_right acw (leftX p) st0) in *. clearbody st.
    assert (S1 : forall j q, In (j, q) st -> j < i /\ nth_error ps j = Some q /\ no_gap absd ps j i /\ nextS s j = None)
      by (intros j q Hj; apply S0; rewrite Ea; apply in_or_app; right; exact Hj).
    assert (T1 : StronglySorted (fun a b : nat * position => fst b < fst a) st) by (rewrite Ea in T0; apply (sorted_suffix _ _ _ T0)).
    clear S0 T0 Ea a st0.
    assert (KEEP : forall j q, In (j, q) st -> j < S i /\ nth_error ps j = Some q /\ (forall k, j < k < S i -> ~ gap_before absd ps k)).
    { intros j q Hj. destruct (S1 j q Hj) as (A & B & C & _). split; [lia|]. split; [exact B|]. intros k Hk. apply C. lia. }
    destruct (i_none _ _ I i (le_n i)) as (PN & VN & NN).
    assert (FR : forall st', (forall j q, In (j, q) st' -> j < S i /\ nth_error ps j = Some q /\ (forall k, j < k < S i -> ~ gap_before absd ps k) /\ nextS s j = None) ->
                 StronglySorted (fun a b : nat * position => fst b < fst a) st' -> inv (S i) (mkH st' (parent s) (prevS s) (nextS s))).
    { intros st' A B. constructor; cbn [stack parent prevS nextS].
      - exact A.
      - exact B.
      - intros k Hk. apply (i_none _ _ I). lia.
      - apply (i_sib _ _ I).
      - intros k j H. destruct (i_prev _ _ I k j H) as (U & V). split; [lia|exact V].
      - intros k j H. destruct (i_par _ _ I k j H) as (U & V). split; [lia|exact V]. }
    destruct st as [|[j q] t].
    - apply FR; [|constructor; [constructor|constructor]]. intros j q [E|[]]. injection E as <- <-. split; [lia|]. split; [exact Hp|]. split; [intros k Hk; lia|exact NN].
    - destruct (S1 j q (or_introl eq_refl)) as (Lj & Nj & Gj & Xj).
      destruct (equalOrLarger (lowerY q) (lowerY p) coords_tol) eqn:EL.
      { apply FR; [|exact T1]. intros j' q' H'. destruct (KEEP j' q' H') as (A & B & C). split; [exact A|]. split; [exact B|]. split; [exact C|]. apply (S1 j' q' H'). }
      inversion T1 as [|? ? T2 T3]. subst. rewrite Forall_forall in T3.
      destruct (equal (leftX q) (leftX p) (leftX_threshold acw)) eqn:EQ.
      + constructor; cbn [stack parent prevS nextS].
        * intros j' q' [E|H'].
          -- injection E as <- <-. split; [lia|]. split; [exact Hp|]. split; [intros k Hk; lia|]. rewrite set_at_neq by lia. exact NN.
          -- destruct (KEEP j' q' (or_intror H')) as (A & B & C). split; [exact A|]. split; [exact B|]. split; [exact C|].
             specialize (T3 _ H'). cbn [fst] in T3. rewrite set_at_neq by lia. apply (S1 j' q' (or_intror H')).
        * constructor; [exact T2|]. apply Forall_forall. intros [j' q'] H'. cbn [fst]. apply (S1 j' q' (or_intror H')).
        * intros k Hk. rewrite !set_at_neq by lia. apply (i_none _ _ I). lia.
        * intros a k. unfold set_at. destruct (Nat.eqb_spec a j) as [->|Na], (Nat.eqb_spec k i) as [->|Nk].
          -- split; reflexivity.
          -- split; [intros E; injection E as <-; contradiction|]. intros E. apply (i_sib _ _ I) in E. congruence.
          -- split; [|intros E; injection E as <-; contradiction]. intros E. apply (i_sib _ _ I) in E. congruence.
          -- apply (i_sib _ _ I).
        * intros k a. unfold set_at. destruct (Nat.eqb_spec k i) as [->|Nk].
          -- intros E. injection E as <-. split; [lia|]. destruct (Nat.eqb_spec j i) as [->|_]; [lia|]. split; [reflexivity|]. split; [exact Gj|].
             exists q, p. split; [exact Nj|]. split; [exact Hp|]. split; [exact EQ|exact EL].
          -- intros E. destruct (i_prev _ _ I k a E) as (U & V & W). split; [lia|]. destruct (Nat.eqb_spec a i) as [->|_]; [lia|]. split; [exact V|exact W].
        * intros k a. unfold set_at. destruct (Nat.eqb_spec k i) as [->|Nk].
          -- intros E. destruct (i_par _ _ I j a E) as (U & V & _). split; [lia|]. split; [|discriminate].
             intros m Hm. destruct (Nat.le_gt_cases m j) as [L|L]; [apply V; lia|apply Gj; lia].
          -- intros E. destruct (i_par _ _ I k a E) as (U & V). split; [lia|exact V].
      + destruct (smaller (leftX q) (leftX p) (leftX_threshold acw)) eqn:SM.
        * constructor; cbn [stack parent prevS nextS].
          -- intros j' q' [E|H'].
             ++ injection E as <- <-. split; [lia|]. split; [exact Hp|]. split; [intros k Hk; lia|exact NN].
             ++ destruct (KEEP j' q' H') as (A & B & C). split; [exact A|]. split; [exact B|]. split; [exact C|]. apply (S1 j' q' H').
          -- constructor; [exact T1|]. apply Forall_forall. intros [j' q'] H'. cbn [fst]. apply (S1 j' q' H').
          -- intros k Hk. rewrite !set_at_neq by lia. apply (i_none _ _ I). lia.
          -- apply (i_sib _ _ I).
          -- intros k a E. destruct (i_prev _ _ I k a E) as (U & V & W). split; [lia|]. rewrite !set_at_neq by lia. split; [exact V|exact W].
          -- intros k a. unfold set_at. destruct (Nat.eqb_spec k i) as [->|Nk].
             ++ intros E. injection E as <-. split; [lia|]. split; [exact Gj|]. intros _. exists q, p. split; [exact Nj|]. split; [exact Hp|]. split; [exact SM|exact EL].
             ++ intros E. destruct (i_par _ _ I k a E) as (U & V). split; [lia|exact V].
        * apply FR; [|exact T1]. intros j' q' H'. destruct (KEEP j' q' H') as (A & B & C). split; [exact A|]. split; [exact B|]. split; [exact C|]. apply (S1 j' q' H').
  Qed.

  Lemma loop_inv t : forall i s, (forall k p, nth_error t k = Some p -> nth_error ps (i + k) = Some p) -> inv i s ->
    inv (i + length t) (h_loop acw absd (prev_of i) i t s).
  Proof.
    induction t as [|p t IH]; intros i s H I; cbn [h_loop length]; [rewrite Nat.add_0_r; exact I|].
    pose proof (H 0 p eq_refl) as Hp. rewrite Nat.add_0_r in Hp.
    replace (Some p) with (prev_of (S i)) by exact Hp. rewrite <- Nat.add_succ_comm. apply IH; [|apply step_inv; assumption].
    intros k q Hk. rewrite Nat.add_succ_comm. apply (H (S k) q Hk).
  Qed.
  Lemma hierarchy_inv : inv (length ps) (computeTextLineHierarchy acw absd ps).
  Proof. apply (loop_inv ps 0 h_init); [intros k p Hk; exact Hk|apply inv_init]. Qed.

  (** ** Columns: the hierarchy is completely determined *)
  Section Columns.
    Context (col : nat -> Z) (HC : in_columns acw ps col).

    (** [placed] of the lines before [i], as a list of flags is not needed: it is a function that is extended. *)
    Definition open_at (placed : nat -> bool) (i j : nat) : Prop :=
      j < i /\ placed j = true /\ (forall k, j < k < i -> ~ gap_before absd ps k) /\
      forall k, j < k < i -> (col j <= col k)%Z /\ (col k = col j -> placed k = false).
    Definition done_line (placed : nat -> bool) (s : hstate) (i : nat) : Prop := forall p, nth_error ps i = Some p ->
      ((forall j, ~ reference absd ps col placed i j) -> placed i = true /\ parent s i = None /\ prevS s i = None) /\
      (forall j q, reference absd ps col placed i j -> nth_error ps j = Some q ->
         (below q p -> placed i = true /\
            (col j = col i -> prevS s i = Some j /\ parent s i = parent s j) /\ ((col j < col i)%Z -> parent s i = Some j /\ prevS s i = None)) /\
         (~ below q p -> placed i = false /\ parent s i = None /\ prevS s i = None)).
    Record cinv (i : nat) (placed : nat -> bool) (s : hstate) : Prop := {
      c_inv : inv i s;
      c_open : forall j, (exists q, In (j, q) (stack s)) <-> open_at placed i j;
      c_done : forall k, k < i -> done_line placed s k
    }.

    Lemma open_col placed i j k : open_at placed i j -> open_at placed i k -> j < k -> (col j < col k)%Z.
    Proof. intros (_ & _ & _ & A) (B & C & _) L. destruct (A k ltac:(lia)) as [D X]. destruct (Z.eq_dec (col k) (col j)) as [Q|Q]; [rewrite (X Q) in C; discriminate|lia]. Qed.

    (** popping leaves exactly the lines that do not start further right *)
    Lemma pop_in i p st : nth_error ps i = Some p -> (forall j q, In (j, q) st -> nth_error ps j = Some q) ->
      StronglySorted (fun a b => fst b < fst a) st -> (forall j k q q', In (j, q) st -> In (k, q') st -> j < k -> (col j < col k)%Z) ->
      forall j q, In (j, q) (pop_right acw (leftX p) st) <-> In (j, q) st /\ (col j <= col i)%Z.
    Proof.
      intros Hp. induction st as [|[k r] t IH]; intros N SS CC j q; cbn [pop_right]; [split; [intros []|intros [[] _]]|].
      inversion SS as [|? ? S1 S2]. subst. rewrite Forall_forall in S2.
      destruct (HC k i r p (N k r (or_introl eq_refl)) Hp) as [E1 _]. unfold leftX_threshold. rewrite E1. destruct (Z.ltb_spec (col i) (col k)) as [L|L].
      - rewrite IH; [|intros a b H; apply N; right; exact H|exact S1|intros a b c d Ha Hb; apply (CC a b c d); right; assumption]. split.
        + intros [A B]. split; [right; exact A|exact B].
        + intros [[A|A] B]; [injection A as <- <-; lia|]. auto.
      - split; [|intros [A _]; exact A]. intros A. split; [exact A|]. destruct A as [A|A]; [injection A as <- <-; exact L|].
        specialize (S2 _ A). cbn [fst] in S2. pose proof (CC j k q r (or_intror A) (or_introl eq_refl) S2). lia.
    Qed.

    Lemma open_step placed i j b : open_at (set_at placed i b) (S i) j <->
      (j = i /\ b = true) \/ (open_at placed i j /\ ~ gap_before absd ps i /\ (col j <= col i)%Z /\ (col i = col j -> b = false)).
    Proof.
      unfold open_at. split.
      - intros (A & B & C & D). destruct (Nat.eq_dec j i) as [->|N]; [left; rewrite set_at_eq in B; auto|]. right.
        rewrite set_at_neq in B by exact N. destruct (D i ltac:(lia)) as [D1 D2]. rewrite set_at_eq in D2.
        split; [split; [lia|]; split; [exact B|]; split; [intros k Hk; apply C; lia|]|split; [apply C; lia|auto]].
        intros k Hk. destruct (D k ltac:(lia)) as [E F]. rewrite set_at_neq in F by lia. auto.
      - intros [[-> ->]|((A & B & C & D) & E & F & G)].
        + rewrite set_at_eq. split; [lia|]. split; [reflexivity|]. split; intros k Hk; lia.
        + rewrite set_at_neq by lia. split; [lia|]. split; [exact B|]. split.
          * intros k Hk. destruct (Nat.eq_dec k i) as [->|N]; [exact E|apply C; lia].
          * intros k Hk. destruct (Nat.eq_dec k i) as [->|N]; [rewrite set_at_eq; auto|]. rewrite set_at_neq by exact N. apply D. lia.
    Qed.

    Lemma open_for_at placed i j : open_for absd ps col placed i j <-> open_at placed i j /\ ~ gap_before absd ps i.
    Proof.
      unfold open_for, open_at, no_gap. split.
      - intros (A & B & C & D). split; [|apply C; lia]. split; [exact A|]. split; [exact B|]. split; [|exact D]. intros k Hk. apply C. lia.
      - intros [(A & B & C & D) G]. split; [exact A|]. split; [exact B|]. split; [|exact D].
        intros k Hk. destruct (Nat.eq_dec k i) as [->|N]; [exact G|apply C; lia].
    Qed.
    Lemma open_for_ext placed placed' i j : (forall k, k < i -> placed k = placed' k) -> open_for absd ps col placed i j -> open_for absd ps col placed' i j.
    Proof.
      intros H (A & B & C & D). split; [exact A|]. split; [rewrite <- (H j A); exact B|]. split; [exact C|].
      intros k Hk. destruct (D k Hk) as [E F]. split; [exact E|]. rewrite <- (H k) by lia. exact F.
    Qed.
    Lemma reference_ext placed placed' i j : (forall k, k < i -> placed k = placed' k) -> reference absd ps col placed i j -> reference absd ps col placed' i j.
    Proof.
      intros H (A & B & C). split; [apply (open_for_ext placed); assumption|]. split; [exact B|]. intros j' Hj'. apply C.
      apply (open_for_ext placed' placed); [intros k Hk; symmetry; apply H, Hk|exact Hj'].
    Qed.
    Lemma done_ext placed placed' s s' i : (forall k, k <= i -> placed k = placed' k) ->
      (forall k, k <= i -> parent s k = parent s' k /\ prevS s k = prevS s' k) -> done_line placed s i -> done_line placed' s' i.
    Proof.
      intros H Hs D p Hp. destruct (D p Hp) as [D1 D2]. rewrite <- (H i (le_n i)). destruct (Hs i (le_n i)) as [<- <-]. split.
      - intros N. apply D1. intros j R. apply (N j). apply (reference_ext placed); [intros k Hk; apply H; lia|exact R].
      - intros j q R Hq. assert (R' : reference absd ps col placed i j) by (apply (reference_ext placed'); [intros k Hk; symmetry; apply H; lia|exact R]).
        destruct (D2 j q R' Hq) as [D3 D4]. destruct R' as ((Lj & _) & _). destruct (Hs j ltac:(lia)) as [<- _]. split; assumption.
    Qed.

    Lemma step_cinv i p s placed : nth_error ps i = Some p -> cinv i placed s ->
      exists b, cinv (S i) (set_at placed i b) (h_step acw absd (prev_of i) i p s).
    Proof.
      intros Hp [I O D]. pose proof (step_inv i p s Hp I) as I'. unfold h_step in *.
      set (st0 := if far absd (prev_of i) p then [] else stack s) in *.
      assert (S0 : forall j, (exists q, In (j, q) st0) <-> open_at placed i j /\ ~ gap_before absd ps i).
      { intros j. subst st0. destruct (far absd (prev_of i) p) eqn:F.
        - apply (far_gap i p Hp) in F. split; [intros [q []]|intros [_ X]; contradiction].
        - rewrite (O j). split; [|tauto]. intros H. split; [exact H|]. intros G. apply (far_gap i p Hp) in G. congruence. }
      assert (N0 : forall j q, In (j, q) st0 -> nth_error ps j = Some q) by (intros j q Hj; subst st0; destruct (far _ _ _); [destruct Hj|apply (i_st _ _ I j q Hj)]).
      assert (T0 : StronglySorted (fun a b : nat * position => fst b < fst a) st0) by (subst st0; destruct (far _ _ _); [constructor|exact (i_sort _ _ I)]).
      assert (C0 : forall j k q q', In (j, q) st0 -> In (k, q') st0 -> j < k -> (col j < col k)%Z).
      { intros j k q q' Hj Hk. apply (open_col placed i); [apply (S0 j)|apply (S0 k)]; eauto. }
      pose proof (pop_in i p st0 Hp N0 T0 C0) as PI. destruct (pop_suffix (leftX p) st0) as [a Ea].
      set (st := pop_right acw (leftX p) st0) in *.
      assert (S1 : forall j, (exists q, In (j, q) st) <-> open_for absd ps col placed i j /\ (col j <= col i)%Z).
      { intros j. rewrite open_for_at, <- S0. split.
        - intros [q Hq]. apply PI in Hq as [A B]. split; [exists q; exact A|exact B].
        - intros [[q A] B]. exists q. apply PI. auto. }
      assert (N1 : forall j q, In (j, q) st -> nth_error ps j = Some q) by (intros j q Hj; apply N0, PI, Hj).
      assert (C1 : forall j k q q', In (j, q) st -> In (k, q') st -> j < k -> (col j < col k)%Z) by (intros j k q q' Hj Hk; apply (C0 j k q q'); [apply PI, Hj|apply PI, Hk]).
      assert (T1 : StronglySorted (fun a b : nat * position => fst b < fst a) st) by (rewrite Ea in T0; apply (sorted_suffix _ _ _ T0)).
      clearbody st. clear S0 N0 T0 C0 PI Ea a. clearbody st0. clear st0.
      destruct (i_none _ _ I i (le_n i)) as (PN & VN & NN).
      assert (OLD : forall b s', (forall k, k < i -> parent s k = parent s' k /\ prevS s k = prevS s' k) ->
                forall k, k < i -> done_line (set_at placed i b) s' k).
      { intros b s' Hs k Hk. apply (done_ext placed _ s); [intros m Hm; rewrite set_at_neq by lia; reflexivity|intros m Hm; apply Hs; lia|apply D, Hk]. }
      assert (REF : forall b j, reference absd ps col (set_at placed i b) i j <-> reference absd ps col placed i j).
      { intros b j. split; apply reference_ext; intros k Hk; rewrite set_at_neq by lia; reflexivity. }
      (* membership in the new stack, in terms of the remaining one *)
      assert (OP : forall b j, open_at (set_at placed i b) (S i) j <-> (j = i /\ b = true) \/ ((exists q, In (j, q) st) /\ (col i = col j -> b = false))).
      { intros b j. rewrite open_step, S1, open_for_at. tauto. }
      assert (LT : forall j q, In (j, q) st -> j < i) by (intros j q Hj; destruct (proj1 (S1 j) (ex_intro _ q Hj)) as [(L & _) _]; exact L).
      destruct st as [|[j q] t].
      - exists true. constructor; [exact I'| |].
        + intros j. cbn [stack]. rewrite OP. split.
          * intros [q [E|[]]]. injection E as <- _. left. auto.
          * intros [[-> _]|[[q []] _]]. exists p. left. reflexivity.
        + intros k Hk. destruct (Nat.eq_dec k i) as [->|N]; [|apply OLD; [auto|lia]].
          intros p' Hp'. cbn [parent prevS]. rewrite set_at_eq. split; [auto|]. intros j q R _. apply REF in R. destruct R as (R1 & R2 & _).
          destruct (proj2 (S1 j) (conj R1 R2)) as [q' []].
      - assert (R0 : reference absd ps col placed i j).
        { destruct (proj1 (S1 j)) as [A B]; [exists q; left; reflexivity|]. split; [exact A|]. split; [exact B|].
          intros j' A' B'. destruct (proj2 (S1 j') (conj A' B')) as [q' [E|H']]; [injection E as <- _; lia|].
          inversion T1 as [|? ? T2 T3]. subst. rewrite Forall_forall in T3. specialize (T3 _ H'). cbn [fst] in T3. lia. }
        assert (RU : forall b j', reference absd ps col (set_at placed i b) i j' -> j' = j).
        { intros b j' R. apply REF in R. destruct R0 as (A & B & C), R as (A' & B' & C'). pose proof (C j' A' B'). pose proof (C' j A B). lia. }
        pose proof (N1 j q (or_introl eq_refl)) as Nj.
        assert (Lj : j < i) by (apply (LT j q); left; reflexivity).
        assert (Cj : (col j <= col i)%Z) by apply R0.
        inversion T1 as [|? ? T2 T3]. subst. rewrite Forall_forall in T3.
        destruct (HC j i q p Nj Hp) as (E1 & E2 & E3). unfold leftX_threshold in *.
        assert (NOREF : forall b, (forall j', ~ reference absd ps col (set_at placed i b) i j') -> False) by (intros b H; apply (H j), REF, R0).
        assert (TC : forall j' q', In (j', q') t -> (col j' < col j)%Z).
        { intros j' q' H'. apply (C1 j' j q' q); [right; exact H'|left; reflexivity|]. apply (T3 _ H'). }
        destruct (equalOrLarger (lowerY q) (lowerY p) coords_tol) eqn:EL; [|rewrite E2, E3 in *; destruct (Z.eqb_spec (col j) (col i)) as [CE|CE]].
        + exists false. constructor; [exact I'| |].
          * intros j'. cbn [stack]. rewrite OP. split; [intros H; right; split; [exact H|auto]|intros [[_ X]|[H _]]; [discriminate|exact H]].
          * intros k Hk. destruct (Nat.eq_dec k i) as [->|N]; [|apply OLD; [auto|lia]].
            intros p' Hp'. rewrite Hp in Hp'. injection Hp' as <-. cbn [parent prevS]. rewrite set_at_eq. split; [intros H; destruct (NOREF _ H)|].
            intros j' q' R Hq'. rewrite (RU _ _ R) in *. rewrite Nj in Hq'. injection Hq' as <-. split; [|auto]. unfold below. unfold coords_tol in EL. rewrite EL. discriminate.
        + exists true. constructor; [exact I'| |].
          * intros j'. cbn [stack]. rewrite OP. split.
            -- intros [q' [E|H']]; [injection E as <- _; left; auto|]. right. split; [exists q'; right; exact H'|]. intros X. pose proof (TC _ _ H'). lia.
            -- intros [[-> _]|[[q' [E|H']] X]]; [exists p; left; reflexivity| |exists q'; right; exact H']. injection E as <- _. specialize (X (eq_sym CE)). discriminate.
          * intros k Hk. destruct (Nat.eq_dec k i) as [->|N]; [|apply OLD; [intros m Hm; cbn [parent prevS]; rewrite !set_at_neq by lia; auto|lia]].
            intros p' Hp'. rewrite Hp in Hp'. injection Hp' as <-. cbn [parent prevS]. rewrite !set_at_eq. split; [intros H; destruct (NOREF _ H)|].
            intros j' q' R Hq'. rewrite (RU _ _ R) in *. rewrite Nj in Hq'. injection Hq' as <-. split.
            -- intros _. split; [reflexivity|]. rewrite set_at_neq by lia. split; [auto|intros; lia].
            -- intros X. exfalso. apply X. exact EL.
        + assert (CL : (col j < col i)%Z) by lia. rewrite (proj2 (Z.ltb_lt _ _) CL) in *. exists true. constructor; [exact I'| |].
          * intros j'. cbn [stack]. rewrite OP. split.
            -- intros [q' [E|H']]; [injection E as <- _; left; auto|]. right. split; [exists q'; exact H'|].
               intros X. destruct H' as [E|H']; [injection E as <- _; lia|]. pose proof (TC _ _ H'). lia.
            -- intros [[-> _]|[[q' H'] X]]; [exists p; left; reflexivity|]. exists q'. right. exact H'.
          * intros k Hk. destruct (Nat.eq_dec k i) as [->|N]; [|apply OLD; [intros m Hm; cbn [parent prevS]; rewrite !set_at_neq by lia; auto|lia]].
            intros p' Hp'. rewrite Hp in Hp'. injection Hp' as <-. cbn [parent prevS]. rewrite !set_at_eq. split; [intros H; destruct (NOREF _ H)|].
            intros j' q' R Hq'. rewrite (RU _ _ R) in *. rewrite Nj in Hq'. injection Hq' as <-. split.
            -- intros _. split; [reflexivity|]. split; [intros; lia|auto].
            -- intros X. exfalso. apply X. exact EL.
    Qed.
    Lemma cinv_init : cinv 0 (fun _ => false) h_init.
    Proof.
      constructor; [apply inv_init| |intros k Hk; lia]. intros j. cbn [h_init stack]. split; [intros [q []]|intros (L & _); lia].
    Qed.
    Lemma loop_cinv t : forall i s placed, (forall k p, nth_error t k = Some p -> nth_error ps (i + k) = Some p) -> cinv i placed s ->
      exists placed', cinv (i + length t) placed' (h_loop acw absd (prev_of i) i t s).
    Proof.
      induction t as [|p t IH]; intros i s placed H I; cbn [h_loop length]; [rewrite Nat.add_0_r; exists placed; exact I|].
      pose proof (H 0 p eq_refl) as Hp. rewrite Nat.add_0_r in Hp. destruct (step_cinv i p s placed Hp I) as [b B].
      replace (Some p) with (prev_of (S i)) by exact Hp. rewrite <- Nat.add_succ_comm. apply (IH _ _ _ ltac:(intros k q Hk; rewrite Nat.add_succ_comm; apply (H (S k) q Hk)) B).
    Qed.
    Lemma hierarchy_columns : exists placed, forall i, i < length ps -> done_line placed (computeTextLineHierarchy acw absd ps) i.
    Proof.
      destruct (loop_cinv ps 0 h_init _ ltac:(intros k p Hk; exact Hk) cinv_init) as [placed C]. exists placed. intros i Hi. apply (c_done _ _ _ C). exact Hi.
    Qed.
  End Columns.
End H.
