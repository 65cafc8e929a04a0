(** CounterProofs.v - lemmas about Counter.v *)
From Coq Require Import ZArith NArith Reals Lra.
From Verif Require Import Base Double DoubleFacts MathUtils MathUtilsProofs ElementsProofs Sort Counter UtilsSpec.

Section MF.
  Context {K : Type}.
  Implicit Types order : list (K * N).
  Let best (acc e : K * N) := if (snd acc <? snd e)%N then e else acc.

  Lemma best_fold order : forall acc,
    let r := fold_left best order acc in
    (r = acc \/ In r order) /\ (snd acc <= snd r)%N /\ (forall e, In e order -> (snd e <= snd r)%N).
  Proof.
    induction order as [|e t IH]; intros acc; cbn [fold_left].
    - split; [auto|]. split; [lia|intros ? []].
    - destruct (IH (best acc e)) as (A & B & C).
      assert (snd acc <= snd (best acc e) /\ snd e <= snd (best acc e))%N as [Ha He].
      { unfold best. destruct (N.ltb_spec (snd acc) (snd e)); lia. }
      split; [|split].
      + destruct A as [A|A]; [|right; right; exact A].
        assert (best acc e = acc \/ best acc e = e) as [H|H].
        { unfold best. destruct (N.ltb_spec (snd acc) (snd e)); auto. }
        * left. rewrite A. exact H.
        * right. left. rewrite A. auto.
      + lia.
      + intros x [<-|Hx]; [lia|auto].
  Qed.

  Lemma mostFreqAndCount_spec k0 order :
    (exists k n, mostFreqAndCount k0 order = Ok (k, n) /\ In (k, n) order /\ (0 < n)%N /\
       forall e, In e order -> (snd e <= n)%N) \/
    ((exists w, mostFreqAndCount k0 order = Throw w) /\ forall e, In e order -> snd e = 0%N).
  Proof.
    unfold mostFreqAndCount. pose proof (best_fold order (k0, 0%N)) as (A & B & C). fold best.
    destruct (fold_left best order (k0, 0%N)) as [k n] eqn:F. cbn [snd] in *.
    destruct (N.eqb_spec n 0) as [->|Hn].
    - right. split; [eauto|]. intros e He. specialize (C e He). lia.
    - left. exists k, n. split; [auto|]. split.
      + destruct A as [A|A]; auto. injection A as -> ->. congruence.
      + split; [lia|auto].
  Qed.
  Lemma sumCounts_mod order : sumCounts order = u32 (fold_right N.add 0%N (map snd order)).
  Proof.
    assert (forall s, fold_left (fun s e => u32 (s + snd e)) order (u32 s) = u32 (s + fold_right N.add 0 (map snd order)))%N as H.
    { induction order as [|e t IH]; intros s; cbn [fold_left map fold_right].
      - f_equal. lia.
      - replace (u32 (u32 s + snd e)) with (u32 (s + snd e)).
        + rewrite IH. f_equal. lia.
        + unfold u32. rewrite N.add_mod_idemp_l; [reflexivity|discriminate]. }
    unfold sumCounts. change 0%N with (u32 0) at 1. rewrite H. f_equal.
  Qed.
End MF.

Section Cnt.
  Context {K : Type} (eqb : K -> K -> bool).
  Hypothesis Hsym : forall a b, eqb a b = true -> eqb b a = true.
  Hypothesis Htrans : forall a b c, eqb a b = true -> eqb b c = true -> eqb a c = true.
  Notation occ := (UtilsSpec.occ eqb).

  Lemma occ_app k l x : occ k (l ++ [x]) = occ k l + (if eqb k x then 1 else 0).
  Proof. unfold UtilsSpec.occ. rewrite filter_app, app_length. cbn. destruct (eqb k x); reflexivity. Qed.
  Lemma occ_le k l : occ k l <= length l.
  Proof. unfold UtilsSpec.occ. induction l as [|a l IH]; cbn; [lia|]. destruct (eqb k a); cbn; lia. Qed.

  Definition pairwise (c : list (K * N)) : Prop := ForallOrdPairs (fun a b => eqb (fst a) (fst b) = false) c.
  Definition cinv (l : list K) (c : list (K * N)) : Prop :=
    (forall k n, In (k, n) c -> In k l /\ n = N.of_nat (occ k l)) /\
    (forall k, In k l -> exists k' n, In (k', n) c /\ eqb k' k = true) /\ pairwise c.

  Lemma in_incr k n x c : pairwise c -> In (k, n) (incr eqb x c) ->
    (eqb k x = true /\ exists m, In (k, m) c /\ n = u32 (m + 1)) \/ (eqb k x = false /\ In (k, n) c) \/
    (k = x /\ n = 1%N /\ forall e, In e c -> eqb (fst e) x = false).
  Proof.
    intros Hp. induction Hp as [|[k' m] t Hall Hp IH]; cbn [incr].
    - intros [[= <- <-]|[]]. right. right. split; [auto|split; [auto|intros ? []]].
    - destruct (eqb k' x) eqn:Ex.
      + intros [[= <- <-]|Hin]; [left; split; [auto|]; exists m; split; [left; auto|auto]|].
        right. left. split; [|right; auto].
        destruct (eqb k x) eqn:Ek; auto. rewrite Forall_forall in Hall. specialize (Hall _ Hin). cbn in Hall.
        rewrite (Htrans k' x k) in Hall; auto.
      + intros [[= <- <-]|Hin]; [right; left; split; [auto|left; auto]|].
        destruct (IH Hin) as [(A & m' & B & C)|[(A & B)|(A & B & C)]].
        * left. split; auto. exists m'. split; [right; auto|auto].
        * right. left. split; auto. right; auto.
        * right. right. split; [auto|]. split; [auto|]. intros e [<-|He]; auto.
  Qed.
  Lemma incr_keys x c e : In e (incr eqb x c) -> (exists m, In (fst e, m) c) \/ fst e = x.
  Proof.
    induction c as [|[k' m] t IH]; cbn [incr].
    - intros [<-|[]]. auto.
    - destruct (eqb k' x).
      + intros [<-|H]; [left; exists m; left; auto|]. left. exists (snd e). right. destruct e; auto.
      + intros [<-|H]; [left; exists m; left; auto|]. destruct (IH H) as [[m' A]|A]; [left; exists m'; right; auto|auto].
  Qed.
  Lemma incr_pairwise x c : pairwise c -> pairwise (incr eqb x c).
  Proof.
    intros Hp. induction Hp as [|[k' m] t Hall Hp IH]; cbn [incr].
    - repeat constructor.
    - destruct (eqb k' x) eqn:Ex; [constructor; auto|].
      constructor; auto. apply Forall_forall. intros e He. cbn [fst].
      destruct (incr_keys _ _ _ He) as [[m' A]| ->]; auto.
      rewrite Forall_forall in Hall. apply (Hall _ A).
  Qed.
  Lemma incr_has x c : (exists k n, In (k, n) (incr eqb x c) /\ (eqb k x = true \/ k = x)).
  Proof.
    induction c as [|[k' m] t IH]; cbn [incr]; [exists x, 1%N; split; [left|]; auto|].
    destruct (eqb k' x) eqn:Ex; [exists k', (u32 (m + 1)); split; [left|]; auto|].
    destruct IH as (k & n & A & B). exists k, n. split; [right|]; auto.
  Qed.
  Lemma incr_keeps x c k n : In (k, n) c -> exists n', In (k, n') (incr eqb x c).
  Proof.
    induction c as [|[k' m] t IH]; cbn [incr]; [intros []|].
    intros [[= <- <-]|H].
    - destruct (eqb k' x); eexists; left; reflexivity.
    - destruct (eqb k' x); [exists n; right; auto|]. destruct (IH H) as [n' A]. exists n'. right; auto.
  Qed.

  Lemma cinv_step l c x : cinv l c -> eqb x x = true -> (N.of_nat (length l) + 1 < 2 ^ 32)%N -> cinv (l ++ [x]) (incr eqb x c).
  Proof.
    intros (I1 & I2 & I3) Hr Hlen. split; [|split].
    - intros k n Hin. destruct (in_incr k n x c I3 Hin) as [(A & m & B & C)|[(A & B)|(A & B & C)]].
      + destruct (I1 _ _ B) as [D F]. split; [apply in_or_app; auto|].
        rewrite occ_app, A. rewrite C, F. unfold u32. pose proof (occ_le k l).
        rewrite N.mod_small; lia.
      + destruct (I1 _ _ B) as [D F]. split; [apply in_or_app; auto|]. rewrite occ_app, A, Nat.add_0_r. auto.
      + subst k n. split; [apply in_or_app; right; left; auto|]. rewrite occ_app, Hr.
        assert (occ x l = 0) as ->; [|reflexivity]. unfold UtilsSpec.occ.
        destruct (filter (eqb x) l) as [|y t] eqn:F; auto.
        assert (In y (filter (eqb x) l)) as Hy by (rewrite F; left; auto). apply filter_In in Hy as [Hy1 Hy2].
        destruct (I2 y Hy1) as (k' & n' & P & Q). specialize (C _ P). cbn in C.
        rewrite (Htrans k' y x) in C; [discriminate|auto|auto].
    - intros k Hk. apply in_app_or in Hk as [Hk|[<-|[]]].
      + destruct (I2 k Hk) as (k' & n & A & B). destruct (incr_keeps x c k' n A) as [n' P]. eauto.
      + destruct (incr_has x c) as (k & n & A & [B| ->]); eauto.
    - apply incr_pairwise; auto.
  Qed.
  Lemma count_all_inv l : (forall x, In x l -> eqb x x = true) -> (N.of_nat (length l) < 2 ^ 32)%N ->
    cinv l (count_all eqb l).
  Proof.
    unfold count_all. induction l as [|x l IH] using rev_ind; intros Hr Hlen.
    - split; [intros ? ? []|split; [intros ? []|constructor]].
    - rewrite app_length in Hlen. cbn in Hlen. rewrite fold_left_app. cbn [fold_left].
      apply cinv_step; [apply IH| |]; try lia.
      + intros y Hy. apply Hr, in_or_app; auto.
      + apply Hr, in_or_app. right; left; auto.
  Qed.

  (** Counting a list and asking for the most frequent value gives a value of maximal frequency,
      whatever the iteration order. *)
  Lemma mostFreq_counted l k0 order : (forall x, In x l -> eqb x x = true) -> (N.of_nat (length l) < 2 ^ 32)%N ->
    Permutation (count_all eqb l) order ->
    (l = [] -> exists w, mostFreqAndCount k0 order = Throw w) /\
    (l <> [] -> exists k, mostFreqAndCount k0 order = Ok (k, N.of_nat (occ k l)) /\ In k l /\
        forall k', In k' l -> occ k' l <= occ k l).
  Proof.
    intros Hr Hlen HP. destruct (count_all_inv l Hr Hlen) as (I1 & I2 & _). split.
    - intros ->. cbn in HP. apply Permutation_nil in HP. subst order. cbn. eauto.
    - intros Hne. destruct (mostFreqAndCount_spec k0 order) as [(k & n & E1 & E2 & E3 & E4)|[_ E]].
      + apply (Permutation_in _ (Permutation_sym HP)) in E2 as E2'. destruct (I1 _ _ E2') as [Hin Hn].
        exists k. rewrite E1, Hn. split; [auto|]. split; [auto|].
        intros k' Hk'. destruct (I2 k' Hk') as (k2 & n2 & A & B).
        destruct (I1 _ _ A) as [_ Hn2]. apply (Permutation_in _ HP) in A. specialize (E4 _ A). cbn in E4.
        assert (occ k' l = occ k2 l) as ->; [|lia].
        unfold UtilsSpec.occ. f_equal. clear -B Hsym Htrans. induction l as [|a l IH]; auto. cbn.
        assert (eqb k' a = eqb k2 a) as ->.
        { destruct (eqb k' a) eqn:P, (eqb k2 a) eqn:Q; auto.
          - rewrite (Htrans k2 k' a) in Q; auto.
          - rewrite (Htrans k' k2 a) in P; auto. }
        rewrite IH. reflexivity.
      + exfalso. destruct l as [|x l]; [congruence|].
        destruct (I2 x (or_introl eq_refl)) as (k' & n & A & B). destruct (I1 _ _ A) as [C D].
        apply (Permutation_in _ HP) in A. specialize (E _ A). cbn [snd] in E. rewrite E in D. clear E. rename D into E.
        assert (In k' (filter (eqb k') (x :: l))) as Hf by (apply filter_In; auto).
        unfold UtilsSpec.occ in E. destruct (filter (eqb k') (x :: l)); [destruct Hf|discriminate].
  Qed.
  Lemma incr_sum x c : (fold_right N.add 0 (map snd c) + 1 < 2 ^ 32)%N ->
    (fold_right N.add 0 (map snd (incr eqb x c)) = fold_right N.add 0 (map snd c) + 1)%N.
  Proof.
    induction c as [|[k n] t IH]; cbn [incr map fold_right snd]; [reflexivity|]. intros H.
    destruct (eqb k x); cbn [map fold_right snd].
    - unfold u32. rewrite N.mod_small; lia.
    - rewrite IH; lia.
  Qed.
  Lemma count_all_sum l : (N.of_nat (length l) < 2 ^ 32)%N ->
    fold_right N.add 0%N (map snd (count_all eqb l)) = N.of_nat (length l).
  Proof.
    unfold count_all. induction l as [|x l IH] using rev_ind; intros Hlen; [reflexivity|].
    rewrite app_length in *. cbn [length] in *. rewrite fold_left_app. cbn [fold_left].
    rewrite incr_sum; rewrite IH; lia.
  Qed.
  Lemma perm_sum (a b : list (K * N)) : Permutation a b -> fold_right N.add 0%N (map snd a) = fold_right N.add 0%N (map snd b).
  Proof. induction 1; cbn; lia. Qed.
  Lemma sumCounts_counted l order : (N.of_nat (length l) < 2 ^ 32)%N -> Permutation (count_all eqb l) order ->
    sumCounts order = N.of_nat (length l).
  Proof.
    intros Hlen HP. rewrite sumCounts_mod, <- (perm_sum _ _ HP), count_all_sum by auto.
    unfold u32. apply N.mod_small. lia.
  Qed.
End Cnt.

(** ** DoubleCounter::max *)
Lemma dadd_mono_l a b t : dle a b = true -> is_fin t = true -> dle (dadd a t) (dadd b t) = true.
Proof.
  intros H Ft. destruct (dle_nn _ _ H) as [Na Nb].
  pose proof (dadd_fin_r_nn a t Na Ft) as N1. pose proof (dadd_fin_r_nn b t Nb Ft) as N2.
  apply dle_E; auto. apply dle_E in H; auto.
  destruct (is_fin a) eqn:Fa; destruct (is_fin b) eqn:Fb.
  - destruct (dadd_E a t Fa Ft) as [_ ->]. destruct (dadd_E b t Fb Ft) as [_ ->].
    apply clamp_mono, rd_mono. lra.
  - destruct (inf_nn_cases b Nb Fb) as [-> | ->].
    + pose proof (E_fin_bound a Fa). cbn [E] in H. lra.
    + assert (dadd (BinarySingleNaN.B754_infinity false) t = BinarySingleNaN.B754_infinity false) as ->.
      { destruct t as [s|s| |s m e Hm]; try discriminate; reflexivity. }
      cbn [E]. apply E_bound.
  - destruct (inf_nn_cases a Na Fa) as [-> | ->].
    + assert (dadd (BinarySingleNaN.B754_infinity true) t = BinarySingleNaN.B754_infinity true) as ->.
      { destruct t as [s|s| |s m e Hm]; try discriminate; reflexivity. }
      cbn [E]. apply E_bound.
    + pose proof (E_fin_bound b Fb). cbn [E] in H. lra.
  - assert (forall s, dadd (BinarySingleNaN.B754_infinity s) t = BinarySingleNaN.B754_infinity s) as HI.
    { intros s. destruct t as [s'|s'| |s' m e Hm]; try discriminate; reflexivity. }
    destruct (inf_nn_cases a Na Fa) as [-> | ->]; destruct (inf_nn_cases b Nb Fb) as [-> | ->];
      rewrite ?HI; try apply Rle_refl; cbn [E] in *; pose proof M_pos; lra.
Qed.
Lemma larger_mono_r k a b : larger k b TOL = true -> dle a b = true -> larger k a TOL = true.
Proof.
  unfold larger, dgt. intros H Hab. eapply dle_lt_trans; [|exact H].
  apply dadd_mono_l; auto.
Qed.

Definition mstep (acc : double * bool) (e : double * N) :=
  if (0 <? snd e)%N && larger (fst e) (fst acc) TOL then (fst e, true) else acc.
Lemma mstep_fold order : forall m f, nn m ->
  let r := fold_left mstep order (m, f) in
  nn (fst r) /\ dle m (fst r) = true /\
  (forall k n, In (k, n) order -> (0 < n)%N -> larger k (fst r) TOL = false) /\
  ((snd r = f /\ fst r = m) \/ (snd r = true /\ exists n, In (fst r, n) order /\ (0 < n)%N)) /\
  (forall k n, In (k, n) order -> (0 < n)%N -> larger k m TOL = true -> snd r = true).
Proof.
  induction order as [|[k n] t IH]; intros m f Hm; cbn [fold_left].
  - split; [auto|]. split; [apply dle_refl; auto|]. split; [intros ? ? []|]. split; [auto|intros ? ? []].
  - assert (mstep (m, f) (k, n) = if (0 <? n)%N && larger k m TOL then (k, true) else (m, f)) as Hs by reflexivity.
    rewrite Hs. clear Hs. destruct ((0 <? n)%N && larger k m TOL) eqn:C.
    + apply andb_true_iff in C as [C1 C2]. apply N.ltb_lt in C1.
      assert (dlt m k = true) as Hlt by (apply larger_gt in C2; auto; apply TOL_pos).
      assert (nn k) as Hk by (apply dlt_nn in Hlt; tauto).
      destruct (IH k true Hk) as (A & B & D & F & G).
      split; [auto|]. split; [eapply dle_trans; [apply dlt_dle; exact Hlt|exact B]|].
      split; [|split].
      * intros k' n' [[= <- <-]|Hin] Hn; [|eauto].
        destruct (larger k (fst (fold_left mstep t (k, true))) TOL) eqn:X; auto.
        apply larger_gt in X; [|apply TOL_pos]. pose proof (dlt_le_trans _ _ _ X B) as Y. rewrite dlt_irrefl in Y. discriminate.
      * right. destruct F as [[F1 F2]|[F1 (n' & F2 & F3)]].
        -- split; auto. exists n. rewrite F2. split; [left; auto|auto].
        -- split; auto. exists n'. split; [right; auto|auto].
      * intros _ _ _ _ _. destruct F as [[F1 _]|[F1 _]]; auto.
    + destruct (IH m f Hm) as (A & B & D & F & G).
      split; [auto|]. split; [auto|]. split; [|split].
      * intros k' n' [[= <- <-]|Hin] Hn; [|eauto].
        destruct (larger k (fst (fold_left mstep t (m, f))) TOL) eqn:X; auto.
        rewrite (larger_mono_r k m _ X B) in C. apply N.ltb_lt in Hn. rewrite Hn in C. discriminate.
      * destruct F as [F|[F1 (n' & F2 & F3)]]; [auto|]. right. split; auto. exists n'. split; [right; auto|auto].
      * intros k' n' [[= <- <-]|Hin] Hn X; [|eauto].
        apply N.ltb_lt in Hn. rewrite Hn, X in C. discriminate.
Qed.
Lemma counter_max_spec order :
  (exists m n, counter_max order = Ok m /\ In (m, n) order /\ (0 < n)%N /\
     (forall k n', In (k, n') order -> (0 < n')%N -> larger k m TOL = false)) \/
  ((exists w, counter_max order = Throw w) /\
     forall k n', In (k, n') order -> (0 < n')%N -> larger k DBL_MIN TOL = false).
Proof.
  unfold counter_max. fold mstep.
  destruct (mstep_fold order DBL_MIN false) as (A & B & C & D & F); [reflexivity|].
  destruct (fold_left mstep order (DBL_MIN, false)) as [m f] eqn:R. cbn [fst snd] in *.
  destruct D as [[-> ->]|[-> (n & D1 & D2)]].
  - right. split; [eauto|]. intros k n Hin Hn. destruct (larger k DBL_MIN TOL) eqn:X; auto.
    specialize (F k n Hin Hn X). discriminate.
  - left. exists m, n. auto.
Qed.

(** ** FixedCapacityPriorityQueue *)
Section PQ.
  Context {A : Type} (cmp : A -> A -> bool).
  Definition pq_inv (cap : N) (vs q gone : list A) : Prop :=
    N.of_nat (length q) = N.min cap (N.of_nat (length vs)) /\ Permutation vs (q ++ gone) /\
    (vs = [] \/ exists l rest, last_opt vs = Some l /\ Permutation q (l :: rest) /\
       forall d x, In d gone -> In x rest -> cmp d x = false).

  Lemma last_opt_app (l : list A) x : last_opt (l ++ [x]) = Some x.
  Proof. unfold last_opt. rewrite rev_app_distr. reflexivity. Qed.

  Lemma pq_step cap vs q gone v r : strict_weak cmp -> (1 <= cap)%N ->
    pq_inv cap vs q gone -> pq_push cmp cap q v r ->
    exists q' gone', r = Some q' /\ pq_inv cap (vs ++ [v]) q' gone'.
  Proof.
    intros (Hirr & Htr & Hnt) Hcap (L & P & HI) Hpush.
    assert (length (vs ++ [v]) = S (length vs)) as Hlen by (rewrite app_length; cbn; lia).
    destruct Hpush as [q' r Hfull Hpop Hr|Hfull Hemp|r Hnf Hr].
    - destruct Hpop as [t q1 q2 Hq Hmax].
      assert (length q = S (length (q1 ++ q2))) as Hq' by (rewrite Hq, !app_length; cbn; lia).
      exists r, (t :: gone). split; [auto|]. split; [|split].
      + rewrite <- (Permutation_length Hr). cbn [length]. lia.
      + transitivity (v :: vs); [symmetry; apply Permutation_cons_append|].
        rewrite <- Hr. cbn. constructor. rewrite P, Hq. rewrite <- !app_assoc. cbn.
        apply Permutation_app_head, Permutation_middle.
      + right. exists v, (q1 ++ q2). split; [apply last_opt_app|]. split; [symmetry; auto|].
        assert (forall x, In x (q1 ++ q2) -> In x q) as Hsub.
        { intros x Hx. rewrite Hq. apply in_app_or in Hx as [Hx|Hx]; apply in_or_app; [auto|right; right; auto]. }
        intros d x [<-|Hd] Hx; [apply Hmax, Hsub; auto|].
        destruct HI as [->|(l & rest & Hl & Hperm & Hrest)].
        { apply Permutation_nil in P. apply app_eq_nil in P as [_ ->]. destruct Hd. }
        assert (Permutation (l :: rest) (t :: q1 ++ q2)) as Hpp.
        { rewrite <- Hperm, Hq. symmetry. apply Permutation_middle. }
        assert (In t (l :: rest)) as Ht by (apply (Permutation_in _ (Permutation_sym Hpp)); left; auto).
        assert (In x (l :: rest)) as Hxl.
        { apply (Permutation_in _ (Permutation_sym Hpp)). right; auto. }
        destruct Ht as [->|Ht].
        * apply Permutation_cons_inv in Hpp. apply Hrest; auto. apply (Permutation_in _ (Permutation_sym Hpp)); auto.
        * destruct Hxl as [->|Hxl]; [|apply Hrest; auto].
          destruct (cmp d x) eqn:C; auto. destruct (Hnt d t x C) as [C1|C1].
          -- rewrite (Hrest d t) in C1; auto.
          -- rewrite (Hmax x) in C1; [discriminate|]. apply (Permutation_in _ (Permutation_sym Hperm)). left; auto.
    - subst q. cbn in Hfull. lia.
    - exists r, gone. split; [auto|].
      assert (gone = []) as ->.
      { assert (length gone = 0); [|destruct gone; auto; discriminate].
        apply Permutation_length in P. rewrite app_length in P. lia. }
      rewrite app_nil_r in P. split; [|split].
      + rewrite <- (Permutation_length Hr). cbn [length]. apply Permutation_length in P. lia.
      + rewrite app_nil_r, <- Hr, P. symmetry. apply Permutation_cons_append.
      + right. exists v, q. split; [apply last_opt_app|]. split; [symmetry; auto|]. intros d x [].
  Qed.
  Lemma pq_run_inv cap vs r : strict_weak cmp -> (1 <= cap)%N -> pq_run cmp cap vs r ->
    exists q gone, r = Some q /\ pq_inv cap vs q gone.
  Proof.
    intros HS Hc H. induction H as [|vs q v r H IH Hp|vs v H IH].
    - exists [], []. split; auto. split; [cbn; lia|]. split; [constructor|auto].
    - destruct IH as (q0 & gone & [= <-] & HI). eapply pq_step; eauto.
    - destruct IH as (q0 & gone & E & _). discriminate.
  Qed.
  (** A non-full or non-empty queue can always be pushed to (no deadlock in the relation). *)
  Lemma max_exists (q : list A) : strict_weak cmp -> q <> [] -> exists x, In x q /\ forall y, In y q -> cmp x y = false.
  Proof.
    intros (Hirr & Htr & Hnt). induction q as [|a q IH]; [congruence|]. intros _.
    destruct q as [|b q].
    - exists a. split; [left; auto|]. intros y [<-|[]]. auto.
    - destruct IH as (x & Hx & Hm); [discriminate|]. destruct (cmp x a) eqn:C.
      + exists a. split; [left; auto|]. intros y [<-|Hy]; auto.
        destruct (cmp a y) eqn:D; auto.
        pose proof (Htr x a y C D). rewrite (Hm y Hy) in *. discriminate.
      + exists x. split; [right; auto|]. intros y [<-|Hy]; auto.
  Qed.
  Lemma pq_total cap vs : strict_weak cmp -> (1 <= cap)%N -> exists q, pq_run cmp cap vs (Some q).
  Proof.
    intros HS Hc. induction vs as [|v vs IH] using rev_ind; [exists []; constructor|].
    destruct IH as [q Hq]. destruct (N.eq_dec (N.of_nat (length q)) cap) as [Hf|Hf].
    - destruct (max_exists q HS) as (x & Hx & Hm). { intros ->. cbn in Hf. lia. }
      apply in_split in Hx as (q1 & q2 & Hx). exists (v :: q1 ++ q2).
      eapply RunPush; [exact Hq|]. apply PushFull with (q' := q1 ++ q2); auto. apply (PqPop cmp q x q1 q2 Hx Hm).
    - exists (v :: q). eapply RunPush; [exact Hq|]. apply PushFree; auto.
  Qed.
End PQ.

Lemma counter_max_guarded order :
  ((exists k n, In (k, n) order /\ (0 < n)%N /\ larger k DBL_MIN TOL = true) ->
   exists m n, counter_max order = Ok m /\ In (m, n) order /\ (0 < n)%N /\
     forall k n', In (k, n') order -> (0 < n')%N -> larger k m TOL = false) /\
  ((forall k n, In (k, n) order -> (0 < n)%N -> larger k DBL_MIN TOL = false) ->
   exists w, counter_max order = Throw w).
Proof.
  unfold counter_max. fold mstep.
  destruct (mstep_fold order DBL_MIN false) as (A & B & C & D & F); [reflexivity|].
  destruct (fold_left mstep order (DBL_MIN, false)) as [m f] eqn:R. cbn [fst snd] in *. split.
  - intros (k & n & Hin & Hn & Hl). rewrite (F k n Hin Hn Hl) in *.
    destruct D as [[D _]|[_ (n' & D1 & D2)]]; [discriminate|]. exists m, n'. auto.
  - intros H. destruct f; [|eauto]. exfalso. destruct D as [[D _]|[_ (n' & D1 & D2)]]; [discriminate|].
    assert (forall o m0 f0, (forall k n, In (k, n) o -> (0 < n)%N -> larger k m0 TOL = false) -> fold_left mstep o (m0, f0) = (m0, f0)) as G.
    { induction o as [|[k n] t IH]; intros m0 f0 Ho; auto. cbn [fold_left].
      assert (mstep (m0, f0) (k, n) = (m0, f0)) as ->.
      { unfold mstep. cbn [fst snd]. destruct (N.ltb_spec 0 n); auto. rewrite (Ho k n); auto. left; auto. }
      apply IH. intros k' n2 Hin. apply Ho. right; auto. }
    rewrite G in R by auto. discriminate.
Qed.
