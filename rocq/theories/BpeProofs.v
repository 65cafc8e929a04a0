(** BpeProofs.v - lemmas about Bpe.v *)
From Coq Require Import ZArith NArith.
From Verif Require Import Base Counter TextUtils UtilsSpec TextUtilsProofs Bpe BpeSpec.

Lemma wstr_eqb_eq a b : wstr_eqb a b = true <-> a = b.
Proof. unfold wstr_eqb. destruct (list_eq_dec N.eq_dec a b); split; congruence. Qed.
Lemma wstr_eqb_refl a : wstr_eqb a a = true. Proof. apply wstr_eqb_eq. reflexivity. Qed.
Lemma wstr_eqb_neq a b : wstr_eqb a b = false <-> a <> b.
Proof. rewrite <- wstr_eqb_eq. destruct (wstr_eqb a b); split; congruence. Qed.

Lemma lookup_assign_eq {V} k (v : V) m : lookup k (assign k v m) = Some v.
Proof.
  induction m as [|[k' v'] t IH]; cbn [assign lookup]; [rewrite wstr_eqb_refl; auto|].
  destruct (wstr_eqb k' k) eqn:F; cbn [lookup]; rewrite F; auto.
Qed.
Lemma lookup_assign_neq {V} k k2 (v : V) m : k <> k2 -> lookup k2 (assign k v m) = lookup k2 m.
Proof.
  intros Hn. induction m as [|[k' v'] t IH]; cbn [assign lookup].
  - destruct (wstr_eqb k k2) eqn:F; auto. apply wstr_eqb_eq in F. congruence.
  - destruct (wstr_eqb k' k) eqn:F; cbn [lookup].
    + apply wstr_eqb_eq in F. subst k'. destruct (wstr_eqb k k2) eqn:G; auto. apply wstr_eqb_eq in G. congruence.
    + rewrite IH. reflexivity.
Qed.
Lemma assign_length {V} k (v : V) m : length (assign k v m) = match lookup k m with Some _ => length m | None => S (length m) end.
Proof.
  induction m as [|[k' v'] t IH]; cbn [assign lookup]; auto.
  destruct (wstr_eqb k' k); cbn [length]; auto. rewrite IH. destruct (lookup k t); auto.
Qed.

(** ** Token pairs *)
Fixpoint adjs (tokens : list wstr) : list wstr :=
  match tokens with a :: ((b :: _) as t) => (a ++ b) :: adjs t | _ => [] end.
Fixpoint idx_fold (ms : list wstr) (i : nat) (acc : list (wstr * list nat)) : list (wstr * list nat) :=
  match ms with [] => acc | m :: t => idx_fold t (S i) (add_pair m i acc) end.
Lemma pairs_loop_adjs tokens : forall i acc, pairs_loop tokens i acc = idx_fold (adjs tokens) i acc.
Proof.
  induction tokens as [|a t IH]; intros i acc; auto. destruct t as [|b t]; auto.
  cbn [pairs_loop adjs idx_fold]. apply IH.
Qed.

Definition pinv (ms : list wstr) (acc : list (wstr * list nat)) : Prop :=
  (forall m ps, In (m, ps) acc -> forall i, In i ps <-> nth_error ms i = Some m) /\
  (forall m, In m ms -> exists ps, In (m, ps) acc) /\
  NoDup (map fst acc) /\
  (forall l1 m ps l2, acc = l1 ++ (m, ps) :: l2 ->
     exists k, nth_error ms k = Some m /\ forall j, j < k -> exists m', nth_error ms j = Some m' /\ In m' (map fst l1)).

Lemma add_pair_cases m i acc :
  (exists l1 ps l2, acc = l1 ++ (m, ps) :: l2 /\ ~ In m (map fst l1) /\ add_pair m i acc = l1 ++ (m, i :: ps) :: l2) \/
  (~ In m (map fst acc) /\ add_pair m i acc = acc ++ [(m, [i])]).
Proof.
  induction acc as [|[m' ps] t IH]; cbn [add_pair].
  - right. split; auto.
  - destruct (wstr_eqb m' m) eqn:F.
    + apply wstr_eqb_eq in F. subst m'. left. exists [], ps, t. auto.
    + apply wstr_eqb_neq in F. destruct IH as [(l1 & ps' & l2 & -> & Hn & ->)|[Hn ->]].
      * left. exists ((m', ps) :: l1), ps', l2. split; auto. split; auto. cbn. intros [H|H]; auto.
      * right. split; auto. cbn. intros [H|H]; auto.
Qed.
Lemma nth_error_snoc {A} (l : list A) x i : nth_error (l ++ [x]) i =
  if i <? length l then nth_error l i else if i =? length l then Some x else None.
Proof.
  destruct (Nat.ltb_spec i (length l)); [apply nth_error_app1; auto|].
  destruct (Nat.eqb_spec i (length l)) as [->|Hn].
  - rewrite nth_error_app2, Nat.sub_diag by lia. reflexivity.
  - apply nth_error_None. rewrite app_length. cbn. lia.
Qed.
Lemma nth_error_lt {A} (l : list A) i x : nth_error l i = Some x -> i < length l.
Proof. intros H. apply nth_error_Some. congruence. Qed.
Lemma nth_error_snoc_old {A} (l : list A) x i y : nth_error l i = Some y -> nth_error (l ++ [x]) i = Some y.
Proof. intros H. rewrite nth_error_app1; auto. eapply nth_error_lt; eauto. Qed.

Lemma pinv_step ms acc m : pinv ms acc -> pinv (ms ++ [m]) (add_pair m (length ms) acc).
Proof.
  intros (I1 & I2 & I3 & I4). destruct (add_pair_cases m (length ms) acc) as [(l1 & ps & l2 & Hacc & Hn & ->)|[Hn ->]].
  - assert (In (m, ps) acc) as Hm by (rewrite Hacc; apply in_or_app; right; left; auto).
    assert (map fst (l1 ++ (m, length ms :: ps) :: l2) = map fst acc) as Hk by (rewrite Hacc, !map_app; reflexivity).
    split; [|split; [|split]].
    + intros m0 ps0 Hin i. rewrite nth_error_snoc.
      assert (In (m0, ps0) acc /\ m0 <> m \/ m0 = m /\ ps0 = length ms :: ps) as [[H1 H2]|[-> ->]].
      { apply in_app_or in Hin as [Hin|[[= <- <-]|Hin]]; auto.
        - left. split; [rewrite Hacc; apply in_or_app; auto|]. intros ->. apply Hn. apply (in_map fst) in Hin. exact Hin.
        - left. split; [rewrite Hacc; apply in_or_app; right; right; auto|]. intros ->.
          rewrite Hacc, map_app in I3. cbn in I3. apply NoDup_remove_2 in I3. apply I3. apply in_or_app. right.
          apply (in_map fst) in Hin. exact Hin. }
      * rewrite (I1 _ _ H1 i). destruct (Nat.ltb_spec i (length ms)) as [|Hge]; [tauto|].
        split; intros H.
        -- apply nth_error_lt in H. lia.
        -- destruct (i =? length ms); congruence.
      * cbn [In]. rewrite (I1 _ _ Hm i). destruct (Nat.ltb_spec i (length ms)) as [|Hge].
        -- split; [intros [Hq|Hq]; [lia|auto]|auto].
        -- destruct (Nat.eqb_spec i (length ms)) as [->|Hne]; [split; auto|].
           split; [intros [Hq|H]; [congruence|apply nth_error_lt in H; lia]|discriminate].
    + intros x Hx. apply in_app_or in Hx as [Hx|[<-|[]]].
      * destruct (I2 x Hx) as [ps0 H0]. rewrite Hacc in H0. apply in_app_or in H0 as [H0|[[= <- <-]|H0]].
        -- exists ps0. apply in_or_app. auto.
        -- eexists. apply in_or_app. right. left. reflexivity.
        -- exists ps0. apply in_or_app. right. right. auto.
      * eexists. apply in_or_app. right. left. reflexivity.
    + rewrite Hk. auto.
    + intros a m0 ps0 b E.
      assert (exists a' ps0' b', acc = a' ++ (m0, ps0') :: b' /\ map fst a' = map fst a) as (a' & ps0' & b' & E' & Ek).
      { assert (map fst acc = map fst a ++ m0 :: map fst b) as Em by (rewrite <- Hk, E, map_app; reflexivity).
        clear -Em. revert a Em. induction acc as [|[k v] acc IH]; intros a Em.
        - destruct a; discriminate.
        - destruct a as [|[k' v'] a]; cbn in Em.
          + injection Em as -> _. exists [], v, acc. auto.
          + injection Em as <- Em. destruct (IH a Em) as (a' & p & b' & -> & Q).
            exists ((k, v) :: a'), p, b'. split; auto. cbn. rewrite Q. auto. }
      destruct (I4 a' m0 ps0' b' E') as (k & Hk1 & Hk2). exists k. split; [apply nth_error_snoc_old; auto|].
      intros j Hj. destruct (Hk2 j Hj) as (m' & P & Q). exists m'. split; [apply nth_error_snoc_old; auto|].
      rewrite <- Ek. auto.
  - split; [|split; [|split]].
    + intros m0 ps0 Hin i. rewrite nth_error_snoc. apply in_app_or in Hin as [Hin|[[= <- <-]|[]]].
      * assert (m0 <> m) as Hne by (intros ->; apply Hn; apply (in_map fst) in Hin; exact Hin).
        rewrite (I1 _ _ Hin i). destruct (Nat.ltb_spec i (length ms)) as [|Hge]; [tauto|]. split; intros H.
        -- apply nth_error_lt in H. lia.
        -- destruct (i =? length ms); congruence.
      * cbn [In]. destruct (Nat.ltb_spec i (length ms)) as [Hlt|Hge].
        -- split; [intros [<-|[]]; lia|]. intros H. exfalso. apply Hn. apply nth_error_In in H.
           destruct (I2 m H) as [ps Hps]. apply (in_map fst) in Hps. exact Hps.
        -- destruct (Nat.eqb_spec i (length ms)) as [->|Hne]; [split; auto|]. split; [intros [<-|[]]; congruence|discriminate].
    + intros x Hx. apply in_app_or in Hx as [Hx|[<-|[]]].
      * destruct (I2 x Hx) as [ps Hps]. exists ps. apply in_or_app. auto.
      * eexists. apply in_or_app. right. left. reflexivity.
    + rewrite map_app. cbn. apply NoDup_app_comm_iff. cbn. constructor; auto.
    + intros a m0 ps0 b E. destruct (rev b) as [|e rb] eqn:Rb.
      * apply (f_equal (@rev _)) in Rb. rewrite rev_involutive in Rb. cbn in Rb. subst b.
        apply app_inj_tail in E as [<- [= <- <-]].
        exists (length ms). split; [rewrite nth_error_snoc, Nat.ltb_irrefl, Nat.eqb_refl; auto|].
        intros j Hj. destruct (nth_error ms j) as [m'|] eqn:Fj; [|apply nth_error_None in Fj; lia].
        exists m'. split; [apply nth_error_snoc_old; auto|]. apply nth_error_In in Fj. destruct (I2 m' Fj) as [ps Hps].
        apply (in_map fst) in Hps. exact Hps.
      * apply (f_equal (@rev _)) in Rb. rewrite rev_involutive in Rb. cbn in Rb. subst b.
        change ((m0, ps0) :: rev rb ++ [e]) with (((m0, ps0) :: rev rb) ++ [e]) in E. rewrite app_assoc in E.
        apply app_inj_tail in E as [E _].
        destruct (I4 a m0 ps0 (rev rb) E) as (k & Hk1 & Hk2). exists k. split; [apply nth_error_snoc_old; auto|].
        intros j Hj. destruct (Hk2 j Hj) as (m' & P & Q). exists m'. split; [apply nth_error_snoc_old; auto|auto].
Qed.
Lemma idx_fold_inv rest : forall ms acc, pinv ms acc -> pinv (ms ++ rest) (idx_fold rest (length ms) acc).
Proof.
  induction rest as [|m t IH]; intros ms acc H; cbn [idx_fold]; [rewrite app_nil_r; auto|].
  replace (ms ++ m :: t) with ((ms ++ [m]) ++ t) by (rewrite <- app_assoc; reflexivity).
  replace (S (length ms)) with (length (ms ++ [m])) by (rewrite app_length; cbn; lia).
  apply IH, pinv_step, H.
Qed.
Lemma pairs_inv tokens : pinv (adjs tokens) (computeTokenPairPositions tokens).
Proof.
  unfold computeTokenPairPositions. rewrite pairs_loop_adjs. apply (idx_fold_inv (adjs tokens) [] []).
  split; [intros ? ? []|]. split; [intros ? []|]. split; [constructor|]. intros [|? ?] ? ? ?; discriminate.
Qed.

Lemma adjs_nth tokens k m : nth_error (adjs tokens) k = Some m <->
  exists pre a b post, tokens = pre ++ a :: b :: post /\ length pre = k /\ m = a ++ b.
Proof.
  revert k. induction tokens as [|a t IH]; intros k.
  - split; [destruct k; discriminate|]. intros ([|] & ? & ? & ? & E & _); discriminate.
  - destruct t as [|b t].
    + split; [destruct k; discriminate|]. intros ([|? [|? ?]] & ? & ? & ? & E & _); discriminate.
    + cbn [adjs]. destruct k as [|k]; cbn [nth_error].
      * split; [intros [= <-]; exists [], a, b, t; auto|].
        intros (pre & a' & b' & post & E & L & ->). destruct pre; [|discriminate]. injection E as -> -> _. reflexivity.
      * rewrite IH. split.
        -- intros (pre & a' & b' & post & E & L & ->). exists (a :: pre), a', b', post. rewrite E. cbn. auto.
        -- intros (pre & a' & b' & post & E & L & ->). destruct pre as [|x pre]; [discriminate|].
           injection E as -> E. cbn in L. exists pre, a', b', post. auto.
Qed.
Lemma unmergeable_adjs v tokens : unmergeable v tokens <-> forall m, In m (adjs tokens) -> ~ known v m.
Proof.
  split.
  - intros H m Hm. apply In_nth_error in Hm as [k Hk]. apply adjs_nth in Hk as (pre & a & b & post & E & _ & ->).
    eapply H; eauto.
  - intros H pre a b post E. apply H. eapply nth_error_In. apply adjs_nth. exists pre, a, b, post. eauto.
Qed.

Lemma firstMatching_spec v pairs :
  match firstMatchingPairPositions v pairs with
  | None => forall m ps, In (m, ps) pairs -> ~ known v m
  | Some ps => exists l1 m l2, pairs = l1 ++ (m, ps) :: l2 /\ known v m /\ forall m', In m' (map fst l1) -> ~ known v m'
  end.
Proof.
  induction pairs as [|[m ps] t IH]; cbn [firstMatchingPairPositions]; [intros ? ? []|].
  destruct (lookup m v) as [z|] eqn:L.
  - exists [], m, t. split; auto. split; [exists z; auto|intros ? []].
  - assert (~ known v m) as Hm by (intros [z Hz]; congruence).
    destruct (firstMatchingPairPositions v t) as [ps'|].
    + destruct IH as (l1 & m' & l2 & -> & H1 & H2). exists ((m, ps) :: l1), m', l2. split; auto. split; auto.
      cbn. intros m0 [<-|H]; auto.
    + intros m' ps' [[= <- <-]|H]; eauto.
Qed.

Lemma matching_round v tokens :
  match firstMatchingPairPositions v (computeTokenPairPositions tokens) with
  | None => unmergeable v tokens
  | Some ps => exists pre a b post, tokens = pre ++ a :: b :: post /\ known v (a ++ b) /\ unmergeable v (pre ++ [a]) /\
      forall i, In i ps <-> nth_error (adjs tokens) i = Some (a ++ b)
  end.
Proof.
  pose proof (pairs_inv tokens) as (I1 & I2 & I3 & I4).
  pose proof (firstMatching_spec v (computeTokenPairPositions tokens)) as H.
  destruct (firstMatchingPairPositions v (computeTokenPairPositions tokens)) as [ps|].
  - destruct H as (l1 & m & l2 & E & Hk & Hn). destruct (I4 _ _ _ _ E) as (k & K1 & K2).
    pose proof K1 as K1'. apply adjs_nth in K1' as (pre & a & b & post & Et & Hlen & ->).
    exists pre, a, b, post. split; auto. split; auto. split.
    + intros pre' a' b' post' E'. 
      assert (nth_error (adjs tokens) (length pre') = Some (a' ++ b')) as Hadj.
      { apply adjs_nth. exists pre', a', b', (post' ++ b :: post). split; auto.
        rewrite Et. transitivity ((pre ++ [a]) ++ b :: post); [rewrite <- app_assoc; reflexivity|].
        rewrite E', <- app_assoc. reflexivity. }
      assert (length pre' < k) as Hlt.
      { apply (f_equal (@length _)) in E'. rewrite !app_length in E'. cbn in E'. lia. }
      destruct (K2 _ Hlt) as (m' & P & Q). rewrite Hadj in P. injection P as <-. auto.
    + apply I1. rewrite E. apply in_or_app. right. left. auto.
  - apply unmergeable_adjs. intros m Hm. destruct (I2 m Hm) as [ps Hps]. eauto.
Qed.

Lemma adjs_cons2 a b t : adjs (a :: b :: t) = (a ++ b) :: adjs (b :: t). Proof. reflexivity. Qed.
Lemma merge_loop_ok m ps : forall n tokens i, length tokens <= n ->
  (forall j, In (i + j) ps <-> nth_error (adjs tokens) j = Some m) ->
  merge_loop ps i tokens = Ok (replace_pairs m tokens).
Proof.
  induction n as [|n IH]; intros tokens i Hl Hps.
  - destruct tokens; [reflexivity|cbn in Hl; lia].
  - destruct tokens as [|a t]; [reflexivity|]. cbn [merge_loop replace_pairs].
    assert (existsb (Nat.eqb i) ps = true <-> In i ps) as Hex.
    { rewrite existsb_exists. split.
      - intros (x & Hx & Ex). apply Nat.eqb_eq in Ex. subst. auto.
      - intros Hx. exists i. split; auto. apply Nat.eqb_refl. }
    pose proof (Hps 0) as H0. rewrite Nat.add_0_r in H0.
    destruct t as [|b t].
    + cbn in H0. destruct (existsb (Nat.eqb i) ps) eqn:Ei.
      * assert (In i ps) as Hi by (apply Hex; auto). apply H0 in Hi. discriminate.
      * rewrite (IH [] (i + 1)); [reflexivity|cbn in *; lia|]. intros j. specialize (Hps (S j)). cbn in Hps.
        replace (i + 1 + j) with (i + S j) by lia. rewrite Hps. destruct j; cbn; tauto.
    + rewrite adjs_cons2 in H0. cbn [nth_error] in H0.
      destruct (existsb (Nat.eqb i) ps) eqn:Ei.
      * assert (a ++ b = m) as Em by (assert (In i ps) as Hi by (apply Hex; auto); apply H0 in Hi; congruence).
        rewrite Em, wstr_eqb_refl. rewrite (IH t (i + 2)); [reflexivity|cbn in *; lia|].
        intros j. specialize (Hps (S (S j))). replace (i + 2 + j) with (i + S (S j)) by lia. rewrite Hps.
        rewrite adjs_cons2. cbn [nth_error]. destruct t as [|c t]; [cbn; destruct j; cbn; tauto|].
        rewrite adjs_cons2. cbn [nth_error]. tauto.
      * assert (wstr_eqb (a ++ b) m = false) as ->.
        { apply wstr_eqb_neq. intros Eq0. assert (In i ps) as Hi by (apply H0; rewrite Eq0; auto). apply Hex in Hi. congruence. }
        rewrite (IH (b :: t) (i + 1)); [reflexivity|cbn in *; lia|].
        intros j. specialize (Hps (S j)). replace (i + 1 + j) with (i + S j) by lia. rewrite Hps. reflexivity.
Qed.

Lemma replace_cons2 m a b t : replace_pairs m (a :: b :: t) =
  if wstr_eqb (a ++ b) m then m :: replace_pairs m t else a :: replace_pairs m (b :: t).
Proof. reflexivity. Qed.
Lemma replace_props m : forall n tokens, length tokens <= n ->
  length (replace_pairs m tokens) <= length tokens /\ concat (replace_pairs m tokens) = concat tokens /\
  (tokens <> [] -> replace_pairs m tokens <> []) /\
  (In m (adjs tokens) -> length (replace_pairs m tokens) < length tokens).
Proof.
  induction n as [|n IH]; intros tokens Hl.
  - destruct tokens; [cbn; repeat split; auto; intros []|cbn in Hl; lia].
  - destruct tokens as [|a [|b t]]; [cbn; repeat split; auto; intros []|cbn; repeat split; auto; intros []|].
    rewrite replace_cons2. destruct (wstr_eqb (a ++ b) m) eqn:E.
    + apply wstr_eqb_eq in E. subst m. destruct (IH t) as (A & B & _ & _); [cbn in Hl; lia|].
      cbn [length concat]. rewrite B, <- app_assoc. repeat split; auto; try lia. discriminate.
    + destruct (IH (b :: t)) as (A & B & C & D); [cbn in Hl |- *; lia|].
      cbn [length concat] in *. rewrite B. repeat split; auto; try lia; try discriminate.
      rewrite adjs_cons2. intros [H|H]; [apply wstr_eqb_neq in E; congruence|]. specialize (D H). lia.
Qed.

Lemma token_loop_ok v : forall fuel tokens, length tokens <= fuel -> tokens <> [] ->
  exists r, token_loop v fuel tokens = Some (Ok r) /\ bpe v tokens r.
Proof.
  induction fuel as [|fuel IH]; intros tokens Hl Hne; [destruct tokens; [congruence|cbn in Hl; lia]|].
  cbn [token_loop]. pose proof (matching_round v tokens) as H.
  destruct (firstMatchingPairPositions v (computeTokenPairPositions tokens)) as [ps|].
  - destruct H as (pre & a & b & post & Et & Hk & Hu & Hps).
    rewrite (merge_loop_ok (a ++ b) ps (length tokens) tokens 0); [|lia|exact Hps].
    destruct (replace_props (a ++ b) (length tokens) tokens) as (A & B & C & D); [lia|].
    assert (bpe_round v tokens (replace_pairs (a ++ b) tokens)) as Hr by (apply (round v tokens pre a b post); auto).
    destruct (Nat.eqb_spec (length (replace_pairs (a ++ b) tokens)) 1) as [E1|E1].
    + eexists. split; [reflexivity|]. eapply bpe_step; [exact Hr|]. apply bpe_done.
      intros p x y q E. rewrite E, app_length in E1. cbn in E1. lia.
    + destruct (IH (replace_pairs (a ++ b) tokens)) as (r & E2 & E3).
      * assert (length (replace_pairs (a ++ b) tokens) < length tokens); [|lia]. apply D.
        eapply nth_error_In. apply adjs_nth. exists pre, a, b, post. eauto.
      * auto.
      * exists r. split; auto. eapply bpe_step; eauto.
  - eexists. split; [reflexivity|]. apply bpe_done. exact H.
Qed.

Lemma bpe_concat v tokens r : bpe v tokens r -> concat r = concat tokens.
Proof.
  induction 1 as [|tokens tokens' r H H1 IH]; auto. rewrite IH. destruct H as [pre a b post E _ _].
  apply (replace_props (a ++ b) (length tokens)). lia.
Qed.
Lemma bpe_final v tokens r : bpe v tokens r -> unmergeable v r.
Proof. induction 1; auto. Qed.

Lemma round_unique v tokens r1 r2 : bpe_round v tokens r1 -> bpe_round v tokens r2 -> r1 = r2.
Proof.
  intros [p1 a1 b1 q1 E1 K1 U1] [p2 a2 b2 q2 E2 K2 U2].
  assert (forall (p1 p2 : list wstr) a1 b1 q1 a2 b2 q2, p1 ++ a1 :: b1 :: q1 = p2 ++ a2 :: b2 :: q2 -> length p1 < length p2 ->
    exists q, p2 ++ [a2] = p1 ++ a1 :: b1 :: q) as G.
  { clear. induction p1 as [|x p1 IH]; intros p2 a1 b1 q1 a2 b2 q2 E L.
    - destruct p2 as [|y p2]; [cbn in L; lia|]. cbn in E. injection E as -> E.
      destruct p2 as [|z p2]; cbn in E; injection E as -> E; [exists []; reflexivity|]. exists (p2 ++ [a2]). reflexivity.
    - destruct p2 as [|y p2]; [cbn in L; lia|]. cbn in E. injection E as -> E.
      destruct (IH p2 a1 b1 q1 a2 b2 q2 E) as [q Hq]; [cbn in L; lia|]. exists q. cbn. rewrite Hq. reflexivity. }
  rewrite E1 in E2. destruct (Nat.lt_trichotomy (length p1) (length p2)) as [L|[L|L]].
  - destruct (G _ _ _ _ _ _ _ _ E2 L) as [q Hq]. exfalso. exact (U2 _ _ _ _ Hq K1).
  - assert (a1 ++ b1 = a2 ++ b2) as ->; auto.
    clear -E2 L. revert p2 E2 L. induction p1 as [|x p1 IH]; intros [|y p2] E L; try (cbn in L; lia).
    + cbn in E. injection E as -> -> _. auto.
    + cbn in E. injection E as _ E. eauto.
  - symmetry in E2. destruct (G _ _ _ _ _ _ _ _ E2 L) as [q Hq]. exfalso. exact (U1 _ _ _ _ Hq K2).
Qed.
Lemma bpe_unique v tokens r1 : bpe v tokens r1 -> forall r2, bpe v tokens r2 -> r1 = r2.
Proof.
  induction 1 as [tokens U|tokens t' r1 R1 B1 IH]; intros r2 B2; inversion B2 as [x U2|x t2 y R2 B2']; subst; auto.
  - destruct R2 as [p a b q E K _]. exfalso. exact (U _ _ _ _ E K).
  - destruct R1 as [p a b q E K _]. exfalso. exact (U2 _ _ _ _ E K).
  - apply IH. rewrite (round_unique _ _ _ _ R1 R2). auto.
Qed.

(** ** The encoder *)
Definition word_ids (v : vocabulary) (w : wstr) (ids : list Z) : Prop :=
  exists toks, bpe v (chars (w ++ WORD_DELIM_SYMBOL)) toks /\ ids = map (token_id v) toks.
Lemma word_ids_unique v w i1 i2 : word_ids v w i1 -> word_ids v w i2 -> i1 = i2.
Proof. intros (t1 & B1 & ->) (t2 & B2 & ->). rewrite (bpe_unique _ _ _ B1 _ B2). auto. Qed.

Definition einv (v : vocabulary) (e : encoder) : Prop :=
  voc e = v /\ forall w ids, lookup (w ++ WORD_DELIM_SYMBOL) (cache e) = Some ids -> w <> [] -> word_ids v w ids.

Lemma encodeWord_ok v e w : einv v e -> w <> [] ->
  exists ids e', encodeWord e (w ++ WORD_DELIM_SYMBOL) = Some (Ok (ids, e')) /\ word_ids v w ids /\ einv v e'.
Proof.
  intros [Hv Hc] Hw. unfold encodeWord. destruct (w ++ WORD_DELIM_SYMBOL) as [|c0 w0] eqn:F.
  { destruct w; discriminate. }
  rewrite <- F. destruct (lookup (w ++ WORD_DELIM_SYMBOL) (cache e)) as [ids|] eqn:L.
  - exists ids, e. split; auto. split; [apply Hc; auto|split; auto].
  - fold (chars (w ++ WORD_DELIM_SYMBOL)).
    destruct (computeTokenPairPositions (chars (w ++ WORD_DELIM_SYMBOL))) as [|p ps] eqn:P.
    { exfalso. pose proof (pairs_inv (chars (w ++ WORD_DELIM_SYMBOL))) as (_ & I2 & _). rewrite P in I2.
      destruct w as [|a w]; [congruence|].
      assert (exists m, In m (adjs (chars ((a :: w) ++ WORD_DELIM_SYMBOL)))) as [m Hm].
      { destruct w as [|b w]; cbn; eexists; left; reflexivity. }
      destruct (I2 m Hm) as [? []]. }
    destruct (token_loop_ok (voc e) (length (w ++ WORD_DELIM_SYMBOL)) (chars (w ++ WORD_DELIM_SYMBOL))) as (toks & E & B).
    { unfold chars. rewrite map_length. lia. }
    { rewrite F. discriminate. }
    rewrite E. eexists. eexists. split; [reflexivity|]. rewrite Hv in *. split; [exists toks; auto|].
    split; [reflexivity|]. cbn [cache]. intros w' ids' Hl Hw'.
    destruct (list_eq_dec N.eq_dec (w ++ WORD_DELIM_SYMBOL) (w' ++ WORD_DELIM_SYMBOL)) as [Eq|Ne].
    + rewrite <- Eq, lookup_assign_eq in Hl. injection Hl as <-. unfold word_ids. rewrite <- Eq. exists toks. auto.
    + rewrite lookup_assign_neq in Hl by auto. auto.
Qed.
Lemma encode_words_ok v words : (forall w, In w words -> w <> []) -> forall e res, einv v e ->
  exists idss e', encode_words e words res = Some (Ok (res ++ concat idss, e')) /\ Forall2 (word_ids v) words idss /\ einv v e'.
Proof.
  induction words as [|w t IH]; intros Hne e res Hi; cbn [encode_words].
  - exists [], e. rewrite app_nil_r. split; auto.
  - destruct (Nat.eqb_spec (length w) 0) as [L|_].
    { destruct w; [exfalso; apply (Hne []); [left|]; auto|discriminate]. }
    destruct (encodeWord_ok v e w Hi (Hne w (or_introl eq_refl))) as (ids & e1 & E1 & W1 & I1). rewrite E1.
    destruct (IH (fun x Hx => Hne x (or_intror Hx)) e1 (res ++ ids) I1) as (idss & e2 & E2 & W2 & I2).
    exists (ids :: idss), e2. cbn [concat]. rewrite app_assoc. split; auto.
Qed.
Lemma new_encoder_meta v : (exists z, lookup PADDING_SYMBOL (new_encoder v) = Some z) /\
  (exists z, lookup UNKNOWN_CHAR_SYMBOL (new_encoder v) = Some z) /\
  (exists z, lookup WORD_DELIM_SYMBOL (new_encoder v) = Some z).
Proof.
  unfold new_encoder, add_meta. split; [|split].
  - eexists. rewrite lookup_assign_neq by discriminate. rewrite lookup_assign_neq by discriminate. apply lookup_assign_eq.
  - eexists. rewrite lookup_assign_neq by discriminate. apply lookup_assign_eq.
  - eexists. apply lookup_assign_eq.
Qed.
Lemma fit_cases pad n ids :
  (n = 0 -> fit pad n ids = ids) /\
  (n <> 0 -> length (fit pad n ids) = n /\
     ((exists dropped, ids = fit pad n ids ++ dropped) \/ exists k, fit pad n ids = ids ++ repeat pad k)).
Proof.
  unfold fit. destruct (Nat.eqb_spec n 0) as [->|Hn]; [split; [auto|congruence]|]. split; [congruence|]. intros _.
  assert (length (ids ++ repeat pad (n - length ids)) = Nat.max n (length ids)) as L.
  { rewrite app_length, repeat_length. lia. }
  split; [rewrite firstn_length; lia|].
  destruct (le_lt_dec (length ids) n) as [H|H].
  - right. exists (n - length ids). apply firstn_all2. lia.
  - left. exists (skipn n ids). replace (n - length ids) with 0 by lia. cbn [repeat]. rewrite app_nil_r, firstn_skipn. auto.
Qed.

Lemma encode_ok v e text n res : einv (new_encoder v) e -> (N.of_nat (length text) < 2 ^ 32 - 1)%N ->
  exists words idss pad e', tokenised wdelim text words /\ Forall2 (word_ids (new_encoder v)) words idss /\
    lookup PADDING_SYMBOL (new_encoder v) = Some pad /\
    encode e text n res = Some (Ok (fit pad n (res ++ concat idss), e')) /\ einv (new_encoder v) e'.
Proof.
  intros Hi HL. unfold encode.
  destruct (splitIntoWords_ok wdelim text (S (length text)) HL) as (words & E & T); [lia|]. rewrite E.
  destruct (encode_words_ok (new_encoder v) words) with (e := e) (res := res) as (idss & e' & E2 & W & I2); auto.
  { intros w Hw. apply (tokenised_concat wdelim text words T). auto. }
  rewrite E2. destruct (new_encoder_meta v) as [[pad Hpad] _]. unfold voc_at. destruct I2 as [Hv Hc].
  rewrite Hv, Hpad. exists words, idss, pad. eexists. split; [auto|]. split; [auto|]. split; [auto|]. split; [reflexivity|].
  destruct (n =? 0); [split; auto|]. destruct (length (res ++ concat idss) <? n); split; auto.
Qed.
Lemma reachable_inv v e : reachable v e -> einv (new_encoder v) e.
Proof.
  induction 1 as [|e text n res out e' H IH HL E].
  - split; auto. intros w ids H. discriminate.
  - destruct (encode_ok v e text n res IH HL) as (words & idss & pad & e2 & _ & _ & _ & E2 & I2).
    rewrite E in E2. injection E2 as _ <-. auto.
Qed.
Lemma Forall2_unique {A B} (R : A -> B -> Prop) (HU : forall a b c, R a b -> R a c -> b = c) l m1 : Forall2 R l m1 -> forall m2, Forall2 R l m2 -> m1 = m2.
Proof.
  induction 1 as [|a b l m H F IH]; intros m2 F2; inversion F2; subst; auto. f_equal; eauto.
Qed.

Lemma word_ids_encodes v w ids : (exists z, lookup UNKNOWN_CHAR_SYMBOL v = Some z) -> (word_ids v w ids <-> encodes v w ids).
Proof.
  intros [u Hu].
  assert (forall t z, has_id v t z <-> z = token_id v t) as G.
  { intros t z. unfold has_id, token_id, voc_at. rewrite Hu. destruct (lookup t v) as [x|] eqn:L; cbn.
    - split; [intros [[= <-]|[Hx _]]; [auto|discriminate]|intros ->; auto].
    - split; [intros [Hx|[_ [= <-]]]; [discriminate|auto]|intros ->; auto]. }
  assert (forall toks ids, Forall2 (has_id v) toks ids <-> ids = map (token_id v) toks) as F.
  { induction toks as [|t toks IH]; intros is; split; intros H.
    - inversion H; auto.
    - subst. constructor.
    - inversion H; subst. cbn. f_equal; [apply G; auto|apply IH; auto].
    - subst. cbn. constructor; [apply G; auto|apply IH; auto]. }
  split; intros (toks & B & H); exists toks; split; auto; apply F; auto.
Qed.
Lemma encode_spec v e text n res : reachable v e -> (N.of_nat (length text) < 2 ^ 32 - 1)%N ->
  exists words idss pad out e', tokenised wdelim text words /\ Forall2 (encodes (new_encoder v)) words idss /\
    lookup PADDING_SYMBOL (new_encoder v) = Some pad /\
    encode e text n res = Some (Ok (out, e')) /\ reachable v e' /\
    (n = 0 -> out = res ++ concat idss) /\
    (n <> 0 -> length out = n /\
       ((exists dropped, res ++ concat idss = out ++ dropped) \/ exists k, out = (res ++ concat idss) ++ repeat pad k)).
Proof.
  intros HR HL. destruct (encode_ok v e text n res (reachable_inv v e HR) HL) as (words & idss & pad & e' & T & W & P & E & _).
  exists words, idss, pad, (fit pad n (res ++ concat idss)), e'. split; [exact T|]. split.
  { clear -W. induction W as [|a b l m H F IH]; constructor; auto. apply word_ids_encodes; auto. apply new_encoder_meta. }
  split; [exact P|]. split; [exact E|]. split; [eapply reach_encode; eauto|]. apply fit_cases.
Qed.
Lemma encodes_unique v w i1 i2 : encodes v w i1 -> encodes v w i2 -> i1 = i2.
Proof.
  intros (t1 & B1 & F1) (t2 & B2 & F2). rewrite <- (bpe_unique _ _ _ B1 _ B2) in F2.
  eapply Forall2_unique; [|exact F1|exact F2].
  intros a b c [H1|[H1 H1']] [H2|[H2 H2']]; congruence.
Qed.
Lemma encode_history v e1 e2 text n res o1 e1' o2 e2' : reachable v e1 -> reachable v e2 ->
  (N.of_nat (length text) < 2 ^ 32 - 1)%N ->
  encode e1 text n res = Some (Ok (o1, e1')) -> encode e2 text n res = Some (Ok (o2, e2')) -> o1 = o2.
Proof.
  intros R1 R2 HL E1 E2.
  destruct (encode_ok v e1 text n res (reachable_inv v e1 R1) HL) as (w1 & i1 & p1 & x1 & T1 & W1 & P1 & F1 & _).
  destruct (encode_ok v e2 text n res (reachable_inv v e2 R2) HL) as (w2 & i2 & p2 & x2 & T2 & W2 & P2 & F2 & _).
  rewrite (tokenised_unique _ _ _ T1 _ T2) in W1. rewrite P1 in P2. injection P2 as <-.
  rewrite (Forall2_unique _ (word_ids_unique _) _ _ W1 _ W2) in F1. congruence.
Qed.
Lemma ids_known v w ids z : (exists u, lookup UNKNOWN_CHAR_SYMBOL v = Some u) -> encodes v w ids -> In z ids -> exists t, lookup t v = Some z.
Proof.
  intros [u Hu] (toks & _ & F) Hz. induction F as [|t x toks ids H F IH]; [destruct Hz|].
  destruct Hz as [<-|Hz]; auto. destruct H as [H|[_ H]]; eauto.
Qed.
Lemma chars_concat w : concat (chars w) = w.
Proof. unfold chars. induction w as [|c w IH]; cbn; congruence. Qed.
Lemma new_encoder_fresh v :
  lookup PADDING_SYMBOL v = None -> lookup UNKNOWN_CHAR_SYMBOL v = None -> lookup WORD_DELIM_SYMBOL v = None ->
  let n := Z.of_nat (length v) in
  lookup PADDING_SYMBOL (new_encoder v) = Some n /\ lookup UNKNOWN_CHAR_SYMBOL (new_encoder v) = Some (n + 1)%Z /\
  lookup WORD_DELIM_SYMBOL (new_encoder v) = Some (n + 2)%Z /\
  forall t, t <> PADDING_SYMBOL -> t <> UNKNOWN_CHAR_SYMBOL -> t <> WORD_DELIM_SYMBOL -> lookup t (new_encoder v) = lookup t v.
Proof.
  intros H1 H2 H3 n. unfold new_encoder, add_meta.
  set (v1 := assign PADDING_SYMBOL _ v). set (v2 := assign UNKNOWN_CHAR_SYMBOL _ v1).
  assert (length v1 = S (length v)) as L1 by (unfold v1; rewrite assign_length, H1; auto).
  assert (lookup UNKNOWN_CHAR_SYMBOL v1 = None) as K1 by (unfold v1; rewrite lookup_assign_neq by discriminate; auto).
  assert (length v2 = S (S (length v))) as L2 by (unfold v2; rewrite assign_length, K1, L1; auto).
  split; [|split; [|split]].
  - rewrite lookup_assign_neq by discriminate. unfold v2. rewrite lookup_assign_neq by discriminate. apply lookup_assign_eq.
  - rewrite lookup_assign_neq by discriminate. unfold v2. rewrite lookup_assign_eq, L1. f_equal. unfold n. lia.
  - rewrite lookup_assign_eq, L2. f_equal. unfold n. lia.
  - intros t T1 T2 T3. rewrite lookup_assign_neq by auto. unfold v2, v1. rewrite !lookup_assign_neq by auto. reflexivity.
Qed.
Lemma word_encoding v0 w : w <> [] -> let v := new_encoder v0 in
  (exists ids, encodes v w ids) /\
  (forall toks, bpe v (chars (w ++ WORD_DELIM_SYMBOL)) toks -> concat toks = w ++ WORD_DELIM_SYMBOL /\ unmergeable v toks) /\
  (forall ids ids', encodes v w ids -> encodes v w ids' -> ids = ids').
Proof.
  intros Hw v. split; [|split].
  - destruct (new_encoder_meta v0) as (_ & Hu & _).
    destruct (token_loop_ok v (length (w ++ WORD_DELIM_SYMBOL)) (chars (w ++ WORD_DELIM_SYMBOL))) as (toks & E & B).
    { unfold chars. rewrite map_length. lia. }
    { destruct w; discriminate. }
    exists (map (token_id v) toks). apply word_ids_encodes; [exact Hu|]. exists toks. auto.
  - intros toks B. split; [rewrite (bpe_concat _ _ _ B); apply chars_concat|exact (bpe_final _ _ _ B)].
  - intros i1 i2. apply encodes_unique.
Qed.
