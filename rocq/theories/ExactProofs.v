(** ExactProofs.v - what the tolerant comparisons and the comparators mean on rounded coordinates. *)
From Coq Require Import ZArith Reals Lra.
From Flocq Require Import Core IEEE754.BinarySingleNaN.
From Verif Require Import Base Double DoubleFacts MathUtils MathUtilsProofs Sort Elements GeometrySpec ElementsProofs GridProofs.
Local Opaque TOL dZ dadd dsub ddiv dmul dec DBL_MAX DBL_MIN.

Lemma rd_gap k l : (Z.abs k <= 1000000001)%Z -> (Z.abs l <= 1000000001)%Z -> (k < l)%Z -> (rd (IZR k / 10) < rd (IZR l / 10))%R.
Proof.
  intros Hk Hl H.
  assert (forall k, (Z.abs k <= 1000000001)%Z -> Rabs (rd (IZR k / 10) - IZR k / 10) <= / 4194304)%R as A.
  { intros z Hz. rewrite <- e22. apply rd_err. rewrite e30. unfold Rdiv. rewrite Rabs_mult, (Rabs_pos_eq (/10)) by lra.
    assert (Rabs (IZR z) <= 1000000001)%R by (rewrite <- abs_IZR; apply IZR_le; assumption). lra. }
  pose proof (Rabs_le_inv _ _ (A _ Hk)). pose proof (Rabs_le_inv _ _ (A _ Hl)).
  assert (IZR k + 1 <= IZR l)%R. { rewrite <- plus_IZR. apply IZR_le. lia. } lra.
Qed.
Lemma dlt_tenth k l a b : tenth k a -> tenth l b -> dlt a b = (k <? l)%Z.
Proof.
  intros (Hk & Fa & Ea) (Hl & Fb & Eb). destruct (Z.ltb_spec k l) as [H|H].
  - apply dlt_E; auto using fin_nn. rewrite Ea, Eb. apply rd_gap; auto.
  - apply dlt_Ef; auto using fin_nn. rewrite Ea, Eb. apply rd_mono. apply IZR_le in H. lra.
Qed.
Lemma deq_tenth k l a b : tenth k a -> tenth l b -> deq a b = (k =? l)%Z.
Proof.
  intros (Hk & Fa & Ea) (Hl & Fb & Eb). destruct (Z.eqb_spec k l) as [->|H].
  - apply deq_E; auto using fin_nn. congruence.
  - destruct (deq a b) eqn:Q; auto. apply deq_E in Q; auto using fin_nn. rewrite Ea, Eb in Q.
    destruct (Z_lt_le_dec k l) as [L|L].
    + pose proof (rd_gap k l Hk Hl L). lra.
    + pose proof (rd_gap l k Hl Hk ltac:(lia)). lra.
Qed.
Lemma dle_tenth k l a b : tenth k a -> tenth l b -> dle a b = (k <=? l)%Z.
Proof.
  intros A B. rewrite dle_negb_dlt; [|apply fin_nn, A|apply fin_nn, B].
  rewrite (dlt_tenth l k b a B A), Z.leb_antisym. reflexivity.
Qed.

(** On rounded coordinates the tolerance does not matter at all. *)
Lemma rounded_comparisons a b : rounded1 a -> rounded1 b ->
  equal a b TOL = deq a b /\ smaller a b TOL = dlt a b /\ larger a b TOL = dlt b a /\
  equalOrSmaller a b TOL = dle a b /\ equalOrLarger a b TOL = dle b a.
Proof.
  intros Ha Hb. destruct (rounded1_tenth a Ha) as [k K]. destruct (rounded1_tenth b Hb) as [l L].
  assert (NA : nn a) by (apply fin_nn, K). assert (NB : nn b) by (apply fin_nn, L).
  split; [rewrite (equal_tenth k l), (deq_tenth k l); auto|].
  split; [rewrite (smaller_tenth k l), (dlt_tenth k l); auto|].
  split; [rewrite (larger_tenth k l a b), (dlt_tenth l k); auto|].
  split.
  - rewrite (proj1 (conj (equalOrSmaller_not_larger a b TOL NA NB TOL_fin) I)), (larger_tenth k l a b), (dle_tenth k l) by auto.
    rewrite Z.leb_antisym. reflexivity.
  - rewrite (equalOrLarger_not_smaller a b TOL NA NB TOL_fin), (smaller_tenth k l a b), (dle_tenth l k) by auto.
    rewrite Z.leb_antisym. reflexivity.
Qed.
Lemma rounded_between d lo up : rounded1 d -> rounded1 lo -> rounded1 up ->
  between d lo up TOL = dle lo d && dle d up.
Proof.
  intros A B C. unfold between.
  destruct (rounded_comparisons d lo A B) as (_ & _ & _ & _ & ->).
  destruct (rounded_comparisons d up A C) as (_ & _ & _ & -> & _). reflexivity.
Qed.

(** General meaning of [equal] and [between]. *)
Lemma equal_close a b t : is_fin a = true -> is_fin b = true -> is_fin t = true ->
  (Rabs (E a - E b) <= E t)%R -> equal a b t = true.
Proof.
  intros Fa Fb Ft H. unfold equal. destruct (dsub_E a b Fa Fb) as [N HE]. destruct (dabs_E _ N) as [N2 HE2].
  apply dle_E; auto using fin_nn. rewrite HE2, HE. pose proof (E_fin_bound t Ft) as BT.
  apply Rabs_le_inv in H. apply Rabs_le.
  pose proof (rd_E t Ft) as RT.
  assert (- E t <= rd (E a - E b) <= E t)%R as R.
  { assert (rd (- E t) <= rd (E a - E b))%R as A1 by (apply rd_mono; lra). rewrite rd_opp, RT in A1.
    assert (rd (E a - E b) <= rd (E t))%R as A2 by (apply rd_mono; lra). rewrite RT in A2. lra. }
  rewrite clamp_id; lra.
Qed.
Lemma equal_exact a b t : is_fin a = true -> is_fin b = true -> is_fin t = true ->
  E (dsub a b) = (E a - E b)%R -> (equal a b t = true <-> (Rabs (E a - E b) <= E t)%R).
Proof.
  intros Fa Fb Ft H. unfold equal. destruct (dsub_E a b Fa Fb) as [N HE]. destruct (dabs_E _ N) as [N2 HE2].
  rewrite dle_E by auto using fin_nn. rewrite HE2, H. reflexivity.
Qed.
Lemma between_exact d lo up t : is_fin d = true -> is_fin lo = true -> is_fin up = true -> is_fin t = true ->
  E (dsub lo t) = (E lo - E t)%R -> E (dadd up t) = (E up + E t)%R ->
  (between d lo up t = true <-> (E lo - E t <= E d <= E up + E t)%R).
Proof.
  intros Fd Fl Fu Ft H1 H2. unfold between, equalOrLarger, equalOrSmaller, dge.
  destruct (dsub_E lo t Fl Ft) as [N1 _]. destruct (dadd_E up t Fu Ft) as [N2 _].
  rewrite andb_true_iff, !dle_E by auto using fin_nn. rewrite H1, H2. tauto.
Qed.

(** The comparators on rounded coordinates compare the edge they are named after. *)
Lemma comparators_meaning p q : parsed_coordinates p -> parsed_coordinates q ->
  LeftXAsc p q = dlt (leftX p) (leftX q) /\
  RightXDesc p q = dlt (rightX q) (rightX p) /\
  UpperYAsc p q = dlt (upperY p) (upperY q) /\
  RotLeftXAsc p q = dlt (getRotLeftX p) (getRotLeftX q) /\
  RotLeftXDesc p q = dlt (getRotLeftX q) (getRotLeftX p) /\
  RotLowerYAsc p q = dlt (getRotLowerY p) (getRotLowerY q) /\
  RotLowerYDesc p q = dlt (getRotLowerY q) (getRotLowerY p).
Proof.
  intros P Q. pose proof (rot_rounded p P) as (P1 & _ & _ & P2). pose proof (rot_rounded q Q) as (Q1 & _ & _ & Q2).
  destruct P as (PL & PU & PR & PO), Q as (QL & QU & QR & QO).
  unfold LeftXAsc, RightXDesc, UpperYAsc, RotLeftXAsc, RotLeftXDesc, RotLowerYAsc, RotLowerYDesc.
  split; [exact (proj1 (proj2 (rounded_comparisons _ _ PL QL)))|].
  split; [exact (proj1 (proj2 (proj2 (rounded_comparisons _ _ PR QR))))|].
  split; [exact (proj1 (proj2 (rounded_comparisons _ _ PU QU)))|].
  split; [exact (proj1 (proj2 (rounded_comparisons _ _ P1 Q1)))|].
  split; [exact (proj1 (proj2 (proj2 (rounded_comparisons _ _ P1 Q1))))|].
  split; [exact (proj1 (proj2 (rounded_comparisons _ _ P2 Q2)))|].
  exact (proj1 (proj2 (proj2 (rounded_comparisons _ _ P2 Q2)))).
Qed.

(** Tightness of the boxes of text lines and blocks. *)
Lemma bbox_norm_tight_fin l : l <> [] ->
  (forall q, In q l -> is_fin (leftX q) = true /\ is_fin (upperY q) = true /\ is_fin (rightX q) = true /\ is_fin (lowerY q) = true) ->
  (exists p, In p l /\ dle DBL_MIN (rightX p) = true) -> (exists p, In p l /\ dle DBL_MIN (lowerY p) = true) ->
  (exists p e, In p l /\ In e [leftX p; rightX p] /\ deq (leftX (bbox_norm l)) e = true) /\
  (exists p e, In p l /\ In e [upperY p; lowerY p] /\ deq (upperY (bbox_norm l)) e = true) /\
  (exists p e, In p l /\ In e [leftX p; rightX p] /\ deq (rightX (bbox_norm l)) e = true) /\
  (exists p e, In p l /\ In e [upperY p; lowerY p] /\ deq (lowerY (bbox_norm l)) e = true).
Proof.
  intros Hne Hf (p3 & I3 & L3) (p4 & I4 & L4). destruct l as [|p l]; [congruence|].
  set (ll := p :: l) in *.
  assert (Hl : forall q, In q ll -> nn_pos q).
  { intros q Hq. destruct (Hf q Hq) as (? & ? & ? & ?). repeat split; apply fin_nn; auto. }
  destruct (Hf p (or_introl eq_refl)) as (F1 & F2 & F3 & F4).
  destruct (bbox_norm_fields ll pos_default) as (A & B & C & D). unfold bbox_norm. rewrite A, B, C, D.
  assert (CM : forall a b, In (minimum a b) [a; b]) by (intros a b; destruct (minimum_cases a b) as [-> | ->]; cbn; auto).
  assert (CX : forall a b, In (maximum a b) [a; b]) by (intros a b; destruct (maximum_cases a b) as [-> | ->]; cbn; auto).
  split; [|split; [|split]].
  - destruct (min_run_tight (fun e => minimum (leftX e) (rightX e)) ll (leftX pos_default)) as (q & Q1 & Q2).
    + reflexivity.
    + intros q Hq. destruct (Hl q Hq) as (? & ? & ? & ?). apply minimum_nn; auto.
    + exists p. split; [left; reflexivity|]. apply fin_le_max. apply min_fin; auto.
    + exists q, (minimum (leftX q) (rightX q)). split; [exact Q1|]. split; [apply CM|exact Q2].
  - destruct (min_run_tight (fun e => minimum (upperY e) (lowerY e)) ll (upperY pos_default)) as (q & Q1 & Q2).
    + reflexivity.
    + intros q Hq. destruct (Hl q Hq) as (? & ? & ? & ?). apply minimum_nn; auto.
    + exists p. split; [left; reflexivity|]. apply fin_le_max. apply min_fin; auto.
    + exists q, (minimum (upperY q) (lowerY q)). split; [exact Q1|]. split; [apply CM|exact Q2].
  - destruct (max_run_tight (fun e => maximum (leftX e) (rightX e)) ll (rightX pos_default)) as (q & Q1 & Q2).
    + reflexivity.
    + intros q Hq. destruct (Hl q Hq) as (? & ? & ? & ?). apply maximum_nn; auto.
    + exists p3. split; [exact I3|]. destruct (Hl p3 I3) as (? & ? & ? & ?). eapply dle_trans; [exact L3|apply maximum_ge_r; auto].
    + exists q, (maximum (leftX q) (rightX q)). split; [exact Q1|]. split; [apply CX|exact Q2].
  - destruct (max_run_tight (fun e => maximum (upperY e) (lowerY e)) ll (lowerY pos_default)) as (q & Q1 & Q2).
    + reflexivity.
    + intros q Hq. destruct (Hl q Hq) as (? & ? & ? & ?). apply maximum_nn; auto.
    + exists p4. split; [exact I4|]. destruct (Hl p4 I4) as (? & ? & ? & ?). eapply dle_trans; [exact L4|apply maximum_ge_r; auto].
    + exists q, (maximum (upperY q) (lowerY q)). split; [exact Q1|]. split; [apply CX|exact Q2].
Qed.
