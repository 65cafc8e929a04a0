(** TotalPos.v - boxes around ordinary boxes are ordinary. *)
From Coq Require Import ZArith NArith Reals Lra.
From Flocq Require Import Core BinarySingleNaN.
From Verif Require Import Base Double DoubleFacts MathUtils MathUtilsProofs Elements ElementsProofs GeometrySpec GridProofs LinesSpec LinesProofs LinesDefined TotalSpec.
Local Opaque TOL dadd dsub ddiv dmul dec DBL_MAX DBL_MIN.

Lemma rounded1_deq x v : deq x v = true -> rounded1 v -> rounded1 x.
Proof.
  intros D R. destruct (deq_nn _ _ D) as [Nx Nv]. pose proof D as D0. apply deq_E in D; [|exact Nx|exact Nv].
  destruct (rounded_near v R) as [k K]. pose proof (near_deq k x v D0 K) as (_ & Fx & _). destruct K as (_ & Fv & _).
  rewrite (E_fin x Fx), (E_fin v Fv) in D.
  destruct x as [sx|sx| |sx mx ex Hx]; try discriminate Fx; destruct v as [sv|sv| |sv mv ev Hv]; try discriminate Fv.
  - apply rounded1_check. destruct sx; vm_compute; reflexivity.
  - apply rounded1_check. destruct sx; vm_compute; reflexivity.
  - exfalso. cbn [B2R] in D. apply eq_0_F2R in D. destruct sx; discriminate D.
  - replace (B754_finite sx mx ex Hx) with (B754_finite sv mv ev Hv : double); [exact R|]. symmetry. apply B2R_inj; [reflexivity|reflexivity|exact D].
Qed.
Lemma rounded1_fin x : rounded1 x -> is_fin x = true.
Proof. intros R. destruct (rounded_near x R) as (k & _ & F & _). exact F. Qed.
Lemma pos_large x : rounded1 x -> dlt dzero x = true -> dlt DBL_MIN x = true.
Proof.
  intros R P. destruct (rounded1_tenth x R) as (k & K). pose proof (tenth_err _ _ K) as [A _]. destruct K as (B & F & EX). pose proof DBL_MIN_near as (_ & FM & AM).
  apply dlt_E in P; [|reflexivity|apply fin_nn, F]. apply Rabs_le_inv in A, AM.
  change (E dzero) with 0%R in P.
  assert (0 <= k)%Z. { apply Z.lt_succ_r, lt_IZR. rewrite succ_IZR. lra. }
  assert (k <> 0)%Z. { intros ->. replace (0 / 10)%R with 0%R in EX by lra. rewrite rd_0 in EX. lra. }
  assert (1 <= IZR k)%R by (apply IZR_le; lia).
  apply dlt_E; [apply fin_nn, FM|apply fin_nn, F|]. lra.
Qed.
Lemma dlt_dle_trans a b c : dlt a b = true -> dle b c = true -> dlt a c = true.
Proof.
  intros H1 H2. destruct (dlt_nn _ _ H1) as [N1 N2]. destruct (dle_nn _ _ H2) as [_ N3]. apply dlt_E in H1; [|assumption..]. apply dle_E in H2; [|assumption..].
  apply dlt_E; [assumption..|]. lra.
Qed.
Lemma deq_not_dlt a b : deq a b = true -> dlt b a = false.
Proof.
  intros H. destruct (deq_nn _ _ H) as [N1 N2]. destruct (dlt b a) eqn:L; [|reflexivity]. apply deq_E in H; [|assumption..]. apply dlt_E in L; [|assumption..]. lra.
Qed.
Lemma on_page_fin p : on_page p -> fin_pos p.
Proof. intros [P _]. apply parsed_fin, P. Qed.
(** the box of a line, a block *)
Lemma smallest_on_page b ps : ps <> [] -> smallest_box b ps -> (forall p, In p ps -> on_page p) -> on_page b.
Proof.
  intros NE (B1 & B2 & B3 & B4) H.
  assert (HX : forall v, In v (xs ps) -> rounded1 v).
  { intros v Hv. apply in_flat_map in Hv as (p & Hp & Hv). destruct (H p Hp) as ((? & ? & ? & ?) & _). destruct Hv as [<-|[<-|[]]]; assumption. }
  assert (HYs : forall v, In v (ys ps) -> rounded1 v).
  { intros v Hv. apply in_flat_map in Hv as (p & Hp & Hv). destruct (H p Hp) as ((? & ? & ? & ?) & _). destruct Hv as [<-|[<-|[]]]; assumption. }
  destruct ps as [|p0 ps]; [congruence|]. destruct (H p0 (or_introl eq_refl)) as ((_ & _ & R3 & R4) & Q3 & Q4).
  assert (P3 : dlt DBL_MIN (rightX b) = true).
  { apply (dlt_dle_trans _ (rightX p0)); [apply pos_large; assumption|]. destruct B3 as [B3 _]. apply B3. right. right. left. reflexivity. }
  assert (P4 : dlt DBL_MIN (lowerY b) = true).
  { apply (dlt_dle_trans _ (lowerY p0)); [apply pos_large; assumption|]. destruct B4 as [B4 _]. apply B4. right. right. left. reflexivity. }
  assert (G3 : dlt dzero (rightX b) = true).
  { apply (dlt_dle_trans _ (rightX p0)); [assumption|]. destruct B3 as [B3 _]. apply B3. right. right. left. reflexivity. }
  assert (G4 : dlt dzero (lowerY b) = true).
  { apply (dlt_dle_trans _ (lowerY p0)); [assumption|]. destruct B4 as [B4 _]. apply B4. right. right. left. reflexivity. }
  split; [|split; assumption]. split; [|split; [|split]].
  - destruct B1 as [_ (v & Hv & D)]. apply (rounded1_deq _ v D), HX, Hv.
  - destruct B2 as [_ (v & Hv & D)]. apply (rounded1_deq _ v D), HYs, Hv.
  - destruct B3 as [_ (v & [<-|Hv] & D)]; [rewrite (deq_not_dlt _ _ D) in P3; discriminate|]. apply (rounded1_deq _ v D), HX, Hv.
  - destruct B4 as [_ (v & [<-|Hv] & D)]; [rewrite (deq_not_dlt _ _ D) in P4; discriminate|]. apply (rounded1_deq _ v D), HYs, Hv.
Qed.
(** the box of a word *)
Lemma bbox_on_page ps : ps <> [] -> (forall p, In p ps -> on_page p) -> on_page (bbox ps).
Proof.
  intros NE H. destruct ps as [|p0 t] eqn:EP; [congruence|]. rewrite <- EP in *.
  assert (I0 : In p0 ps) by (rewrite EP; left; reflexivity). destruct (H p0 I0) as ((_ & _ & R3 & R4) & Q3 & Q4).
  destruct (bbox_tight_fin ps NE) as ((p1 & I1 & D1) & (p2 & I2 & D2) & (p3 & I3 & D3) & (p4 & I4 & D4)).
  { intros q Hq. exact (on_page_fin q (H q Hq)). }
  { exists p0. split; [exact I0|]. apply dlt_dle, pos_large; assumption. }
  { exists p0. split; [exact I0|]. apply dlt_dle, pos_large; assumption. }
  split; [split; [|split; [|split]]|split].
  - apply (rounded1_deq _ _ D1). apply (H p1 I1).
  - apply (rounded1_deq _ _ D2). apply (H p2 I2).
  - apply (rounded1_deq _ _ D3). apply (H p3 I3).
  - apply (rounded1_deq _ _ D4). apply (H p4 I4).
  - apply (dlt_dle_trans _ (rightX p3)); [apply (H p3 I3)|]. apply deq_dle. rewrite deq_sym. exact D3.
  - apply (dlt_dle_trans _ (lowerY p4)); [apply (H p4 I4)|]. apply deq_dle. rewrite deq_sym. exact D4.
Qed.
(** a box that was enlarged *)
Lemma covers_on_page b p : parsed_coordinates b -> covers b p -> on_page p -> on_page b.
Proof.
  intros P (_ & _ & C3 & C4) (_ & Q3 & Q4). split; [exact P|]. split; [apply (dlt_dle_trans _ _ _ Q3 C3)|apply (dlt_dle_trans _ _ _ Q4 C4)].
Qed.
Lemma on_page_ext p q : leftX p = leftX q -> upperY p = upperY q -> rightX p = rightX q -> lowerY p = lowerY q -> on_page q -> on_page p.
Proof. unfold on_page, parsed_coordinates. intros -> -> -> ->. auto. Qed.
