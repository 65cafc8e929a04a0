(** ImagingProofs.v - rounding errors of the computation of character boxes (src/PdfParsing.cpp:253-461). *)
From Coq Require Import ZArith NArith Reals Lra.
From Flocq Require Import Core IEEE754.BinarySingleNaN.
From Verif Require Import Base Double DoubleFacts Float FloatFacts MathUtils MathUtilsProofs Elements GeometrySpec ElementsProofs GridProofs
  FeaturesProofs Document Fonts CharMap Parsing ImagingSpec ParsingSpec ParsingBoxes.
Open Scope Z_scope.
Local Opaque TOL dadd dsub ddiv dmul dec DBL_MAX DBL_MIN dround dZ.

Local Open Scope R_scope.
(** [d] is a finite double within [e] of [x], and [x] is at most [m] in magnitude. *)
Definition near (d : double) (x e m : R) : Prop := is_fin d = true /\ Rabs (B2R d - x) <= e /\ Rabs x <= m.
Definition u : R := / 1000000000000000.
Lemma rd_u x : Rabs (rd x - x) <= u * Rabs x + u.
Proof. pose proof (rd_err' x). pose proof (Rabs_pos x). unfold u. lra. Qed.
Lemma big_is : 1000000000000000000000000000000 <= bpow radix2 100.
Proof. change (bpow radix2 100) with (IZR (Zpower_pos 2 100)). apply IZR_le. vm_compute. discriminate. Qed.
Lemma dmul_R a b : is_fin a = true -> is_fin b = true -> Rabs (B2R a * B2R b) <= bpow radix2 100 ->
  is_fin (dmul a b) = true /\ B2R (dmul a b) = rd (B2R a * B2R b).
Proof.
  intros FA FB H. pose proof (Bmult_correct 53 1024 Hprec Hemax mode_NE a b) as C.
  change (Generic_fmt.round radix2 (SpecFloat.fexp 53 1024) (round_mode mode_NE) (B2R a * B2R b)) with (rd (B2R a * B2R b)) in C.
  rewrite (rd_small _ H) in C. destruct C as (C1 & C2 & _). Local Transparent dmul. unfold dmul. Local Opaque dmul.
  split; [unfold is_fin in *; rewrite C2, FA, FB; reflexivity|exact C1].
Qed.
Lemma dadd_R a b : is_fin a = true -> is_fin b = true -> Rabs (B2R a + B2R b) <= bpow radix2 100 ->
  is_fin (dadd a b) = true /\ B2R (dadd a b) = rd (B2R a + B2R b).
Proof.
  intros FA FB H. pose proof (Bplus_correct 53 1024 Hprec Hemax mode_NE a b FA FB) as C.
  change (Generic_fmt.round radix2 (SpecFloat.fexp 53 1024) (round_mode mode_NE) (B2R a + B2R b)) with (rd (B2R a + B2R b)) in C.
  rewrite (rd_small _ H) in C. destruct C as (C1 & C2 & _). split; assumption.
Qed.
Lemma near_weak d x e m e' m' : near d x e m -> e <= e' -> m <= m' -> near d x e' m'.
Proof. intros (F & A & B) H1 H2. split; [exact F|]. split; lra. Qed.
Lemma near_abs d x e m : near d x e m -> Rabs (B2R d) <= m + e.
Proof. intros (_ & A & B). apply Rabs_le. apply Rabs_le_inv in A, B. lra. Qed.
Lemma near_mul a b x y ea ma eb mb : near a x ea ma -> near b y eb mb -> (ma + ea) * (mb + eb) <= 1000000000000000000000000000000 ->
  near (dmul a b) (x * y) (ea * mb + ma * eb + ea * eb + u * ((ma + ea) * (mb + eb)) + u) (ma * mb).
Proof.
  intros A B H. pose proof (near_abs _ _ _ _ A) as A3. pose proof (near_abs _ _ _ _ B) as B3.
  destruct A as (FA & A1 & A2), B as (FB & B1 & B2). pose proof (Rabs_pos (B2R a)). pose proof (Rabs_pos (B2R b)).
  pose proof (Rabs_pos x). pose proof (Rabs_pos y). pose proof (Rabs_pos (B2R a - x)). pose proof (Rabs_pos (B2R b - y)).
  assert (P : Rabs (B2R a * B2R b) <= (ma + ea) * (mb + eb)). { rewrite Rabs_mult. apply Rmult_le_compat; assumption. }
  destruct (dmul_R a b FA FB) as (F & V); [pose proof big_is; lra|]. split; [exact F|]. split.
  - rewrite V. replace (rd (B2R a * B2R b) - x * y) with
      ((rd (B2R a * B2R b) - B2R a * B2R b) + ((B2R a - x) * y + (B2R b - y) * x + (B2R a - x) * (B2R b - y))) by ring.
    eapply Rle_trans; [apply Rabs_triang|]. pose proof (rd_u (B2R a * B2R b)).
    assert (Rabs ((B2R a - x) * y + (B2R b - y) * x + (B2R a - x) * (B2R b - y)) <= ea * mb + ma * eb + ea * eb).
    { eapply Rle_trans; [apply Rabs_triang|]. apply Rplus_le_compat.
      - eapply Rle_trans; [apply Rabs_triang|]. rewrite !Rabs_mult. apply Rplus_le_compat; [apply Rmult_le_compat; assumption|].
        rewrite Rmult_comm. apply Rmult_le_compat; assumption.
      - rewrite Rabs_mult. apply Rmult_le_compat; assumption. }
    assert (u * Rabs (B2R a * B2R b) <= u * ((ma + ea) * (mb + eb))). { apply Rmult_le_compat_l; [unfold u; lra|exact P]. }
    lra.
  - rewrite Rabs_mult. apply Rmult_le_compat; assumption.
Qed.
Lemma near_add a b x y ea ma eb mb : near a x ea ma -> near b y eb mb -> ma + ea + mb + eb <= 1000000000000000000000000000000 ->
  near (dadd a b) (x + y) (ea + eb + u * (ma + ea + mb + eb) + u) (ma + mb).
Proof.
  intros A B H. pose proof (near_abs _ _ _ _ A) as A3. pose proof (near_abs _ _ _ _ B) as B3.
  destruct A as (FA & A1 & A2), B as (FB & B1 & B2).
  assert (P : Rabs (B2R a + B2R b) <= ma + ea + mb + eb). { eapply Rle_trans; [apply Rabs_triang|lra]. }
  destruct (dadd_R a b FA FB) as (F & V); [pose proof big_is; lra|]. split; [exact F|]. split.
  - rewrite V. replace (rd (B2R a + B2R b) - (x + y)) with ((rd (B2R a + B2R b) - (B2R a + B2R b)) + ((B2R a - x) + (B2R b - y))) by ring.
    eapply Rle_trans; [apply Rabs_triang|]. pose proof (rd_u (B2R a + B2R b)).
    pose proof (Rabs_triang (B2R a - x) (B2R b - y)).
    assert (u * Rabs (B2R a + B2R b) <= u * (ma + ea + mb + eb)). { apply Rmult_le_compat_l; [unfold u; lra|exact P]. }
    lra.
  - eapply Rle_trans; [apply Rabs_triang|lra].
Qed.
Lemma near_sub a b x y ea ma eb mb : near a x ea ma -> near b y eb mb -> ma + ea + mb + eb <= 1000000000000000000000000000000 ->
  near (dsub a b) (x - y) (ea + eb + u * (ma + ea + mb + eb) + u) (ma + mb).
Proof.
  intros A B H. pose proof (near_abs _ _ _ _ A) as A3. pose proof (near_abs _ _ _ _ B) as B3.
  destruct A as (FA & A1 & A2), B as (FB & B1 & B2).
  assert (P : Rabs (B2R a - B2R b) <= ma + ea + mb + eb).
  { apply Rabs_le. apply Rabs_le_inv in A3, B3. lra. }
  destruct (dsub_R a b FA FB) as (F & V); [pose proof big_is; lra|]. split; [exact F|]. split.
  - rewrite V. replace (rd (B2R a - B2R b) - (x - y)) with ((rd (B2R a - B2R b) - (B2R a - B2R b)) + ((B2R a - x) - (B2R b - y))) by ring.
    eapply Rle_trans; [apply Rabs_triang|]. pose proof (rd_u (B2R a - B2R b)).
    assert (Rabs ((B2R a - x) - (B2R b - y)) <= ea + eb). { apply Rabs_le. apply Rabs_le_inv in A1, B1. lra. }
    assert (u * Rabs (B2R a - B2R b) <= u * (ma + ea + mb + eb)). { apply Rmult_le_compat_l; [unfold u; lra|exact P]. }
    lra.
  - apply Rabs_le. apply Rabs_le_inv in A2, B2. lra.
Qed.
Lemma near_in m d : up_to m d -> near d (B2R d) 0 m.
Proof. intros (F & H). split; [exact F|]. split; [rewrite Rminus_eq_0, Rabs_R0; lra|exact H]. Qed.
Lemma near_0 : near dzero 0 0 0.
Proof. split; [reflexivity|]. change (B2R dzero) with 0. rewrite Rminus_eq_0, Rabs_R0. lra. Qed.
Lemma near_1 : near done 1 0 1.
Proof.
  assert (F : is_fin done = true) by (vm_compute; reflexivity). split; [exact F|]. pose proof one_E as H. rewrite E_fin in H by exact F. rewrite H.
  rewrite Rminus_eq_0, Rabs_R0, Rabs_R1. lra.
Qed.
Lemma near_eq d x y e m : near d x e m -> x = y -> near d y e m.
Proof. intros H <-. exact H. Qed.

(** One coordinate of a product of matrices, or of a point through a matrix. *)
Lemma near_lin a b c d x1 x2 y1 y2 ea ma eb mb ec mc ed md :
  near a x1 ea ma -> near b y1 eb mb -> near c x2 ec mc -> near d y2 ed md ->
  0 <= ea <= 1 -> 0 <= eb <= 1 -> 0 <= ec <= 1 -> 0 <= ed <= 1 -> 0 <= ma <= 100000000000 -> 0 <= mb <= 100000000000 -> 0 <= mc <= 100000000000 -> 0 <= md <= 100000000000 ->
  near (dadd (dmul a b) (dmul c d)) (x1 * y1 + x2 * y2)
    (ea * mb + ma * eb + ea * eb + ec * md + mc * ed + ec * ed + 3 * u * ((ma + ea) * (mb + eb) + (mc + ec) * (md + ed)) + 5 * u)
    (ma * mb + mc * md).
Proof.
  intros A B C D ?. intros.
  assert (0 <= (ma + ea) * (mb + eb) <= 100000000001 * 100000000001) by (split; [apply Rmult_le_pos; lra|apply Rmult_le_compat; lra]).
  assert (0 <= (mc + ec) * (md + ed) <= 100000000001 * 100000000001) by (split; [apply Rmult_le_pos; lra|apply Rmult_le_compat; lra]).
  pose proof (near_mul _ _ _ _ _ _ _ _ A B ltac:(lra)) as P. pose proof (near_mul _ _ _ _ _ _ _ _ C D ltac:(lra)) as Q.
  assert (X1 : ma * mb + (ea * mb + ma * eb + ea * eb) = (ma + ea) * (mb + eb)) by ring.
  assert (X2 : mc * md + (ec * md + mc * ed + ec * ed) = (mc + ec) * (md + ed)) by ring.
  assert (0 <= u <= / 1000000000) by (unfold u; lra).
  set (G := (ma + ea) * (mb + eb)) in *. set (H' := (mc + ec) * (md + ed)) in *.
  assert (0 <= u * G <= / 1000000000 * G) by (split; [apply Rmult_le_pos; lra|apply Rmult_le_compat_r; lra]).
  assert (0 <= u * H' <= / 1000000000 * H') by (split; [apply Rmult_le_pos; lra|apply Rmult_le_compat_r; lra]).
  eapply near_weak; [apply (near_add _ _ _ _ _ _ _ _ P Q); lra| |lra].
  replace (ma * mb + (ea * mb + ma * eb + ea * eb + u * G + u) + mc * md + (ec * md + mc * ed + ec * ed + u * H' + u)) with
    (G + H' + u * G + u * H' + 2 * u) by (rewrite <- X1, <- X2; unfold G, H'; ring).
  assert (u * (G + H' + u * G + u * H' + 2 * u) <= u * (2 * G + 2 * H' + 2)) by (apply Rmult_le_compat_l; lra).
  lra.
Qed.
(** A coordinate of a point through a matrix: the linear part and the translation. *)
Lemma near_aff a b c d t x1 x2 y1 y2 z ea ma eb mb ec mc ed md et mt e' m' :
  near a x1 ea ma -> near b y1 eb mb -> near c x2 ec mc -> near d y2 ed md -> near t z et mt ->
  0 <= ea <= 1 -> 0 <= eb <= 1 -> 0 <= ec <= 1 -> 0 <= ed <= 1 -> 0 <= et <= 1 ->
  0 <= ma <= 100000000000 -> 0 <= mb <= 100000000000 -> 0 <= mc <= 100000000000 -> 0 <= md <= 100000000000 -> 0 <= mt <= 100000000000 ->
  ea * mb + ma * eb + ea * eb + ec * md + mc * ed + ec * ed + et +
    5 * u * ((ma + ea) * (mb + eb) + (mc + ec) * (md + ed) + mt + et) + 20 * u <= e' ->
  ma * mb + mc * md + mt <= m' ->
  near (dadd (dadd (dmul a b) (dmul c d)) t) (x1 * y1 + x2 * y2 + z) e' m'.
Proof.
  intros A B C D T ?. intros.
  pose proof (near_lin _ _ _ _ _ _ _ _ _ _ _ _ _ _ _ _ A B C D) as L. do 8 (specialize (L ltac:(assumption))).
  assert (0 <= (ma + ea) * (mb + eb) <= 100000000001 * 100000000001) by (split; [apply Rmult_le_pos; lra|apply Rmult_le_compat; lra]).
  assert (0 <= (mc + ec) * (md + ed) <= 100000000001 * 100000000001) by (split; [apply Rmult_le_pos; lra|apply Rmult_le_compat; lra]).
  assert (X1 : ma * mb + (ea * mb + ma * eb + ea * eb) = (ma + ea) * (mb + eb)) by ring.
  assert (X2 : mc * md + (ec * md + mc * ed + ec * ed) = (mc + ec) * (md + ed)) by ring.
  assert (0 <= u <= / 1000000000) by (unfold u; lra).
  assert (0 <= ma * mb) by (apply Rmult_le_pos; lra). assert (0 <= mc * md) by (apply Rmult_le_pos; lra).
  set (G := (ma + ea) * (mb + eb)) in *. set (H' := (mc + ec) * (md + ed)) in *.
  assert (0 <= u * G <= / 1000000000 * G) by (split; [apply Rmult_le_pos; lra|apply Rmult_le_compat_r; lra]).
  assert (0 <= u * H' <= / 1000000000 * H') by (split; [apply Rmult_le_pos; lra|apply Rmult_le_compat_r; lra]).
  eapply near_weak; [apply (near_add _ _ _ _ _ _ _ _ L T); lra| |lra].
  set (big := ma * mb + mc * md + _ + mt + et).
  assert (u * big <= u * (2 * G + 2 * H' + mt + et + 1)) by (apply Rmult_le_compat_l; [lra|unfold big; lra]).
  assert (0 <= u * mt) by (apply Rmult_le_pos; lra). assert (0 <= u * et) by (apply Rmult_le_pos; lra).
  lra.
Qed.
Lemma near_lin' a b c d x1 x2 y1 y2 ea ma eb mb ec mc ed md e' m' :
  near a x1 ea ma -> near b y1 eb mb -> near c x2 ec mc -> near d y2 ed md ->
  0 <= ea <= 1 -> 0 <= eb <= 1 -> 0 <= ec <= 1 -> 0 <= ed <= 1 ->
  0 <= ma <= 100000000000 -> 0 <= mb <= 100000000000 -> 0 <= mc <= 100000000000 -> 0 <= md <= 100000000000 ->
  ea * mb + ma * eb + ea * eb + ec * md + mc * ed + ec * ed + 3 * u * ((ma + ea) * (mb + eb) + (mc + ec) * (md + ed)) + 5 * u <= e' ->
  ma * mb + mc * md <= m' ->
  near (dadd (dmul a b) (dmul c d)) (x1 * y1 + x2 * y2) e' m'.
Proof. intros. eapply near_weak; [apply near_lin; eassumption|assumption|assumption]. Qed.

Ltac num := unfold u in *; lra.
Section Text.
  Context (s : gstate) (w : double) (MT : modest_text s w).
  Local Notation fs := (B2R (s_fontSize s)).
  Local Notation hz := (B2R (s_horiz s)).
  Local Notation t0 := (B2R (mt0 (s_textMat s))).
  Local Notation t1 := (B2R (mt1 (s_textMat s))).
  Local Notation t2 := (B2R (mt2 (s_textMat s))).
  Local Notation t3 := (B2R (mt3 (s_textMat s))).
  Local Notation c0 := (B2R (mt0 (s_ctm s))).
  Local Notation c1 := (B2R (mt1 (s_ctm s))).
  Local Notation c2 := (B2R (mt2 (s_ctm s))).
  Local Notation c3 := (B2R (mt3 (s_ctm s))).

  Lemma trm_near : let m := rendering_matrix s in
    near (mt0 m) (fs * hz * t0 * c0 + fs * hz * t1 * c2) (3 / 1000000) 200000000 /\
    near (mt1 m) (fs * hz * t0 * c1 + fs * hz * t1 * c3) (3 / 1000000) 200000000 /\
    near (mt2 m) (fs * t2 * c0 + fs * t3 * c2) (3 / 1000000) 200000000 /\
    near (mt3 m) (fs * t2 * c1 + fs * t3 * c3) (3 / 1000000) 200000000 /\
    near (mt4 m) (fst (origin s)) (1 / 100000) 401000000 /\
    near (mt5 m) (snd (origin s)) (1 / 100000) 401000000.
  Proof.
    destruct MT as (Hfs & Hh & Hr & H0 & H1 & H2 & H3 & HX & HY & (K0 & K1 & K2 & K3 & K4 & K5) & HW & HS).
    apply near_in in Hfs, Hh, Hr, H0, H1, H2, H3, HX, HY, K0, K1, K2, K3, K4, K5.
    pose proof (near_mul _ _ _ _ _ _ _ _ Hfs Hh ltac:(num)) as FH.
    apply (near_weak _ _ _ _ (2 / 100000000000) 10000) in FH; [|num|num].
    pose proof near_0 as Z0.
    assert (Q0 : near (dadd (dmul (dmul (s_fontSize s) (s_horiz s)) (mt0 (s_textMat s))) (dmul dzero (mt2 (s_textMat s)))) (fs * hz * t0 + 0 * t2) (/ 100000000) 1000000).
    { eapply near_lin'; try eassumption; num. }
    assert (Q1 : near (dadd (dmul (dmul (s_fontSize s) (s_horiz s)) (mt1 (s_textMat s))) (dmul dzero (mt3 (s_textMat s)))) (fs * hz * t1 + 0 * t3) (/ 100000000) 1000000).
    { eapply near_lin'; try eassumption; num. }
    assert (Q2 : near (dadd (dmul dzero (mt0 (s_textMat s))) (dmul (s_fontSize s) (mt2 (s_textMat s)))) (0 * t0 + fs * t2) (/ 100000000) 1000000).
    { eapply near_lin'; try eassumption; num. }
    assert (Q3 : near (dadd (dmul dzero (mt1 (s_textMat s))) (dmul (s_fontSize s) (mt3 (s_textMat s)))) (0 * t1 + fs * t3) (/ 100000000) 1000000).
    { eapply near_lin'; try eassumption; num. }
    assert (Q4 : near (dadd (dadd (dmul dzero (mt0 (s_textMat s))) (dmul (s_rise s) (mt2 (s_textMat s)))) (s_curX s))
      (0 * t0 + B2R (s_rise s) * t2 + B2R (s_curX s)) (2 / 100000000) 2000000).
    { eapply near_aff; try eassumption; num. }
    assert (Q5 : near (dadd (dadd (dmul dzero (mt1 (s_textMat s))) (dmul (s_rise s) (mt3 (s_textMat s)))) (s_curY s))
      (0 * t1 + B2R (s_rise s) * t3 + B2R (s_curY s)) (2 / 100000000) 2000000).
    { eapply near_aff; try eassumption; num. }
    cbv zeta. unfold rendering_matrix, concat_mat, text_matrix. cbn [mt0 mt1 mt2 mt3 mt4 mt5].
    split; [|split; [|split; [|split; [|split]]]].
    - eapply near_eq; [eapply (near_lin' _ _ _ _ _ _ _ _ _ _ _ _ _ _ _ _ (3 / 1000000) 200000000 Q0 K0 Q1 K2); num|ring].
    - eapply near_eq; [eapply (near_lin' _ _ _ _ _ _ _ _ _ _ _ _ _ _ _ _ (3 / 1000000) 200000000 Q0 K1 Q1 K3); num|ring].
    - eapply near_eq; [eapply (near_lin' _ _ _ _ _ _ _ _ _ _ _ _ _ _ _ _ (3 / 1000000) 200000000 Q2 K0 Q3 K2); num|ring].
    - eapply near_eq; [eapply (near_lin' _ _ _ _ _ _ _ _ _ _ _ _ _ _ _ _ (3 / 1000000) 200000000 Q2 K1 Q3 K3); num|ring].
    - eapply near_eq; [eapply (near_aff _ _ _ _ _ _ _ _ _ _ _ _ _ _ _ _ _ _ _ _ (1 / 100000) 401000000 Q4 K0 Q5 K2 K4); num|].
      unfold origin, on_page, on_line, real_matrix, through. cbn [fst snd]. ring.
    - eapply near_eq; [eapply (near_aff _ _ _ _ _ _ _ _ _ _ _ _ _ _ _ _ _ _ _ _ (1 / 100000) 401000000 Q4 K1 Q5 K3 K5); num|].
      unfold origin, on_page, on_line, real_matrix, through. cbn [fst snd]. ring.
  Qed.

  Lemma next_near : let m := next_matrix s w in
    near (mt4 m) (fst (next_origin s w)) (1 / 1000) 20300000000 /\
    near (mt5 m) (snd (next_origin s w)) (1 / 1000) 20300000000.
  Proof.
    destruct MT as (Hfs & Hh & Hr & H0 & H1 & H2 & H3 & HX & HY & (K0 & K1 & K2 & K3 & K4 & K5) & HW & HS).
    apply near_in in Hfs, Hh, Hr, H0, H1, H2, H3, HX, HY, K0, K1, K2, K3, K4, K5, HW.
    pose proof (near_mul _ _ _ _ _ _ _ _ HW Hfs ltac:(num)) as WF.
    apply (near_weak _ _ _ _ (2 / 10000000000) 100000) in WF; [|num|num].
    pose proof (near_mul _ _ _ _ _ _ _ _ WF Hh ltac:(num)) as WH.
    apply (near_weak _ _ _ _ (5 / 1000000000) 1000000) in WH; [|num|num].
    pose proof near_0 as Z0.
    assert (Q4 : near (dadd (dadd (dmul (dmul (dmul w (s_fontSize s)) (s_horiz s)) (mt0 (s_textMat s))) (dmul dzero (mt2 (s_textMat s)))) (s_curX s))
      (B2R w * fs * hz * t0 + 0 * t2 + B2R (s_curX s)) (2 / 1000000) 101000000).
    { eapply near_aff; try eassumption; num. }
    assert (Q5 : near (dadd (dadd (dmul (dmul (dmul w (s_fontSize s)) (s_horiz s)) (mt1 (s_textMat s))) (dmul dzero (mt3 (s_textMat s)))) (s_curY s))
      (B2R w * fs * hz * t1 + 0 * t3 + B2R (s_curY s)) (2 / 1000000) 101000000).
    { eapply near_aff; try eassumption; num. }
    cbv zeta. unfold next_matrix, concat_mat, text_matrix. cbn [mt0 mt1 mt2 mt3 mt4 mt5].
    split.
    - eapply near_eq; [eapply (near_aff _ _ _ _ _ _ _ _ _ _ _ _ _ _ _ _ _ _ _ _ (1 / 1000) 20300000000 Q4 K0 Q5 K2 K4); num|].
      unfold next_origin, on_line, real_matrix, through. cbn [fst snd]. ring.
    - eapply near_eq; [eapply (near_aff _ _ _ _ _ _ _ _ _ _ _ _ _ _ _ _ _ _ _ _ (1 / 1000) 20300000000 Q4 K1 Q5 K3 K5); num|].
      unfold next_origin, on_line, real_matrix, through. cbn [fst snd]. ring.
  Qed.
End Text.

Lemma near_min a b x y e m : near a x e m -> near b y e m -> near (minimum a b) (Rmin x y) e m.
Proof.
  intros (FA & A1 & A2) (FB & B1 & B2). apply Rabs_le_inv in A1, A2, B1, B2.
  unfold minimum. destruct (dlt b a) eqn:L.
  - apply dlt_E in L; [|apply fin_nn; assumption..]. rewrite !E_fin in L by assumption.
    split; [exact FB|]. split; apply Rabs_le; unfold Rmin; destruct (Rle_dec x y); lra.
  - assert (L' : dle a b = true) by (rewrite dle_negb_dlt by (apply fin_nn; assumption); rewrite L; reflexivity).
    apply dle_E in L'; [|apply fin_nn; assumption..]. rewrite !E_fin in L' by assumption.
    split; [exact FA|]. split; apply Rabs_le; unfold Rmin; destruct (Rle_dec x y); lra.
Qed.
Lemma near_max a b x y e m : near a x e m -> near b y e m -> near (maximum a b) (Rmax x y) e m.
Proof.
  intros (FA & A1 & A2) (FB & B1 & B2). apply Rabs_le_inv in A1, A2, B1, B2.
  unfold maximum. destruct (dlt a b) eqn:L.
  - apply dlt_E in L; [|apply fin_nn; assumption..]. rewrite !E_fin in L by assumption.
    split; [exact FB|]. split; apply Rabs_le; unfold Rmax; destruct (Rle_dec x y); lra.
  - assert (L' : dle b a = true) by (rewrite dle_negb_dlt by (apply fin_nn; assumption); rewrite L; reflexivity).
    apply dle_E in L'; [|apply fin_nn; assumption..]. rewrite !E_fin in L' by assumption.
    split; [exact FA|]. split; apply Rabs_le; unfold Rmax; destruct (Rle_dec x y); lra.
Qed.

(** The computed box, before it is rounded *)
Definition close (d : double) (x : R) : Prop := near d x (4 / 1000) 1000000000000.
Definition close_box (b : cbox) (r : rect) : Prop :=
  close (cb_left b) (rl r) /\ close (cb_upper b) (ru r) /\ close (cb_right b) (rr r) /\ close (cb_lower b) (rb r) /\ close (cb_base b) (rbase r).
Lemma close_of d x e m : near d x e m -> e <= 4 / 1000 -> m <= 1000000000000 -> close d x.
Proof. apply near_weak. Qed.

Lemma text_box_close s w i wm rot : modest_text s w -> modest_font i -> (0 <= rot <= 3)%Z ->
  let trm := rendering_matrix s in let next := next_matrix s w in
  close_box (text_box wm rot (mt4 trm) (mt5 trm) (mt4 next) (mt5 next) (s_tfs s) (dmul (f_ascent i) (s_tfs s)) (dmul (f_descent i) (s_tfs s)))
    (font_rect (negb (wm =? 0)%Z) rot (origin s) (next_origin s w) (B2R (s_tfs s)) (B2R (f_ascent i) * B2R (s_tfs s)) (B2R (f_descent i) * B2R (s_tfs s))).
Proof.
  intros MT (MA & MD) RT. cbv zeta. destruct (trm_near s w MT) as (_ & _ & _ & _ & X0 & Y0). destruct (next_near s w MT) as (X1 & Y1).
  assert (SZ : up_to 1000000 (s_tfs s)) by apply MT. apply near_in in SZ, MA, MD.
  pose proof (near_mul _ _ _ _ _ _ _ _ MA SZ ltac:(num)) as AS. apply (near_weak _ _ _ _ (1 / 1000000) 100000000) in AS; [|num|num].
  pose proof (near_mul _ _ _ _ _ _ _ _ MD SZ ltac:(num)) as DS. apply (near_weak _ _ _ _ (1 / 1000000) 100000000) in DS; [|num|num].
  set (x0 := mt4 (rendering_matrix s)) in *. set (y0 := mt5 (rendering_matrix s)) in *.
  set (x1 := mt4 (next_matrix s w)) in *. set (y1 := mt5 (next_matrix s w)) in *.
  pose proof near_0 as Z0.
  pose proof (near_sub _ _ _ _ _ _ _ _ X1 X0 ltac:(num)) as DX. apply (near_weak _ _ _ _ (12 / 10000) 21000000000) in DX; [|num|num].
  pose proof (near_sub _ _ _ _ _ _ _ _ Y1 Y0 ltac:(num)) as DY. apply (near_weak _ _ _ _ (12 / 10000) 21000000000) in DY; [|num|num].
  assert (EX : close (dadd x0 (dsub x1 x0)) (fst (next_origin s w))).
  { eapply near_eq; [eapply close_of; [apply (near_add _ _ _ _ _ _ _ _ X0 DX); num|num|num]|ring]. }
  assert (EY : close (dadd y0 (dsub y1 y0)) (snd (next_origin s w))).
  { eapply near_eq; [eapply close_of; [apply (near_add _ _ _ _ _ _ _ _ Y0 DY); num|num|num]|ring]. }
  assert (ADD : forall a x b y, near a x (1 / 100000) 401000000 -> near b y (1 / 1000000) 100000000 -> close (dadd a b) (x + y)).
  { intros a x b y A B. eapply close_of; [apply (near_add _ _ _ _ _ _ _ _ A B); num|num|num]. }
  assert (SUB : forall a x b y, near a x (1 / 100000) 401000000 -> near b y (1 / 1000000) 100000000 -> close (dsub a b) (x - y)).
  { intros a x b y A B. eapply close_of; [apply (near_sub _ _ _ _ _ _ _ _ A B); num|num|num]. }
  assert (SZ' : near (s_tfs s) (B2R (s_tfs s)) (1 / 1000000) 100000000) by (eapply near_weak; [exact SZ|num|num]).
  assert (CX : close x0 (fst (origin s))) by (eapply close_of; [exact X0|num|num]).
  assert (CY : close y0 (snd (origin s))) by (eapply close_of; [exact Y0|num|num]).
  assert (CZ : close dzero 0) by (eapply close_of; [exact Z0|num|num]).
  assert (rot = 0 \/ rot = 1 \/ rot = 2 \/ rot = 3)%Z as [-> | [-> | [-> | ->]]] by lia; unfold text_box, font_rect, close_box;
    destruct (wm =? 0)%Z; cbn [negb cb_left cb_upper cb_right cb_lower cb_base rl ru rr rb rbase];
    (split; [|split; [|split; [|split]]]); auto.
Qed.

Lemma find_box_boxed name l b : find_box name l = Some b <-> exists a a', l = a ++ (name, b) :: a' /\ ~ In name (map fst a).
Proof.
  unfold find_box. split.
  - induction l as [|(n, x) l IH]; [discriminate|]. cbn [find fst]. destruct (str_eqb n name) eqn:E0.
    + intro H. cbn in H. injection H as <-. apply str_eqb_eq in E0. subst n. exists [], l. split; [reflexivity|intros []].
    + intro H. destruct (IH H) as (a & a' & -> & N). exists ((n, x) :: a), a'. split; [reflexivity|]. cbn [map fst]. intros [X|X]; [|exact (N X)].
      subst n. rewrite str_eqb_refl in E0. discriminate.
  - intros (a & a' & -> & N). induction a as [|(n, x) a IH]; cbn [app find fst].
    + rewrite str_eqb_refl. reflexivity.
    + destruct (str_eqb n name) eqn:E0; [apply str_eqb_eq in E0; exfalso; apply N; left; exact E0|]. apply IH. intro X. apply N. right. exact X.
Qed.

Lemma near_Z z : (Z.abs z <= 10000)%Z -> near (dZ z) (IZR z) 0 10000.
Proof.
  intro H. assert (AZ : Rabs (IZR z) <= 10000) by (rewrite <- abs_IZR; apply IZR_le; exact H).
  pose proof (binary_normalize_correct 53 1024 Hprec Hemax mode_NE z 0 false) as C. cbv zeta in C.
  assert (X : F2R (Float radix2 z 0) = IZR z) by (unfold F2R; cbn [Fnum Fexp]; cbn [bpow]; ring). rewrite X in C.
  change (Generic_fmt.round radix2 (SpecFloat.fexp 53 1024) (round_mode mode_NE) (IZR z)) with (rd (IZR z)) in C.
  rewrite rd_small in C by (pose proof big_is; lra). destruct C as (C1 & C2 & _). split; [exact C2|].
  assert (V : B2R (dZ z) = IZR z).
  { transitivity (rd (IZR z)); [exact C1|]. apply round_generic; auto with typeclass_instances.
    apply generic_format_FLT. exists (Float radix2 z 0); [symmetry; exact X|cbn [Fnum]|cbn; lia].
    change (radix2 ^ 53)%Z with (2 ^ 53)%Z. lia. }
  rewrite V, Rminus_eq_0, Rabs_R0. split; [lra|exact AZ].
Qed.
Lemma glyph_box_close s w i b fm : modest_text s w -> modest_box b -> font_space i fm ->
  close_box (glyph_box b (f_matrix i) (rendering_matrix s)) (glyph_rect s fm b).
Proof.
  intros MT MB (a & b' & c & d & e & f & FM & -> & A0 & A1 & A2 & A3 & A4 & A5).
  destruct b as [[[xl yl] xr] yr]. destruct MB as (B1 & B2 & B3 & B4). apply near_Z in B1, B2, B3, B4. apply near_in in A0, A1, A2, A3, A4, A5.
  destruct (trm_near s w MT) as (R0 & R1 & R2 & R3 & R4 & R5).
  unfold glyph_box, glyph_rect. rewrite FM. cbn [at_ nth].
  assert (PT : forall x y dx dy, near dx (IZR x) 0 10000 -> near dy (IZR y) 0 10000 ->
    let px := dadd (dadd (dmul dx a) (dmul dy c)) e in let py := dadd (dadd (dmul dx b') (dmul dy d)) f in
    let q := on_page s (through (B2R a) (B2R b') (B2R c) (B2R d) (B2R e) (B2R f) (IZR x, IZR y)) in
    close (dadd (dadd (dmul px (mt0 (rendering_matrix s))) (dmul py (mt2 (rendering_matrix s)))) (mt4 (rendering_matrix s))) (fst q) /\
    close (dadd (dadd (dmul px (mt1 (rendering_matrix s))) (dmul py (mt3 (rendering_matrix s)))) (mt5 (rendering_matrix s))) (snd q)).
  { intros x y dx dy DX DY. cbv zeta.
    assert (PX : near (dadd (dadd (dmul dx a) (dmul dy c)) e) (IZR x * B2R a + IZR y * B2R c + B2R e) (2 / 1000000000000) 300).
    { eapply near_aff; try eassumption; num. }
    assert (PY : near (dadd (dadd (dmul dx b') (dmul dy d)) f) (IZR x * B2R b' + IZR y * B2R d + B2R f) (2 / 1000000000000) 300).
    { eapply near_aff; try eassumption; num. }
    split.
    - eapply near_eq; [eapply (near_aff _ _ _ _ _ _ _ _ _ _ _ _ _ _ _ _ _ _ _ _ (4 / 1000) 1000000000000 PX R0 PY R2 R4); num|].
      unfold origin, on_page, on_line, real_matrix, through. cbn [fst snd]. ring.
    - eapply near_eq; [eapply (near_aff _ _ _ _ _ _ _ _ _ _ _ _ _ _ _ _ _ _ _ _ (4 / 1000) 1000000000000 PX R1 PY R3 R5); num|].
      unfold origin, on_page, on_line, real_matrix, through. cbn [fst snd]. ring. }
  destruct (PT xl yl _ _ B1 B2) as (P1 & P2). destruct (PT xr yr _ _ B3 B4) as (Q1 & Q2).
  unfold close_box. cbn [cb_left cb_upper cb_right cb_lower cb_base rl ru rr rb rbase].
  split; [apply near_min; assumption|]. split; [apply near_min; assumption|]. split; [apply near_max; assumption|].
  split; apply near_max; assumption.
Qed.

Lemma dec_tenth : is_fin (dec 1 1) = true /\ (99 / 1000 <= B2R (dec 1 1) <= 101 / 1000).
Proof.
  split; [vm_compute; reflexivity|]. rewrite <- SF2R_B2SF.
  replace (B2SF (dec 1 1)) with (SpecFloat.S754_finite false 7205759403792794 (-56)) by (vm_compute; reflexivity).
  unfold SF2R, F2R. cbn [cond_Zopp Fnum Fexp].
  change (IZR (Z.pos 7205759403792794)) with (7205759403792794). change (bpow radix2 (-56)) with (/ IZR (Zpower_pos 2 56)).
  change (Zpower_pos 2 56) with 72057594037927936%Z. lra.
Qed.
Lemma smaller_tenth a b x y : close a x -> close b y ->
  (smaller a b coordsEqualTolerance = true -> x < y - / 20) /\ (x < y - / 5 -> smaller a b coordsEqualTolerance = true).
Proof.
  intros (FA & A & MA) B. destruct dec_tenth as (FT & T). unfold smaller, coordsEqualTolerance.
  assert (NT : near (dec 1 1) (/ 10) (/ 1000) 1). { split; [exact FT|]. split; apply Rabs_le; lra. }
  destruct (near_sub _ _ _ _ _ _ _ _ B NT ltac:(num)) as (FS & SE & _).
  assert (SE' : Rabs (B2R (dsub b (dec 1 1)) - (y - / 10)) <= 8 / 1000) by (eapply Rle_trans; [exact SE|num]).
  apply Rabs_le_inv in A, SE'. rewrite (dlt_E _ _ (fin_nn _ FA) (fin_nn _ FS)), !E_fin by assumption. split; intro H; lra.
Qed.
Lemma larger_tenth a b x y : close a x -> close b y ->
  (larger a b coordsEqualTolerance = true -> x > y + / 20) /\ (x > y + / 5 -> larger a b coordsEqualTolerance = true).
Proof.
  intros (FA & A & MA) B. destruct dec_tenth as (FT & T). unfold larger, dgt, coordsEqualTolerance.
  assert (NT : near (dec 1 1) (/ 10) (/ 1000) 1). { split; [exact FT|]. split; apply Rabs_le; lra. }
  destruct (near_add _ _ _ _ _ _ _ _ B NT ltac:(num)) as (FS & SE & _).
  assert (SE' : Rabs (B2R (dadd b (dec 1 1)) - (y + / 10)) <= 8 / 1000) by (eapply Rle_trans; [exact SE|num]).
  apply Rabs_le_inv in A, SE'. rewrite (dlt_E _ _ (fin_nn _ FS) (fin_nn _ FA)), !E_fin by assumption. split; intro H; lra.
Qed.

Lemma round_close d x : close d x -> Rabs x <= 10000000 -> tenth_near (dround d 1) x.
Proof.
  intros (F & A & _) B. apply Rabs_le_inv in A, B.
  assert (MO : dle (dabs d) (dZ 100000000) = true).
  { destruct (dZ_exact 100000000) as [F8 E8]; [lia|]. destruct (dabs_E d (fin_nn _ F)) as (N & V).
    apply dle_E; [exact N|apply fin_nn, F8|]. rewrite V, E8, (E_fin d F). apply Rabs_le. lra. }
  destruct (dround1_close d MO) as (FR & C). rewrite !E_fin in C by assumption. apply Rabs_le_inv in C.
  split; [exact FR|]. apply Rabs_le. lra.
Qed.
Lemma round_fits b r num0 rot wm : close_box b r -> modest_rect r ->
  fits (mkPos num0 (rnd (cb_left b)) (rnd (cb_upper b)) (rnd (cb_right b)) (rnd (cb_lower b)) rot wm) (rnd (cb_base b)) r.
Proof.
  intros (A & B & C & D & E0) (A' & B' & C' & D' & E'). unfold fits, rnd, coordinatePrecision. cbn [leftX upperY rightX lowerY].
  repeat (split; [apply round_close; assumption|]). apply round_close; assumption.
Qed.

Lemma char_rotation_range s : (0 <= char_rotation s <= 3)%Z.
Proof.
  assert (R : forall m, (0 <= matrix_rotation m <= 3)%Z).
  { intros [[[a b] c] d]. unfold matrix_rotation. destruct (larger (dabs _) _ _); [destruct (_ || _)|destruct (larger _ _ _)]; lia. }
  unfold char_rotation. specialize (R (font_trans s)). set (r := matrix_rotation (font_trans s)) in *. destruct (s_font s) as [f|]; [|exact R].
  destruct (pf_wMode f =? 0)%Z; [exact R|]. assert (r = 0 \/ r = 1 \/ r = 2 \/ r = 3)%Z as [-> | [-> | [-> | ->]]] by lia; cbn; lia.
Qed.

Lemma char_box_ok s i pf name w num0 :
  let '(p, base) := char_position s i pf name w num0 in
  char_box s i (pf_wMode pf) name w p base.
Proof.
  unfold char_position. cbv zeta. set (rot := char_rotation s). pose proof (char_rotation_range s) as RR. fold rot in RR.
  intros MT MF. cbv zeta. cbn [rotation]. intro MR.
  pose proof (text_box_close s w i (pf_wMode pf) rot MT MF RR) as TC. cbv zeta in TC.
  set (tb := text_box _ _ _ _ _ _ _ _ _) in *. set (t := font_rect _ _ _ _ _ _ _) in *.
  split.
  - intro NB. assert (FN : find_box name (f_boxes i) = None).
    { destruct (find_box name (f_boxes i)) as [b|] eqn:FB; [|reflexivity]. exfalso. apply (NB b). apply find_box_boxed, FB. }
    rewrite FN. cbn [option_map choose_box]. apply round_fits; assumption.
  - intros b fm BX MB FS MG. cbv zeta. assert (FB : find_box name (f_boxes i) = Some b) by (apply find_box_boxed, BX).
    rewrite FB. cbn [option_map choose_box].
    pose proof (glyph_box_close s w i b fm MT MB FS) as GC.
    set (gb := glyph_box b (f_matrix i) (rendering_matrix s)) in *. set (g := glyph_rect s fm b) in *.
    assert (GU : close (cb_upper gb) (ru g)) by apply GC. assert (GL : close (cb_lower gb) (rb g)) by apply GC.
    assert (TU : close (cb_upper tb) (ru t)) by apply TC. assert (TL : close (cb_lower tb) (rb t)) by apply TC.
    destruct (smaller_tenth _ _ _ _ GU TU) as (S1 & S2). destruct (larger_tenth _ _ _ _ GL TL) as (L1 & L2).
    pose proof (round_fits gb g num0 rot (pf_wMode pf) GC MG) as FG. pose proof (round_fits tb t num0 rot (pf_wMode pf) TC MR) as FT.
    destruct (smaller (cb_upper gb) (cb_upper tb) coordsEqualTolerance || larger (cb_lower gb) (cb_lower tb) coordsEqualTolerance) eqn:CH.
    + split; [right; exact FG|]. split; [intros _; exact FG|]. intros U1 U2. exfalso. apply orb_true_iff in CH. destruct CH as [CH|CH]; [specialize (S1 CH)|specialize (L1 CH)]; lra.
    + apply orb_false_iff in CH. destruct CH as (C1 & C2). split; [left; exact FT|]. split; [|intros; exact FT].
      intros [U|U]; exfalso; [rewrite (S2 U) in C1|rewrite (L2 U) in C2]; discriminate.
Qed.

(** ** The direction of the text *)
Lemma near_dabs d x e m : near d x e m -> near (dabs d) (Rabs x) e m.
Proof.
  intros (F & A & B). assert (FA : is_fin (dabs d) = true) by (unfold dabs, is_fin; rewrite is_finite_Babs; exact F).
  destruct (dabs_E d (fin_nn _ F)) as (_ & V). rewrite !E_fin in V by assumption.
  split; [exact FA|]. rewrite V. split; [|rewrite Rabs_Rabsolu; exact B].
  eapply Rle_trans; [|exact A]. apply Rabs_triang_inv2.
Qed.
Lemma TOL_near : near TOL (1 / 10000) (1 / 100000) 1.
Proof.
  assert (F : is_fin TOL = true) by (vm_compute; reflexivity). split; [exact F|].
  rewrite <- SF2R_B2SF. replace (B2SF TOL) with (SpecFloat.S754_finite false 7378697629483821 (-66)) by (vm_compute; reflexivity).
  unfold SF2R, F2R. cbn [cond_Zopp Fnum Fexp].
  change (IZR (Z.pos 7378697629483821)) with (7378697629483821). change (bpow radix2 (-66)) with (/ IZR (Zpower_pos 2 66)).
  change (Zpower_pos 2 66) with 73786976294838206464%Z. split; apply Rabs_le; lra.
Qed.
Lemma larger_near a b x y e m : near a x e m -> near b y e m -> e <= / 10000 -> 0 <= e -> 0 <= m <= 1000000000 ->
  (x >= y + / 1000 -> larger a b TOL = true) /\ (x <= y - / 1000 -> larger a b TOL = false).
Proof.
  intros (FA & A & _) B EL EP ML. unfold larger, dgt.
  assert (UM : 0 <= u * m <= / 1000000) by (split; [apply Rmult_le_pos; num|unfold u; lra]).
  assert (UE : 0 <= u * e <= / 1000000) by (split; [apply Rmult_le_pos; num|unfold u; lra]).
  destruct (near_add _ _ _ _ _ _ _ _ B TOL_near ltac:(num)) as (FS & SE & _).
  assert (SE' : Rabs (B2R (dadd b TOL) - (y + 1 / 10000)) <= / 2000) by (eapply Rle_trans; [exact SE|num]).
  apply Rabs_le_inv in A, SE'. split; intro H.
  - apply dlt_E; [apply fin_nn; assumption..|]. rewrite !E_fin by assumption. lra.
  - rewrite dlt_negb_dle by (apply fin_nn; assumption). apply negb_false_iff.
    apply dle_E; [apply fin_nn; assumption..|]. rewrite !E_fin by assumption. lra.
Qed.
Lemma smaller_near a b x y e m : near a x e m -> near b y e m -> e <= / 10000 -> 0 <= e -> 0 <= m <= 1000000000 ->
  (x <= y - / 1000 -> smaller a b TOL = true) /\ (x >= y + / 1000 -> smaller a b TOL = false).
Proof.
  intros (FA & A & _) B EL EP ML. unfold smaller.
  assert (UM : 0 <= u * m <= / 1000000) by (split; [apply Rmult_le_pos; num|unfold u; lra]).
  assert (UE : 0 <= u * e <= / 1000000) by (split; [apply Rmult_le_pos; num|unfold u; lra]).
  destruct (near_sub _ _ _ _ _ _ _ _ B TOL_near ltac:(num)) as (FS & SE & _).
  assert (SE' : Rabs (B2R (dsub b TOL) - (y - 1 / 10000)) <= / 2000) by (eapply Rle_trans; [exact SE|num]).
  apply Rabs_le_inv in A, SE'. split; intro H.
  - apply dlt_E; [apply fin_nn; assumption..|]. rewrite !E_fin by assumption. lra.
  - rewrite dlt_negb_dle by (apply fin_nn; assumption). apply negb_false_iff.
    apply dle_E; [apply fin_nn; assumption..|]. rewrite !E_fin by assumption. lra.
Qed.
Lemma axes_near s f m0 m1 m2 m3 : s_font s = Some f -> font_axes s f m0 m1 m2 m3 ->
  exists d0 d1 d2 d3, font_trans s = (d0, d1, d2, d3) /\
    near d0 m0 (/ 10000000000) 20000 /\ near d1 m1 (/ 10000000000) 20000 /\ near d2 m2 (/ 10000000000) 20000 /\ near d3 m3 (/ 10000000000) 20000.
Proof.
  intros SF AX. unfold font_axes in AX. unfold font_trans. rewrite SF. destruct (s_trans s) as [[[t0 t1] t2] t3].
  destruct AX as (T0 & T1 & T2 & T3 & AX). apply near_in in T0, T1, T2, T3. destruct (g_type3 (pf_info f)).
  - destruct AX as (a & b & c & d & rest & GM & A & B & C & D & -> & -> & -> & ->). rewrite GM. cbn [at_ nth]. apply near_in in A, B, C, D.
    do 4 eexists. split; [reflexivity|]. split; [|split; [|split]]; eapply near_lin'; try eassumption; num.
  - destruct AX as (-> & -> & -> & ->). do 4 eexists. split; [reflexivity|].
    split; [|split; [|split]]; (eapply near_weak; [eassumption|num|num]).
Qed.
Lemma turned_ok s f : s_font s = Some f -> turned s f (char_rotation s).
Proof.
  intro SF. split; [apply char_rotation_range|]. intros m0 m1 m2 m3 turn AX FA.
  destruct (axes_near s f m0 m1 m2 m3 SF AX) as (d0 & d1 & d2 & d3 & TR & N0 & N1 & N2 & N3).
  unfold char_rotation. rewrite SF, TR.
  assert (MR : matrix_rotation (d0, d1, d2, d3) = turn /\ (0 <= turn <= 3)%Z).
  { pose proof (near_dabs _ _ _ _ (near_mul _ _ _ _ _ _ _ _ N0 N3 ltac:(num))) as P.
    pose proof (near_dabs _ _ _ _ (near_mul _ _ _ _ _ _ _ _ N1 N2 ltac:(num))) as Q.
    apply (near_weak _ _ _ _ (/ 10000) 400000000) in P; [|num|num]. apply (near_weak _ _ _ _ (/ 10000) 400000000) in Q; [|num|num].
    destruct (larger_near _ _ _ _ _ _ P Q) as (PQ1 & PQ2); [num..|].
    pose proof near_0 as Z0. apply (near_weak _ _ _ _ (/ 10000000000) 20000) in Z0; [|num|num].
    destruct (larger_near _ _ _ _ _ _ N0 Z0) as (L1 & L2); [num..|].
    destruct (smaller_near _ _ _ _ _ _ N3 Z0) as (S1 & S2); [num..|].
    destruct (larger_near _ _ _ _ _ _ N2 Z0) as (U1 & U2); [num..|].
    unfold matrix_rotation. unfold faces in FA.
    assert (turn = 0 \/ turn = 1 \/ turn = 2 \/ turn = 3)%Z as TT.
    { destruct turn as [|[[]|[]|]|]; try contradiction; auto. }
    destruct TT as [-> | [-> | [-> | ->]]]; destruct FA as (F1 & F2 & F3); (split; [|lia]).
    - rewrite PQ1, L1 by lra. reflexivity.
    - rewrite PQ2, U1 by lra. reflexivity.
    - rewrite PQ1, L2, S2 by lra. reflexivity.
    - rewrite PQ2, U2 by lra. reflexivity. }
  destruct MR as (-> & RT). destruct (pf_wMode f =? 0)%Z; [reflexivity|].
  assert (turn = 0 \/ turn = 1 \/ turn = 2 \/ turn = 3)%Z as [-> | [-> | [-> | ->]]] by lia; reflexivity.
Qed.

(** ** The width *)
Local Open Scope Z_scope.
Lemma bytes_fold code n : forall k, (k <= n)%nat ->
  fold_left (fun v b => 256 * v + b) (map (fun j => Z.land (Z.shiftr code (8 * (Z.of_nat n - Z.of_nat j - 1))) 255) (seq 0 k)) 0 =
  (code / 256 ^ Z.of_nat (n - k)) mod 256 ^ Z.of_nat k.
Proof.
  induction k as [|k IH]; intro L.
  - cbn [seq map fold_left]. rewrite Z.mod_1_r. reflexivity.
  - rewrite seq_S, map_app, fold_left_app. cbn [map fold_left Nat.add]. rewrite IH by lia.
    replace (Z.land (Z.shiftr code (8 * (Z.of_nat n - Z.of_nat k - 1))) 255) with ((code / 256 ^ Z.of_nat (n - S k)) mod 256).
    2:{ change 255 with (Z.ones 8). rewrite Z.land_ones, Z.shiftr_div_pow2 by lia. change (2 ^ 8) with 256.
        rewrite Z.pow_mul_r by lia. change (2 ^ 8) with 256. do 3 f_equal. lia. }
    replace (n - k)%nat with (S (n - S k)) by lia. rewrite Nat2Z.inj_succ, Z.pow_succ_r by lia.
    replace (256 * 256 ^ Z.of_nat (n - S k)) with (256 ^ Z.of_nat (n - S k) * 256) by lia.
    rewrite <- Z.div_div by lia. set (q := code / 256 ^ Z.of_nat (n - S k)).
    rewrite (Nat2Z.inj_succ k), Z.pow_succ_r by lia. rewrite Z.rem_mul_r by lia. lia.
Qed.
Lemma Ok_inj {A} (x y : A) : Ok x = Ok y -> x = y.
Proof. congruence. Qed.
Lemma code_bytes_ok code n bs : 0 < n -> code_bytes code n = Ok bs -> bytes_of code (Z.to_nat n) bs.
Proof.
  intros N H. unfold code_bytes in H. destruct (4 <? n); [discriminate|]. apply Ok_inj in H. subst bs. split; [rewrite map_length, seq_length; reflexivity|]. split.
  - apply Forall_forall. intros b I. apply in_map_iff in I. destruct I as (k & <- & _). change 255 with (Z.ones 8). rewrite Z.land_ones by lia. apply Z.mod_pos_bound. lia.
  - pose proof (bytes_fold code (Z.to_nat n) (Z.to_nat n) ltac:(lia)) as BF. rewrite (Z2Nat.id n) in BF by lia. rewrite BF. rewrite Nat.sub_diag, Z2Nat.id by lia. cbn [Z.of_nat]. rewrite Z.pow_0_r, Z.div_1_r. reflexivity.
Qed.
Lemma char_width_ok f code n w : char_width (Some f) code n = Ok w -> width_of f code n w.
Proof.
  intros H. unfold char_width in H. unfold width_of. destruct (pf_kind f) as [nm width|width|].
  - injection H as <-. reflexivity.
  - destruct (0 <? n) eqn:N.
    + apply Z.ltb_lt in N. destruct (code_bytes code n) as [bs|x|x] eqn:B; cbn [obind] in H; try discriminate. injection H as <-.
      split; [intros _; exists bs; split; [apply code_bytes_ok; assumption|reflexivity]|lia].
    + apply Z.ltb_ge in N. injection H as <-. split; [lia|reflexivity].
  - injection H as <-. reflexivity.
Qed.
