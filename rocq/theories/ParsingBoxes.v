(** ParsingBoxes.v - the boxes of shapes and graphics (src/PdfParsing.cpp:594-811). *)
From Coq Require Import ZArith NArith Reals Lra.
From Flocq Require Import Core IEEE754.BinarySingleNaN.
From Verif Require Import Base Double DoubleFacts MathUtils MathUtilsProofs Elements GeometrySpec ElementsProofs GridProofs Document Fonts CharMap
  Parsing ParsingSpec.
Open Scope Z_scope.
Local Opaque TOL dadd dsub ddiv dmul dec DBL_MAX DBL_MIN dround dZ.

Lemma min_cases a b : minimum a b = a \/ minimum a b = b.
Proof. unfold minimum. destruct (dlt b a); auto. Qed.
Lemma max_cases a b : maximum a b = a \/ maximum a b = b.
Proof. unfold maximum. destruct (dlt a b); auto. Qed.
Lemma min_le a b : nn a -> nn b -> dle (minimum a b) a = true /\ dle (minimum a b) b = true.
Proof.
  intros A B. unfold minimum. destruct (dlt b a) eqn:H.
  - split; [apply dlt_dle; exact H|apply dle_refl; exact B].
  - split; [apply dle_refl; exact A|]. rewrite dle_negb_dlt by assumption. rewrite H. reflexivity.
Qed.
Lemma max_ge a b : nn a -> nn b -> dle a (maximum a b) = true /\ dle b (maximum a b) = true.
Proof.
  intros A B. unfold maximum. destruct (dlt a b) eqn:H.
  - split; [apply dlt_dle; exact H|apply dle_refl; exact B].
  - split; [apply dle_refl; exact A|]. rewrite dle_negb_dlt by assumption. rewrite H. reflexivity.
Qed.
Lemma min_keep a b : dle a b = true -> minimum a b = a.
Proof. intro H. destruct (dle_nn _ _ H) as [A B]. unfold minimum. rewrite dlt_negb_dle by assumption. rewrite H. reflexivity. Qed.
Lemma max_keep a b : dle b a = true -> maximum a b = a.
Proof. intro H. destruct (dle_nn _ _ H) as [A B]. unfold maximum. rewrite dlt_negb_dle by assumption. rewrite H. reflexivity. Qed.
Lemma nn_min a b : nn a -> nn b -> nn (minimum a b).
Proof. intros; destruct (min_cases a b) as [->| ->]; assumption. Qed.
Lemma nn_max a b : nn a -> nn b -> nn (maximum a b).
Proof. intros; destruct (max_cases a b) as [->| ->]; assumption. Qed.
Lemma le_min a b c : dle c a = true -> dle c b = true -> dle c (minimum a b) = true.
Proof. destruct (min_cases a b) as [->| ->]; auto. Qed.
Lemma max_le a b c : dle a c = true -> dle b c = true -> dle (maximum a b) c = true.
Proof. destruct (max_cases a b) as [->| ->]; auto. Qed.

(** ** Tenths *)
Lemma tenth_round k d : tenth k d -> tenth k (dround d 1).
Proof.
  intro T. pose proof (tenth_err _ _ T) as [T1 T2]. destruct T as (K & F & V). apply Rabs_le_inv in T1, T2. pose proof M_big as HM.
  destruct (dZ_exact 10) as [F10 E10]; [lia|].
  Local Transparent dround. unfold dround. cbn [Z.eqb]. change (10 ^ 1)%Z with 10%Z. Local Opaque dround.
  destruct (dmul_E d (dZ 10) F F10) as [Hmn HmE]; [lra|]. rewrite E10 in HmE.
  assert (Rabs (rd (E d * 10) - E d * 10) <= / 4194304)%R as He.
  { rewrite <- e22. apply rd_err. rewrite e30. apply Rabs_le. lra. }
  apply Rabs_le_inv in He. rewrite clamp_id in HmE by lra.
  set (m := dmul d (dZ 10)) in *.
  assert (is_fin m = true) as Fm by (apply E_fin_iff; auto; lra).
  destruct (std_round_fin m Fm) as [Fr Er]. rewrite round_FIX_IZR in Er.
  assert (NK : ZnearestA (E m) = k).
  { apply Znearest_imp. apply Rabs_lt. lra. }
  rewrite NK in Er. assert (IZR (Z.abs k) <= 1000000001)%R as KR by (apply IZR_le; exact K). rewrite abs_IZR in KR. apply Rabs_le_inv in KR.
  destruct (ddiv_E (std_round m) (dZ 10) Fr F10) as [Hdn HdE]; [lra|]. rewrite E10, Er in HdE.
  assert (Rabs (rd (IZR k / 10) - IZR k / 10) <= / 4194304)%R as Hee.
  { rewrite <- e22. apply rd_err. rewrite e30. apply Rabs_le. lra. }
  apply Rabs_le_inv in Hee. rewrite clamp_id in HdE by lra.
  split; [exact K|]. split; [apply E_fin_iff; auto; lra|exact HdE].
Qed.
Definition settled (d : double) : Prop := exists k, tenth k d.
Lemma settled_fin d : settled d -> is_fin d = true.
Proof. intros (k & _ & F & _). exact F. Qed.
Lemma settled_round d : settled d -> deq (dround d 1) d = true.
Proof.
  intros (k & T). pose proof (tenth_round k d T) as T'. destruct T as (_ & F & V), T' as (_ & F' & V').
  apply deq_E; [apply fin_nn, F'|apply fin_nn, F|congruence].
Qed.
Lemma moderate_settled d : moderate d -> settled (dround d 1).
Proof. apply dround1_tenth. Qed.
Lemma round_le a b : dle a b = true -> dle (dround a 1) (dround b 1) = true.
Proof. apply dround_mono. lia. Qed.
Lemma le_round a b : settled a -> dle a b = true -> dle a (dround b 1) = true.
Proof. intros A H. eapply dle_trans; [|apply round_le, H]. apply deq_dle. rewrite deq_sym. apply settled_round, A. Qed.
Lemma round_ge a b : settled b -> dle a b = true -> dle (dround a 1) b = true.
Proof. intros A H. eapply dle_trans; [apply round_le, H|]. apply deq_dle. apply settled_round, A. Qed.
Lemma round_nn a : nn a -> nn (dround a 1).
Proof. intro H. exact (proj1 (dle_nn _ _ (round_le a a (dle_refl a H)))). Qed.

(** ** The running minimum and maximum *)
Lemma fold_low kl xs : forall a, dle kl a = true -> (forall x, In x xs -> dle kl x = true) ->
  let r := fold_left (fun l x => maximum (minimum l x) kl) xs a in
  dle kl r = true /\ dle r a = true /\ (forall x, In x xs -> dle r x = true) /\ (r = a \/ In r xs).
Proof.
  induction xs as [|x xs IH]; intros a A H; cbv zeta.
  - cbn [fold_left]. split; [exact A|]. split; [apply dle_refl, (dle_nn _ _ A)|]. split; [intros x []|left; reflexivity].
  - cbn [fold_left]. pose proof (H x (or_introl eq_refl)) as X.
    rewrite (max_keep (minimum a x) kl) by (apply le_min; assumption).
    destruct (IH (minimum a x)) as (R1 & R2 & R3 & R4); [apply le_min; assumption|intros y I; apply H; right; exact I|].
    destruct (min_le a x (proj2 (dle_nn _ _ A)) (proj2 (dle_nn _ _ X))) as (M1 & M2).
    split; [exact R1|]. split; [eapply dle_trans; [exact R2|exact M1]|]. split.
    + intros y [<-|I]; [eapply dle_trans; [exact R2|exact M2]|apply R3, I].
    + destruct R4 as [R4|R4]; [|right; right; exact R4]. rewrite R4. destruct (min_cases a x) as [->| ->]; [left; reflexivity|right; left; reflexivity].
Qed.
Lemma fold_high0 kr xs : forall a, dle a kr = true -> (forall x, In x xs -> dle x kr = true) ->
  let r := fold_left (fun l x => minimum (maximum l x) kr) xs a in
  dle r kr = true /\ dle a r = true /\ (forall x, In x xs -> dle x r = true) /\ (r = a \/ In r xs).
Proof.
  induction xs as [|x xs IH]; intros a A H; cbv zeta.
  - cbn [fold_left]. split; [exact A|]. split; [apply dle_refl, (dle_nn _ _ A)|]. split; [intros x []|left; reflexivity].
  - cbn [fold_left]. pose proof (H x (or_introl eq_refl)) as X.
    rewrite (min_keep (maximum a x) kr) by (apply max_le; assumption).
    destruct (IH (maximum a x)) as (R1 & R2 & R3 & R4); [apply max_le; assumption|intros y I; apply H; right; exact I|].
    destruct (max_ge a x (proj1 (dle_nn _ _ A)) (proj1 (dle_nn _ _ X))) as (M1 & M2).
    split; [exact R1|]. split; [eapply dle_trans; [exact M1|exact R2]|]. split.
    + intros y [<-|I]; [eapply dle_trans; [exact M2|exact R2]|apply R3, I].
    + destruct R4 as [R4|R4]; [|right; right; exact R4]. rewrite R4. destruct (max_cases a x) as [->| ->]; [left; reflexivity|right; left; reflexivity].
Qed.
Lemma fold_high kr xs a : nn a -> xs <> [] -> (forall x, In x xs -> dle x kr = true) ->
  let r := fold_left (fun l x => minimum (maximum l x) kr) xs a in
  dle r kr = true /\ (forall x, In x xs -> dle x r = true) /\ (r = a \/ In r xs \/ (r = kr /\ dlt kr a = true)).
Proof.
  intros A N H. destruct xs as [|x xs]; [congruence|]. clear N. cbv zeta.
  pose proof (H x (or_introl eq_refl)) as X. destruct (dle_nn _ _ X) as (NX & NK).
  destruct (dle a kr) eqn:L.
  - destruct (fold_high0 kr (x :: xs) a L H) as (R1 & R2 & R3 & R4). split; [exact R1|]. split; [exact R3|].
    destruct R4 as [R4|R4]; [left; exact R4|right; left; exact R4].
  - assert (G : dlt kr a = true) by (rewrite dlt_negb_dle by assumption; rewrite L; reflexivity).
    cbn [fold_left]. rewrite (max_keep a x) by (eapply dle_trans; [exact X|apply dlt_dle, G]).
    assert (ST : minimum a kr = kr) by (unfold minimum; rewrite G; reflexivity). rewrite ST.
    destruct (fold_high0 kr xs kr (dle_refl kr NK)) as (R1 & R2 & R3 & R4); [intros y I; apply H; right; exact I|].
    set (r := fold_left (fun l y => minimum (maximum l y) kr) xs kr) in *.
    split; [exact R1|]. split.
    + intros y [<-|I]; [eapply dle_trans; [exact X|exact R2]|apply R3, I].
    + destruct R4 as [R4|R4]; [right; right; split; [exact R4|exact G]|right; left; right; exact R4].
Qed.

(** ** Paths *)
Definition round_pt (pt : double * double) : double * double := (dround (fst pt) 1, dround (snd pt) 1).
Definition seen (k : clip) (pt : double * double) : bool := negb (outside k (fst pt) (snd pt) (fst pt) (snd pt)).
Lemma fold_seen k pts : forall a b c d,
  fold_left (see_point k) pts (a, b, c, d) =
  let vs := filter (seen k) (map round_pt pts) in
  (fold_left (fun l x => maximum (minimum l x) (k_left k)) (map fst vs) a,
   fold_left (fun l x => maximum (minimum l x) (k_upper k)) (map snd vs) b,
   fold_left (fun l x => minimum (maximum l x) (k_right k)) (map fst vs) c,
   fold_left (fun l x => minimum (maximum l x) (k_lower k)) (map snd vs) d).
Proof.
  induction pts as [|pt pts IH]; intros a b c d; [reflexivity|]. cbn [fold_left map filter].
  assert (ST : see_point k (a, b, c, d) pt =
    if seen k (round_pt pt) then (maximum (minimum a (fst (round_pt pt))) (k_left k), maximum (minimum b (snd (round_pt pt))) (k_upper k),
      minimum (maximum c (fst (round_pt pt))) (k_right k), minimum (maximum d (snd (round_pt pt))) (k_lower k)) else (a, b, c, d)).
  { unfold see_point, seen, round_pt, rnd, coordinatePrecision. cbn [fst snd]. destruct (outside _ _ _ _ _); reflexivity. }
  rewrite ST. destruct (seen k (round_pt pt)); rewrite IH; reflexivity.
Qed.

Lemma tenth_fin : is_fin (dec 1 1) = true. Proof. vm_compute. reflexivity. Qed.
Lemma tenth_ge0 : dle dzero (dec 1 1) = true. Proof. vm_compute. reflexivity. Qed.
Lemma plus_tenth_nn k : settled k -> nn (dadd k (dec 1 1)) /\ nn (dsub k (dec 1 1)).
Proof. intro S0. pose proof (settled_fin _ S0) as F. split; [apply (dadd_E _ _ F tenth_fin)|apply (dsub_E _ _ F tenth_fin)]. Qed.

Lemma rounded_settled k k' : moderate_clip k -> rounded k k' ->
  settled (k_left k') /\ settled (k_upper k') /\ settled (k_right k') /\ settled (k_lower k').
Proof. intros (A & B & C & D) (-> & -> & -> & ->). repeat split; apply moderate_settled; assumption. Qed.
Lemma rounded_is k k' : rounded k k' -> k' = round_clip k.
Proof. destruct k'. intros (A & B & C & D). cbn in A, B, C, D. unfold round_clip, rnd, coordinatePrecision. congruence. Qed.

Lemma outside_spec k l u r d : settled (k_left k) -> settled (k_upper k) -> settled (k_right k) -> settled (k_lower k) ->
  nn l -> nn u -> nn r -> nn d ->
  outside k l u r d = false <->
  (dlt (dadd (k_left k) (dec 1 1)) l = true /\ dlt (dadd (k_upper k) (dec 1 1)) u = true /\
   dlt r (dsub (k_right k) (dec 1 1)) = true /\ dlt d (dsub (k_lower k) (dec 1 1)) = true).
Proof.
  intros S1 S2 S3 S4 NL NU NR ND. unfold outside, equalOrSmaller, equalOrLarger, dge, coordsEqualTolerance.
  destruct (plus_tenth_nn _ S1) as (P1 & _), (plus_tenth_nn _ S2) as (P2 & _), (plus_tenth_nn _ S3) as (_ & P3), (plus_tenth_nn _ S4) as (_ & P4).
  rewrite !orb_false_iff.
  rewrite (dlt_negb_dle (dadd (k_left k) (dec 1 1)) l), (dlt_negb_dle (dadd (k_upper k) (dec 1 1)) u),
    (dlt_negb_dle r (dsub (k_right k) (dec 1 1))), (dlt_negb_dle d (dsub (k_lower k) (dec 1 1))) by assumption.
  rewrite !negb_true_iff. tauto.
Qed.
Lemma le_plus k : settled k -> dle k (dadd k (dec 1 1)) = true.
Proof. intro S0. apply dle_dadd_r; [exact tenth_ge0|apply plus_tenth_nn, S0]. Qed.
Lemma minus_le k : settled k -> dle (dsub k (dec 1 1)) k = true.
Proof. intro S0. apply dle_dsub_l; [exact tenth_ge0|apply plus_tenth_nn, S0]. Qed.

(** A rounded coordinate between two clip coordinates is a tenth. *)
Lemma hundred_million : deq (dround (dZ 100000000) 1) (dZ 100000000) = true /\ deq (dround (dopp (dZ 100000000)) 1) (dopp (dZ 100000000)) = true.
Proof. split; vm_compute; reflexivity. Qed.
Lemma moderate_iff x : moderate x <-> dle x (dZ 100000000) = true /\ dle (dopp (dZ 100000000)) x = true.
Proof.
  assert (N8 : nn (dZ 100000000)) by (vm_compute; reflexivity). assert (N8' : nn (dopp (dZ 100000000))) by (vm_compute; reflexivity).
  destruct (dZ_exact 100000000) as [F8 E8]; [lia|].
  assert (E8' : E (dopp (dZ 100000000)) = (- 100000000)%R).
  { rewrite E_fin by (unfold dopp, is_fin; rewrite is_finite_Bopp; exact F8). unfold dopp. rewrite B2R_Bopp. rewrite E_fin in E8 by exact F8. rewrite E8. reflexivity. }
  unfold moderate. split.
  - intro H. destruct (dle_nn _ _ H) as [Hn1 _].
    assert (nn x) as Hn. { unfold nn, is_nan_d, dabs in *. rewrite is_nan_Babs in Hn1. exact Hn1. }
    destruct (dabs_E x Hn) as [_ HA]. apply dle_E in H; auto. rewrite HA, E8 in H. apply Rabs_le_inv in H.
    split; apply dle_E; auto; lra.
  - intros (A & B). destruct (dle_nn _ _ A) as [Hn _]. destruct (dabs_E x Hn) as [Hn2 HA]. apply dle_E in A, B; auto.
    apply dle_E; auto. rewrite HA, E8. apply Rabs_le. lra.
Qed.
Lemma between_settled x0 lo hi : nn x0 -> moderate lo -> moderate hi ->
  dlt (dadd (dround lo 1) (dec 1 1)) (dround x0 1) = true -> dlt (dround x0 1) (dsub (dround hi 1) (dec 1 1)) = true -> settled (dround x0 1).
Proof.
  intros N ML MH L H. apply moderate_settled. apply moderate_iff.
  pose proof (moderate_settled _ ML) as SL. pose proof (moderate_settled _ MH) as SH.
  apply moderate_iff in ML, MH. destruct hundred_million as (U8 & D8).
  assert (N8 : nn (dZ 100000000)) by (vm_compute; reflexivity). assert (N8' : nn (dopp (dZ 100000000))) by (vm_compute; reflexivity).
  split.
  - destruct (dle_total x0 (dZ 100000000) N N8) as [G|G]; [exact G|exfalso].
    assert (A : dle (dround hi 1) (dround x0 1) = true).
    { eapply dle_trans; [apply round_le, (proj1 MH)|apply round_le, G]. }
    assert (B : dlt (dround x0 1) (dround x0 1) = true); [|rewrite dlt_irrefl in B; discriminate].
    eapply dlt_le_trans; [exact H|]. eapply dle_trans; [apply minus_le, SH|exact A].
  - destruct (dle_total (dopp (dZ 100000000)) x0 N8' N) as [G|G]; [exact G|exfalso].
    assert (A : dle (dround x0 1) (dround lo 1) = true).
    { eapply dle_trans; [apply round_le, G|apply round_le, (proj2 ML)]. }
    assert (B : dlt (dround x0 1) (dround x0 1) = true); [|rewrite dlt_irrefl in B; discriminate].
    eapply dle_lt_trans; [|exact L]. eapply dle_trans; [exact A|apply le_plus, SL].
Qed.

Lemma settled_lt_max x : settled x -> dlt x DBL_MAX = true.
Proof.
  intros (k & T). pose proof (tenth_err _ _ T) as [_ T2]. destruct T as (_ & F & _). apply Rabs_le_inv in T2.
  assert (L : dle (dZ 1000000000000) DBL_MAX = true) by (vm_compute; reflexivity).
  eapply dlt_le_trans; [|exact L]. destruct (dZ_exact 1000000000000) as [F8 E8]; [lia|].
  apply dlt_E; [apply fin_nn, F|apply fin_nn, F8|]. rewrite E8. lra.
Qed.
(** A positive tenth is larger than DBL_MIN. *)
Lemma settled_gt_min x : settled x -> dlt dzero x = true -> dlt DBL_MIN x = true.
Proof.
  intros (k & T) P. pose proof (tenth_err _ _ T) as [T1 _]. destruct T as (_ & F & V). apply Rabs_le_inv in T1.
  apply dlt_E in P; [|reflexivity|apply fin_nn, F]. change (E dzero) with 0%R in P.
  assert (K : (1 <= k)%Z).
  { destruct (Z_le_gt_dec 1 k); [assumption|exfalso]. assert (IZR k <= 0)%R by (apply IZR_le; lia).
    assert (rd (IZR k / 10) <= 0)%R; [|lra]. rewrite <- rd_0. apply rd_mono. lra. }
  apply IZR_le in K.
  assert (G : dle DBL_MIN (ddiv (dZ 1) (dZ 1024)) = true) by (vm_compute; reflexivity).
  eapply dle_lt_trans; [exact G|].
  assert (F2 : is_fin (ddiv (dZ 1) (dZ 1024)) = true) by (vm_compute; reflexivity).
  apply dlt_E; [apply fin_nn, F2|apply fin_nn, F|].
  assert (V2 : E (ddiv (dZ 1) (dZ 1024)) = (/ 1024)%R).
  { rewrite E_fin by exact F2. rewrite <- SF2R_B2SF.
    replace (B2SF (ddiv (dZ 1) (dZ 1024))) with (SpecFloat.S754_finite false 4503599627370496 (-62)) by (vm_compute; reflexivity).
    unfold SF2R, F2R. cbn [cond_Zopp Fnum Fexp].
    change (IZR (Z.pos 4503599627370496)) with (4503599627370496)%R. change (bpow radix2 (-62)) with (/ IZR (Zpower_pos 2 62))%R.
    change (Zpower_pos 2 62) with 4611686018427387904. lra. }
  rewrite V2. lra.
Qed.

Lemma low_ok kl xs : settled kl -> xs <> [] -> (forall x, In x xs -> settled x /\ dle kl x = true) ->
  let r := dround (fold_left (fun l x => maximum (minimum l x) kl) xs DBL_MAX) 1 in
  dle kl r = true /\ (forall x, In x xs -> dle r x = true) /\ (exists x, In x xs /\ deq r x = true).
Proof.
  intros SK NE H. cbv zeta.
  destruct (fold_low kl xs DBL_MAX) as (R1 & R2 & R3 & R4); [apply dlt_dle, settled_lt_max, SK|intros x I; apply H, I|].
  set (r := fold_left (fun l x => maximum (minimum l x) kl) xs DBL_MAX) in *.
  assert (I : In r xs).
  { destruct R4 as [R4|R4]; [exfalso|exact R4]. destruct xs as [|x xs]; [congruence|].
    specialize (R3 x (or_introl eq_refl)). rewrite R4 in R3. pose proof (settled_lt_max x (proj1 (H x (or_introl eq_refl)))) as L.
    pose proof (dle_lt_trans _ _ _ R3 L) as X. rewrite dlt_irrefl in X. discriminate. }
  pose proof (settled_round r (proj1 (H r I))) as Q. split; [apply le_round; [exact SK|exact R1]|]. split.
  - intros x J. apply round_ge; [apply H, J|apply R3, J].
  - exists r. split; [exact I|exact Q].
Qed.
Lemma high_ok kr xs : settled kr -> xs <> [] -> (forall x, In x xs -> settled x /\ dle x kr = true) ->
  let r := dround (fold_left (fun l x => minimum (maximum l x) kr) xs DBL_MIN) 1 in
  dle r kr = true /\ (forall x, In x xs -> dle x r = true) /\
  ((exists x, In x xs /\ dlt dzero x = true) -> exists x, In x xs /\ deq r x = true).
Proof.
  intros SK NE H. cbv zeta. assert (NM : nn DBL_MIN) by (vm_compute; reflexivity).
  destruct (fold_high kr xs DBL_MIN NM NE) as (R1 & R3 & R4); [intros x I; apply H, I|].
  set (r := fold_left (fun l x => minimum (maximum l x) kr) xs DBL_MIN) in *.
  split; [apply round_ge; [exact SK|exact R1]|]. split.
  - intros x J. apply le_round; [apply H, J|apply R3, J].
  - intros (x & I & P). pose proof (settled_gt_min x (proj1 (H x I)) P) as L.
    destruct R4 as [R4|[R4|(R4 & G)]].
    + exfalso. specialize (R3 x I). rewrite R4 in R3. pose proof (dle_lt_trans _ _ _ R3 L) as X. rewrite dlt_irrefl in X. discriminate.
    + exists r. split; [exact R4|]. apply settled_round, H, R4.
    + exfalso. pose proof (dle_lt_trans _ _ _ (proj2 (H x I)) G) as X. pose proof (dlt_le_trans _ _ _ X (dlt_dle _ _ L)) as Y. rewrite dlt_irrefl in Y. discriminate.
Qed.

Lemma shape_box_ok s num l u r d :
  fold_left (see_point (round_clip (s_clip s))) (concat (s_path s)) (DBL_MAX, DBL_MAX, DBL_MIN, DBL_MIN) = (l, u, r, d) ->
  shape_box s (mkPos num (rnd l) (rnd u) (rnd r) (rnd d) 0 0).
Proof.
  intros FL MC NU k RK (xv & yv & PV & IV). rewrite <- (rounded_is _ _ RK) in FL.
  destruct (rounded_settled _ _ MC RK) as (S1 & S2 & S3 & S4). destruct MC as (M1 & M2 & M3 & M4).
  rewrite fold_seen in FL. cbv zeta in FL. set (vs := filter (seen k) (map round_pt (concat (s_path s)))) in FL.
  assert (MEM : forall x y, In (x, y) vs <-> (path_point s x y /\ inside k x y)).
  { intros x y. unfold vs. rewrite filter_In. unfold path_point. split.
    - intros (I & SE). apply in_map_iff in I. destruct I as ((x0 & y0) & EQ & I). apply in_concat in I. destruct I as (sub & I1 & I2).
      unfold round_pt in EQ. cbn [fst snd] in EQ. inversion EQ as [[EX EY]]. destruct (NU _ _ _ I1 I2) as (NX & NY).
      split; [exists sub, x0, y0; auto|]. unfold seen in SE. cbn [fst snd] in SE. apply negb_true_iff in SE.
      rewrite ?EX, ?EY in *. apply outside_spec in SE; [exact SE|assumption..| | | |]; rewrite <- ?EX, <- ?EY; apply round_nn; assumption.
    - intros ((sub & x0 & y0 & I1 & I2 & -> & ->) & IN). destruct (NU _ _ _ I1 I2) as (NX & NY). split.
      + apply in_map_iff. exists (x0, y0). split; [reflexivity|]. apply in_concat. eauto.
      + unfold seen. cbn [fst snd]. apply negb_true_iff. apply outside_spec; [assumption..| | | | |exact IN]; apply round_nn; assumption. }
  assert (NE : vs <> []). { intro X. assert (I : In (xv, yv) vs) by (apply MEM; split; assumption). rewrite X in I. exact I. }
  assert (OK : forall x y, In (x, y) vs -> settled x /\ settled y /\ dle (k_left k) x = true /\ dle x (k_right k) = true /\
    dle (k_upper k) y = true /\ dle y (k_lower k) = true).
  { intros x y I. apply MEM in I. destruct I as ((sub & x0 & y0 & I1 & I2 & -> & ->) & (A & B & C & D)). destruct (NU _ _ _ I1 I2) as (NX & NY).
    destruct RK as (K1 & K2 & K3 & K4).
    split; [rewrite K1 in A; rewrite K3 in C; apply (between_settled x0 _ _ NX M1 M3 A C)|].
    split; [rewrite K2 in B; rewrite K4 in D; apply (between_settled y0 _ _ NY M2 M4 B D)|].
    split; [eapply dle_trans; [apply le_plus, S1|apply dlt_dle, A]|].
    split; [eapply dle_trans; [apply dlt_dle, C|apply minus_le, S3]|].
    split; [eapply dle_trans; [apply le_plus, S2|apply dlt_dle, B]|].
    eapply dle_trans; [apply dlt_dle, D|apply minus_le, S4]. }
  assert (NE1 : map fst vs <> []) by (intro X; apply NE; destruct vs; [reflexivity|discriminate]).
  assert (NE2 : map snd vs <> []) by (intro X; apply NE; destruct vs; [reflexivity|discriminate]).
  apply pair_equal_spec in FL. destruct FL as (FL & L4). apply pair_equal_spec in FL. destruct FL as (FL & L3). apply pair_equal_spec in FL. destruct FL as (L1 & L2).
  destruct (low_ok (k_left k) (map fst vs) S1 NE1) as (A1 & A2 & A3).
  { intros x I. apply in_map_iff in I. destruct I as ((x' & y) & <- & I). cbn [fst]. split; apply (OK _ _ I). }
  destruct (low_ok (k_upper k) (map snd vs) S2 NE2) as (B1 & B2 & B3).
  { intros x I. apply in_map_iff in I. destruct I as ((x' & y) & <- & I). cbn [snd]. split; apply (OK _ _ I). }
  destruct (high_ok (k_right k) (map fst vs) S3 NE1) as (C1 & C2 & C3).
  { intros x I. apply in_map_iff in I. destruct I as ((x' & y) & <- & I). cbn [fst]. split; apply (OK _ _ I). }
  destruct (high_ok (k_lower k) (map snd vs) S4 NE2) as (D1 & D2 & D3).
  { intros x I. apply in_map_iff in I. destruct I as ((x' & y) & <- & I). cbn [snd]. split; apply (OK _ _ I). }
  rewrite L1 in A1, A2, A3. rewrite L2 in B1, B2, B3. rewrite L3 in C1, C2, C3. rewrite L4 in D1, D2, D3.
  unfold within_clip, in_box, rnd, coordinatePrecision. cbn [leftX upperY rightX lowerY].
  split; [split; [exact A1|split; [exact B1|split; [exact C1|exact D1]]]|]. split; [|split; [|split; [|split]]].
  - intros x y P I. assert (IN : In (x, y) vs) by (apply MEM; split; assumption).
    split; [apply A2, (in_map fst _ _ IN)|]. split; [apply C2, (in_map fst _ _ IN)|].
    split; [apply B2, (in_map snd _ _ IN)|apply D2, (in_map snd _ _ IN)].
  - destruct A3 as (x & I & Q). apply in_map_iff in I. destruct I as ((x' & y) & X & I). cbn [fst] in X. subst x'. exists x, y. apply MEM in I. tauto.
  - destruct B3 as (x & I & Q). apply in_map_iff in I. destruct I as ((x' & y) & X & I). cbn [snd] in X. subst y. exists x', x. apply MEM in I. tauto.
  - intros (x0 & y0 & P & I0 & Z0). destruct C3 as (x & I & Q).
    { exists x0. split; [|exact Z0]. apply (in_map fst _ (x0, y0)). apply MEM. tauto. }
    apply in_map_iff in I. destruct I as ((x' & y) & X & I). cbn [fst] in X. subst x'. exists x, y. apply MEM in I. tauto.
  - intros (x0 & y0 & P & I0 & Z0). destruct D3 as (x & I & Q).
    { exists y0. split; [|exact Z0]. apply (in_map snd _ (x0, y0)). apply MEM. tauto. }
    apply in_map_iff in I. destruct I as ((x' & y) & X & I). cbn [snd] in X. subst y. exists x', x. apply MEM in I. tauto.
Qed.

(** ** Images *)
Lemma min_le_iff a b x : nn a -> nn b -> dle (minimum a b) x = true <-> dle a x = true \/ dle b x = true.
Proof.
  intros A B. destruct (min_le a b A B) as (L1 & L2). split.
  - destruct (min_cases a b) as [->| ->]; auto.
  - intros [H|H]; [apply (dle_trans _ _ _ L1 H)|apply (dle_trans _ _ _ L2 H)].
Qed.
Lemma max_ge_iff a b x : nn a -> nn b -> dle x (maximum a b) = true <-> dle x a = true \/ dle x b = true.
Proof.
  intros A B. destruct (max_ge a b A B) as (L1 & L2). split.
  - destruct (max_cases a b) as [->| ->]; auto.
  - intros [H|H]; [apply (dle_trans _ _ _ H L1)|apply (dle_trans _ _ _ H L2)].
Qed.
Lemma max_le_iff a b x : nn a -> nn b -> dle (maximum a b) x = true <-> dle a x = true /\ dle b x = true.
Proof.
  intros A B. destruct (max_ge a b A B) as (L1 & L2). split.
  - intro H. split; [apply (dle_trans _ _ _ L1 H)|apply (dle_trans _ _ _ L2 H)].
  - intros (H1 & H2). apply max_le; assumption.
Qed.
Lemma le_min_iff a b x : nn a -> nn b -> dle x (minimum a b) = true <-> dle x a = true /\ dle x b = true.
Proof.
  intros A B. destruct (min_le a b A B) as (L1 & L2). split.
  - intro H. split; [apply (dle_trans _ _ _ H L1)|apply (dle_trans _ _ _ H L2)].
  - intros (H1 & H2). apply le_min; assumption.
Qed.
Lemma between_iff a b x : nn a -> nn b ->
  between_corners a b x <-> (dle (minimum a b) x = true /\ dle x (maximum a b) = true).
Proof.
  intros A B. unfold between_corners. rewrite min_le_iff, max_ge_iff by assumption. split; [tauto|].
  intros ([H1|H1] & [H2|H2]); try tauto.
  - destruct (dle_total x b (proj2 (dle_nn _ _ H1)) B) as [T|T]; [tauto|]. right. split; [exact T|exact H2].
  - destruct (dle_total x a (proj2 (dle_nn _ _ H1)) A) as [T|T]; [tauto|]. left. split; [exact T|exact H2].
Qed.
Lemma graphic_box_ok s num :
  let k := round_clip (s_clip s) in
  let l := rnd (mt4 (s_ctm s)) in let u := rnd (mt5 (s_ctm s)) in
  let r := rnd (dadd l (mt0 (s_ctm s))) in let d := rnd (dadd u (mt3 (s_ctm s))) in
  (outside k l u r d = true -> graphic_box s None) /\
  (outside k l u r d = false -> graphic_box s (Some
    (mkPos num (maximum (minimum l r) (k_left k)) (maximum (minimum u d) (k_upper k))
       (minimum (maximum l r) (k_right k)) (minimum (maximum u d) (k_lower k)) 0 0))).
Proof.
  cbv zeta. unfold rnd, coordinatePrecision.
  split; intros OUT MC k x0 y0 x1 y1 RK (-> & -> & -> & ->) N1 N2 N3 N4;
    rewrite <- (rounded_is _ _ RK) in *; destruct (rounded_settled _ _ MC RK) as (S1 & S2 & S3 & S4).
  - intro IK. apply outside_spec in IK; try assumption. congruence.
  - rewrite outside_spec in OUT by assumption.
    split; [exact OUT|]. destruct OUT as (O1 & O2 & O3 & O4).
    pose proof (fin_nn _ (settled_fin _ S1)) as K1. pose proof (fin_nn _ (settled_fin _ S2)) as K2.
    pose proof (fin_nn _ (settled_fin _ S3)) as K3. pose proof (fin_nn _ (settled_fin _ S4)) as K4.
    set (x0 := dround (mt4 (s_ctm s)) 1) in *. set (y0 := dround (mt5 (s_ctm s)) 1) in *.
    set (x1 := dround (dadd x0 (mt0 (s_ctm s))) 1) in *. set (y1 := dround (dadd y0 (mt3 (s_ctm s))) 1) in *.
    unfold within_clip, in_box. cbn [leftX upperY rightX lowerY].
    split.
    { split; [apply max_ge; [apply nn_min; assumption|assumption]|].
      split; [apply max_ge; [apply nn_min; assumption|assumption]|].
      split; apply min_le; try apply nn_max; assumption. }
    intros x y. rewrite !max_le_iff, !le_min_iff, !between_iff by (try apply nn_min; try apply nn_max; assumption). tauto.
Qed.
