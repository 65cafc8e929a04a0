(** VisualizationProofs.v - lemmas for C77 to C80. *)
From Coq Require Import ZArith NArith Reals Lra Lia Permutation.
From Flocq Require Import Core BinarySingleNaN.
From Verif Require Import Base Double DoubleFacts MathUtils Elements Document Serialization GridProofs FloatFacts FeaturesProofs ImagingSpec ImagingProofs Visualization VisualizationSpec.
From Verif Require NumberSpec NumberProofs JsonProofs ElementsProofs.
Local Open Scope R_scope.
Local Opaque dZ dadd dsub ddiv dmul.

Lemma near_about d x e m : near d x e m -> e <= / 1000000 -> about d x.
Proof. intros (F & A & _) H. split; [exact F|lra]. Qed.
Lemma near_div a z x ea ma : near a x ea ma -> (1 <= z <= 10000)%Z -> 0 <= ma -> 0 <= ea -> ma + ea <= 1000000000000 ->
  near (ddiv a (dZ z)) (x / IZR z) (ea + u * (ma + ea) + u) ma.
Proof.
  intros (F & A & B) Hz M0 E0 ME. destruct (near_Z z) as (FZ & AZ & _); [lia|].
  assert (Z0 : 1 <= IZR z) by (apply IZR_le; lia).
  assert (EZ : B2R (dZ z) = IZR z) by (apply Rabs_le_inv in AZ; lra).
  pose proof (near_abs a x ea ma (conj F (conj A B))) as AB.
  assert (I0 : 0 < / IZR z <= 1). { split; [apply Rinv_0_lt_compat; lra|]. rewrite <- Rinv_1. apply Rinv_le; lra. }
  assert (Q : forall y, Rabs (y / IZR z) <= Rabs y). { intros y. unfold Rdiv. rewrite Rabs_mult, (Rabs_pos_eq (/ IZR z)) by lra. pose proof (Rabs_pos y). nra. }
  destruct (ddiv_R a (dZ z) F FZ) as (FD & ED); [lra| |].
  { rewrite EZ. pose proof big_is. pose proof (Q (B2R a)). lra. }
  split; [exact FD|]. split; [|pose proof (Q x); lra]. rewrite ED, EZ. pose proof (rd_u (B2R a / IZR z)) as R. pose proof (Q (B2R a)) as QA.
  assert (D : Rabs (B2R a / IZR z - x / IZR z) <= ea). { replace (B2R a / IZR z - x / IZR z) with ((B2R a - x) / IZR z) by (field; lra). pose proof (Q (B2R a - x)). lra. }
  apply Rabs_le. apply Rabs_le_inv in R, D. unfold u in *. assert (Rabs (B2R a / IZR z) <= ma + ea) by lra. nra.
Qed.
Lemma near_TOL : near TOL (/ 10000) (/ 100000000000) 1.
Proof.
  change TOL with (ddiv (dZ 1) (dZ 10000)). assert (N1 : near (dZ 1) 1 0 1) by (destruct (near_Z 1 ltac:(lia)) as (F & A & _); split; [exact F|]; split; [exact A|rewrite Rabs_R1; lra]).
  pose proof (near_div _ 10000 _ _ _ N1 ltac:(lia) ltac:(lra) ltac:(lra) ltac:(lra)) as N. eapply near_eq; [eapply near_weak; [exact N| |]|]; unfold u; lra.
Qed.
Local Opaque TOL dec.

Lemma threshold : near (dsub (dZ 1) TOL) (9999 / 10000) (/ 10000000000) 2.
Proof.
  assert (N1 : near (dZ 1) 1 0 1). { destruct (near_Z 1 ltac:(lia)) as (F & A & _). split; [exact F|]. split; [exact A|rewrite Rabs_R1; lra]. }
  eapply near_eq; [eapply near_weak; [apply (near_sub _ _ _ _ _ _ _ _ N1 near_TOL); lra| |]|]; unfold u; lra.
Qed.
Lemma dabs_near d x e m : near d x e m -> near (dabs d) (Rabs x) e m.
Proof.
  intros (F & A & B). destruct (dabs_E d (fin_nn _ F)) as (N & HE). rewrite (E_fin d F) in HE.
  assert (FA : is_fin (dabs d) = true). { destruct d; try discriminate F; reflexivity. }
  rewrite (E_fin _ FA) in HE. split; [exact FA|]. split; [rewrite HE; pose proof (Rabs_triang_inv2 (B2R d) x); lra|rewrite Rabs_Rabsolu; exact B].
Qed.
(** Whether a side is extended. *)
Lemma short d x e m : near d x e m -> e <= / 10000000 ->
  if smaller (dabs d) (dZ 1) TOL then Rabs x < 1 else 99985 / 100000 <= Rabs x.
Proof.
  intros N HE. destruct (dabs_near _ _ _ _ N) as (FA & A & _). destruct threshold as (FT & T & _). unfold smaller.
  pose proof (dlt_E (dabs d) (dsub (dZ 1) TOL) (fin_nn _ FA) (fin_nn _ FT)) as L. pose proof (dlt_Ef (dabs d) (dsub (dZ 1) TOL) (fin_nn _ FA) (fin_nn _ FT)) as LF.
  rewrite (E_fin _ FA), (E_fin _ FT) in L, LF. apply Rabs_le_inv in A, T. destruct (dlt (dabs d) (dsub (dZ 1) TOL)).
  - pose proof (proj1 L eq_refl). lra.
  - pose proof (proj1 LF eq_refl). lra.
Qed.
Lemma near_small z : (0 <= z <= 100)%Z -> near (dZ z) (IZR z) 0 100.
Proof.
  intros H. destruct (near_Z z ltac:(lia)) as (F & A & _). split; [exact F|]. split; [exact A|]. rewrite Rabs_pos_eq by (apply IZR_le; lia). apply IZR_le; lia.
Qed.
Definition MM : R := 1000000.
Definition e0 : R := / 10000000.

Lemma bounding_box_ok media on h p c : media on = Some h -> on_sheet h p ->
  exists a, bounding_box media on p c = Ok [(on, a)] /\ frame c h p a.
Proof.
  intros EM (Hh & Hl & Hu & Hr & Hb & LR & UL). unfold bounding_box, get_page. rewrite EM. cbn [obind]. cbv zeta.
  eexists. split; [reflexivity|]. apply near_in in Hh, Hl, Hu, Hr, Hb.
  pose proof (near_sub _ _ _ _ _ _ _ _ Hh Hb ltac:(lra)) as NB. pose proof (near_sub _ _ _ _ _ _ _ _ Hh Hu ltac:(lra)) as NU.
  pose proof (near_sub _ _ _ _ _ _ _ _ Hl Hr ltac:(lra)) as NX. pose proof (near_sub _ _ _ _ _ _ _ _ NB NU ltac:(unfold u; lra)) as NY.
  pose proof (near_weak _ _ _ _ (/ 100000000) 2000000 NB ltac:(unfold u; lra) ltac:(lra)) as NB'. pose proof (near_weak _ _ _ _ (/ 100000000) 2000000 NU ltac:(unfold u; lra) ltac:(lra)) as NU'.
  pose proof (short _ _ _ _ NX ltac:(unfold u; lra)) as SX. pose proof (short _ _ _ _ NY ltac:(unfold u; lra)) as SY. clear NX NY NB NU.
  pose proof (near_add _ _ _ _ _ _ _ _ Hr (near_small 1 ltac:(lia)) ltac:(lra)) as N1. pose proof (near_add _ _ _ _ _ _ _ _ NU' (near_small 1 ltac:(lia)) ltac:(lra)) as N2.
  pose proof (near_weak _ _ _ _ (/ 10000000) 2000000 N1 ltac:(unfold u; lra) ltac:(lra)) as N1'. pose proof (near_weak _ _ _ _ (/ 10000000) 3000000 N2 ltac:(unfold u; lra) ltac:(lra)) as N2'. clear N1 N2.
  unfold frame. eexists. split; [reflexivity|]. cbn [x1 y1 x2 y2]. split; [reflexivity|]. split; [exact (near_about _ _ _ _ NB' ltac:(lra))|].
  rewrite Rabs_left1 in SX by lra. rewrite Rabs_left1 in SY by lra.
  destruct Hl as (Fl & Al & _), Hr as (Fr & Ar & _). destruct NB' as (Fb & Ab & Mb), NU' as (Fu & Au & Mu), N1' as (F1 & A1 & M1), N2' as (F2 & A2 & M2).
  pose proof Ab as Ab'. pose proof Au as Au'. pose proof A1 as A1'. pose proof A2 as A2'. apply Rabs_le_inv in Ab', Au', A1', A2'.
  split; [destruct (smaller _ _ _); [lra|reflexivity]|]. split; [destruct (smaller (dabs (dsub (dsub h _) _)) _ _); [lra|intros _; split; [exact Fu|lra]]|].
  split. { destruct (smaller (dabs (dsub (leftX p) _)) _ _); [exists 1|exists 0]; (split; [lra|]); split; try assumption; rewrite ?Rplus_0_r, ?Rminus_eq_0, ?Rabs_R0; lra. }
  split. { destruct (smaller (dabs (dsub (dsub h _) _)) _ _); [exists 1|exists 0]; (split; [lra|]); split; try assumption; rewrite ?Rplus_0_r; lra. }
  split; [destruct (smaller (dabs (dsub (leftX p) _)) _ _); lra|destruct (smaller (dabs (dsub (dsub h _) _)) _ _); lra].
Qed.

(** ** Lists *)
Lemma each_ok {A} (f : A -> outcome (list placed)) (P : A -> list placed -> Prop) l :
  (forall x, In x l -> exists r, f x = Ok r /\ P x r) -> exists rs, each f l = Ok (concat rs) /\ Forall2 P l rs.
Proof.
  induction l as [|x l IH]; intros H; [exists []; split; [reflexivity|constructor]|].
  destruct (H x (or_introl eq_refl)) as (r & E & Pr). destruct IH as (rs & ES & F); [intros y I; apply H; right; exact I|].
  exists (r :: rs). cbn [each]. rewrite E, ES. split; [reflexivity|]. constructor; assumption.
Qed.
Lemma each_single {A} (f : A -> outcome (list placed)) (P : A -> placed -> Prop) l :
  (forall x, In x l -> exists a, f x = Ok [a] /\ P x a) -> exists r, each f l = Ok r /\ Forall2 P l r.
Proof.
  induction l as [|x l IH]; intros H; [exists []; split; [reflexivity|constructor]|].
  destruct (H x (or_introl eq_refl)) as (a & E & Pr). destruct IH as (r & ES & F); [intros y I; apply H; right; exact I|].
  exists (a :: r). cbn [each]. rewrite E, ES. split; [reflexivity|]. constructor; assumption.
Qed.
Lemma each_flat {A B} (f : A -> outcome (list placed)) (g : B -> list A) l (P : A -> placed -> Prop) :
  (forall x, In x (flat_map g l) -> exists a, f x = Ok [a] /\ P x a) ->
  exists r, each (fun y => each f (g y)) l = Ok r /\ Forall2 P (flat_map g l) r.
Proof.
  induction l as [|y l IH]; intros H; [exists []; split; [reflexivity|constructor]|]. cbn [flat_map] in H.
  destruct (each_single f P (g y)) as (r & E & F); [intros x I; apply H, in_or_app; left; exact I|].
  destruct IH as (r' & E' & F'); [intros x I; apply H, in_or_app; right; exact I|].
  exists (r ++ r')%list. cbn [each flat_map]. rewrite E, E'. split; [reflexivity|]. apply Forall2_app; assumption.
Qed.

(** ** Text *)
Lemma convert_reads enc s : standard_encoding enc -> Forall printable s -> reads (convertToUtf16 enc s) s.
Proof.
  intros SE HP. unfold convertToUtf16, reads. eexists. split; [reflexivity|]. induction HP as [|c s P _ IH]; [reflexivity|].
  cbn [flat_map app units map]. unfold printable in P. rewrite (SE _ P). cbv zeta. rewrite IH. cbn [option_map]. f_equal. f_equal.
  assert (L : forall n, (32 <= n <= 126)%N -> (256 * N_of_ascii (ascii_of_N (N.land (N.shiftr (N.land n 65535) 8) 255)) + N_of_ascii (ascii_of_N (N.land (N.land n 65535) 255)))%N = n).
  { intros n Hn. assert (X : exists k, (k < 127)%nat /\ n = N.of_nat k) by (exists (N.to_nat n); lia). destruct X as (k & Hk & ->). clear Hn.
    do 127 (destruct k as [|k]; [vm_compute; reflexivity|]). lia. }
  apply L. exact P.
Qed.
Lemma units_length enc s : units (skipn 2 (convertToUtf16 enc s)) = Some (map (fun c => N.land (enc (N_of_ascii c)) 65535) s).
Proof.
  unfold convertToUtf16. cbn [skipn]. induction s as [|c s IH]; [reflexivity|]. cbn [flat_map app units map]. rewrite IH. cbn [option_map]. f_equal. f_equal. cbv zeta.
  set (v := N.land (enc (N_of_ascii c)) 65535). assert (V : (v < 65536)%N). { unfold v. change 65535%N with (N.ones 16). rewrite N.land_ones. apply N.mod_lt. lia. }
  change 255%N with (N.ones 8). rewrite !N.land_ones, N.shiftr_div_pow2. change (2 ^ 8)%N with 256%N.
  assert (VD : (v / 256 < 256)%N) by (apply N.div_lt_upper_bound; lia). rewrite (N.mod_small (v / 256)) by exact VD.
  rewrite !N_ascii_embedding; [|apply N.mod_lt; lia|exact VD]. symmetry. apply N.div_mod. lia.
Qed.
Lemma number_printable z : (0 <= z)%Z -> Forall printable (print_Z z).
Proof.
  assert (D : forall c, SerializationSpec.is_digit c -> printable c).
  { intros c H. unfold printable. unfold SerializationSpec.is_digit, nat_of_ascii in H. lia. }
  intros H. unfold print_Z. destruct (Z.ltb_spec z 0); [lia|]. destruct (JsonProofs.dec_digits_ok (Z.to_N z)) as (c & t & -> & Dc & Dt & _).
  constructor; [apply D, Dc|]. eapply Forall_impl; [exact D|exact Dt].
Qed.
Lemma number_shown enc i : standard_encoding enc -> shows_number i (convertToUtf16 enc (print_Z (Z.of_nat i))).
Proof. intros SE. exists (print_Z (Z.of_nat i)). split; [apply convert_reads; [exact SE|apply number_printable; lia]|apply NumberProofs.print_Z_decimal]. Qed.
Lemma role_printable : Forall (Forall printable) SEMANTIC_ROLE_NAMES.
Proof.
  assert (X : forallb (forallb (fun c => (32 <=? N_of_ascii c)%N && (N_of_ascii c <=? 126)%N)) SEMANTIC_ROLE_NAMES = true) by (vm_compute; reflexivity).
  apply Forall_forall. intros s I. rewrite forallb_forall in X. specialize (X s I). apply Forall_forall. intros c J. rewrite forallb_forall in X. specialize (X c J).
  apply andb_true_iff in X. destruct X as (A & B). apply N.leb_le in A. apply N.leb_le in B. split; assumption.
Qed.

(** ** Labels *)
Lemma role_ok media enc h b : media (pageNum (vb_pos b)) = Some h -> on_sheet h (vb_pos b) -> standard_encoding enc -> (vb_role b < 14)%nat ->
  exists a, drawSemanticRole media enc b = Ok [(pageNum (vb_pos b), a)] /\ role_label h b a.
Proof.
  intros EM (Hh & Hl & Hu & Hr & Hb & LR & UL) SE HR. unfold drawSemanticRole, get_page. rewrite EM. cbn [obind]. cbv zeta.
  assert (L14 : length SEMANTIC_ROLE_NAMES = 14%nat) by reflexivity.
  destruct (nth_error SEMANTIC_ROLE_NAMES (vb_role b)) as [name|] eqn:EN; [|apply nth_error_None in EN; lia].
  unfold getSemanticRoleName, name_of. rewrite EN. cbn [obind]. eexists. split; [reflexivity|]. unfold role_label. do 4 eexists. split; [reflexivity|]. split; [exact EN|].
  split. { apply convert_reads; [exact SE|]. pose proof role_printable as RP. rewrite Forall_forall in RP. apply RP. eapply nth_error_In. exact EN. }
  cbn [x1 y1 x2 y2]. split; [reflexivity|]. apply near_in in Hh, Hl, Hu, Hr, Hb.
  pose proof (near_sub _ _ _ _ _ _ _ _ Hh Hu ltac:(lra)) as NU. pose proof (near_weak _ _ _ _ (/ 100000000) 2000000 NU ltac:(unfold u; lra) ltac:(lra)) as NU'.
  pose proof (near_add _ _ _ _ _ _ _ _ Hl (near_small 100 ltac:(lia)) ltac:(lra)) as N1. pose proof (near_add _ _ _ _ _ _ _ _ NU' (near_small 7 ltac:(lia)) ltac:(lra)) as N2.
  split; [exact (near_about _ _ _ _ NU' ltac:(lra))|]. split; [exact (near_about _ _ _ _ N1 ltac:(unfold u; lra))|exact (near_about _ _ _ _ N2 ltac:(unfold u; lra))].
Qed.

(** ** Reading order *)
Lemma midpoint_near h p : on_sheet h p -> near (fst (midpoint h p)) (midX p) (/ 10000000) 10000000 /\ near (snd (midpoint h p)) (midY h p) (/ 10000000) 10000000.
Proof.
  intros (Hh & Hl & Hu & Hr & Hb & LR & UL). apply near_in in Hh, Hl, Hu, Hr, Hb. unfold midpoint. cbn [fst snd].
  pose proof (near_sub _ _ _ _ _ _ _ _ Hr Hl ltac:(lra)) as NX. pose proof (near_weak _ _ _ _ (/ 100000000) 2000000 NX ltac:(unfold u; lra) ltac:(lra)) as NX'.
  pose proof (near_div _ 2 _ _ _ NX' ltac:(lia) ltac:(lra) ltac:(lra) ltac:(lra)) as DX.
  pose proof (near_weak _ _ _ _ (/ 50000000) 2000000 DX ltac:(unfold u; lra) ltac:(lra)) as DX'.
  pose proof (near_add _ _ _ _ _ _ _ _ Hl DX' ltac:(lra)) as MX.
  pose proof (near_sub _ _ _ _ _ _ _ _ Hh Hb ltac:(lra)) as NB. pose proof (near_weak _ _ _ _ (/ 400000000) 2000000 NB ltac:(unfold u; lra) ltac:(lra)) as NB'.
  pose proof (near_sub _ _ _ _ _ _ _ _ Hh Hu ltac:(lra)) as NU. pose proof (near_weak _ _ _ _ (/ 400000000) 2000000 NU ltac:(unfold u; lra) ltac:(lra)) as NU'.
  pose proof (near_sub _ _ _ _ _ _ _ _ NU' NB' ltac:(lra)) as NY. pose proof (near_weak _ _ _ _ (/ 50000000) 4000000 NY ltac:(unfold u; lra) ltac:(lra)) as NY'.
  pose proof (near_div _ 2 _ _ _ NY' ltac:(lia) ltac:(lra) ltac:(lra) ltac:(lra)) as DY.
  pose proof (near_weak _ _ _ _ (/ 25000000) 4000000 DY ltac:(unfold u; lra) ltac:(lra)) as DY'.
  pose proof (near_add _ _ _ _ _ _ _ _ NB' DY' ltac:(lra)) as MY.
  split; (eapply near_eq; [eapply near_weak; [first [exact MX|exact MY]| |]|]); try (unfold u; lra); unfold midX, midY; change (IZR 2) with 2; field.
Qed.
Lemma near_radius : near RADIUS 5 0 100. Proof. apply (near_small 5). lia. Qed.
Lemma near_06 : near (dmul RADIUS (dec 6 1)) 3 (/ 100000000) 100.
Proof.
  Local Transparent dec. change (dec 6 1) with (ddiv (dZ 6) (dZ 10)). Local Opaque dec.
  pose proof (near_small 6 ltac:(lia)) as N6. pose proof (near_div _ 10 _ _ _ N6 ltac:(lia) ltac:(lra) ltac:(lra) ltac:(lra)) as D.
  assert (N : near (ddiv (dZ 6) (dZ 10)) (6 / 10) (/ 10000000000) 1).
  { destruct D as (F & A & _). split; [exact F|]. split; [unfold u in A; lra|]. rewrite Rabs_pos_eq; lra. }
  assert (N5 : near RADIUS 5 0 5). { destruct near_radius as (F & A & _). split; [exact F|]. split; [exact A|rewrite Rabs_pos_eq; lra]. }
  pose proof (near_mul _ _ _ _ _ _ _ _ N5 N ltac:(lra)) as N'. eapply near_eq; [eapply near_weak; [exact N'| |]|]; unfold u; lra.
Qed.
Lemma circle_ok enc on s h p x y i : near x (midX p) (/ 10000000) 10000000 -> near y (midY h p) (/ 10000000) 10000000 -> standard_encoding enc ->
  exists a b, drawIndexCircle enc on s x y i = [(on, a); (on, b)] /\ circled (s, Primary) h p a /\ index h p i b.
Proof.
  intros NX NY SE. unfold drawIndexCircle. do 2 eexists. split; [reflexivity|]. pose proof near_radius as NR. pose proof near_06 as N6.
  pose proof (near_sub _ _ _ _ _ _ _ _ NX NR ltac:(lra)) as A. pose proof (near_sub _ _ _ _ _ _ _ _ NY NR ltac:(lra)) as B.
  pose proof (near_add _ _ _ _ _ _ _ _ NX NR ltac:(lra)) as C. pose proof (near_add _ _ _ _ _ _ _ _ NY NR ltac:(lra)) as D.
  pose proof (near_add _ _ _ _ _ _ _ _ NY N6 ltac:(lra)) as D6.
  apply near_about in A; [|unfold u; lra]. apply near_about in B; [|unfold u; lra]. apply near_about in C; [|unfold u; lra]. apply near_about in D; [|unfold u; lra]. apply near_about in D6; [|unfold u; lra].
  split. { unfold circled. eexists. split; [reflexivity|]. cbn [x1 y1 x2 y2]. repeat (split; [assumption|]). assumption. }
  unfold index. do 3 eexists. split; [reflexivity|]. split; [apply number_shown; exact SE|]. cbn [x1 y1 x2 y2]. repeat (split; [assumption|]). assumption.
Qed.

Lemma order_from_ok media enc s n h : media n = Some h -> standard_encoding enc -> forall l prev i,
  (forall b, In b (prev :: l) -> pageNum (vb_pos b) = n /\ on_sheet h (vb_pos b)) ->
  exists r, readingOrder_from media enc s i prev l = Ok r /\ Forall (fun a => fst a = n) r /\ filter is_square r = [] /\ filter (is_text false) r = [] /\
    Forall2 (fun pq a => joins (s, Secondary) h (fst pq) (snd pq) (snd a)) (pairs (map vb_pos (prev :: l))) (filter is_line r) /\
    match l with
    | [] => r = []
    | _ => Forall2 (fun b a => circled (s, Primary) h b (snd a)) (map vb_pos (prev :: l)) (filter is_circle r) /\
           Forall2 (fun ib a => index h (snd ib) (fst ib) (snd a)) (combine (seq i (S (length l))) (map vb_pos (prev :: l))) (filter (is_text true) r)
    end.
Proof.
  intros EM SE l. induction l as [|curr l IH]; intros prev i H.
  - exists []. repeat split; constructor.
  - destruct (H prev (or_introl eq_refl)) as (_ & SP). destruct (H curr (or_intror (or_introl eq_refl))) as (EC & SC).
    destruct (IH curr (S i)) as (r & ER & HF & QS & QT & QL & QR); [intros b I; apply H; right; exact I|]. clear IH.
    cbn [readingOrder_from]. rewrite EC. unfold get_page. rewrite EM. cbn [obind].
    destruct (midpoint_near h _ SP) as (PX & PY). destruct (midpoint_near h _ SC) as (CX & CY).
    destruct (midpoint h (vb_pos prev)) as [px py]. destruct (midpoint h (vb_pos curr)) as [cx cy]. cbn [fst snd] in *. rewrite ER. cbn [obind].
    destruct (circle_ok enc n s h _ px py i PX PY SE) as (a & b & EA & CA & CB). destruct (circle_ok enc n s h _ cx cy (i + 1) CX CY SE) as (a' & b' & EA' & CA' & CB').
    rewrite EA, EA'. clear EA EA'. eexists. split; [reflexivity|].
    assert (J : joins (s, Secondary) h (vb_pos prev) (vb_pos curr) (Line (mkRect px py cx cy) (mkRect px py cx cy) LINE_WIDTH (s, Secondary))).
    { unfold joins. do 2 eexists. split; [reflexivity|]. cbn [x1 y1 x2 y2]. split; [exact (near_about _ _ _ _ PX ltac:(lra))|]. split; [exact (near_about _ _ _ _ PY ltac:(lra))|].
      split; [exact (near_about _ _ _ _ CX ltac:(lra))|exact (near_about _ _ _ _ CY ltac:(lra))]. }
    pose proof CA as CA0. pose proof CB as CB0. pose proof CA' as CA0'. pose proof CB' as CB0'.
    destruct CA0 as (ra & -> & _), CA0' as (ra' & -> & _), CB0 as (rb & lb & sb & -> & _), CB0' as (rb' & lb' & sb' & -> & _).
    destruct l as [|d l].
    + subst r. cbn [app]. split; [repeat constructor|]. split; [reflexivity|]. split; [reflexivity|]. cbn [filter is_line is_circle is_text snd Bool.eqb pairs map tl combine].
      split; [constructor; [exact J|constructor]|]. split; [constructor; [exact CA|constructor; [exact CA'|constructor]]|].
      cbn [length seq combine]. constructor; [exact CB|]. constructor; [|constructor]. cbn [fst snd]. rewrite Nat.add_1_r in CB'. exact CB'.
    + destruct QR as (QC & QI). cbn [app]. split; [repeat (constructor; [reflexivity|]); exact HF|].
      cbn [filter is_square is_line is_circle is_text snd Bool.eqb]. split; [exact QS|]. split; [exact QT|].
      split; [cbn [map pairs tl combine]; constructor; [exact J|exact QL]|]. split; [cbn [map]; constructor; [exact CA|exact QC]|].
      cbn [length seq combine map]. constructor; [exact CB|exact QI].
Qed.
Lemma order_ok media enc s p n h : media n = Some h -> standard_encoding enc -> (forall b, In b (vp_blocks p) -> pageNum (vb_pos b) = n /\ on_sheet h (vb_pos b)) ->
  exists r, drawReadingOrder media enc s (vp_blocks p) = Ok r /\ Forall (fun a => fst a = n) r /\ filter is_square r = [] /\ filter (is_text false) r = [] /\ order_drawn s p h r.
Proof.
  intros EM SE H. unfold drawReadingOrder, order_drawn. destruct (vp_blocks p) as [|b l].
  - exists []. split; [reflexivity|]. repeat split; try constructor. all: cbn [length map] in *; lia.
  - destruct (order_from_ok media enc s n h EM SE l b 1 H) as (r & ER & HF & QS & QT & QL & QR). exists r. split; [exact ER|]. split; [exact HF|]. split; [exact QS|]. split; [exact QT|].
    cbv zeta. split; [exact QL|]. destruct l as [|c l].
    + subst r. cbn [length map]. split; [lia|]. intros _. split; reflexivity.
    + cbn [length map]. split; [intros _|lia]. rewrite map_length. exact QR.
Qed.
(** The boxes and the roles. *)
Lemma frames_squares {A} (pos : A -> position) c h l r : Forall2 (fun b a => frame c h (pos b) (snd a)) l r ->
  filter is_square r = r /\ filter (is_text false) r = [] /\ filter (is_text true) r = [] /\ filter is_line r = [] /\ filter is_circle r = [].
Proof.
  induction 1 as [|b [n a] l r (q & E & _) _ (I1 & I2 & I3 & I4 & I5)]; [repeat split|]. cbn [snd] in E. subst a. cbn [filter is_square is_text is_line is_circle snd]. rewrite I1, I2, I3, I4, I5. repeat split.
Qed.
Lemma labels_texts h l r : Forall2 (fun b a => role_label h b (snd a)) l r ->
  filter is_square r = [] /\ filter (is_text false) r = r /\ filter (is_text true) r = [] /\ filter is_line r = [] /\ filter is_circle r = [].
Proof.
  induction 1 as [|b [n a] l r (q & k & t & m & E & _) _ (I1 & I2 & I3 & I4 & I5)]; [repeat split|]. cbn [snd] in E. subst a. cbn [filter is_square is_text is_line is_circle snd Bool.eqb]. rewrite I1, I2, I3, I4, I5. repeat split.
Qed.
Lemma blocks_ok media enc s p n h : standard_encoding enc -> blocks_fine media p n h ->
  exists a b, each (fun b => drawBoundingBox media s (vb_pos b)) (vp_blocks p) = Ok a /\ each (drawSemanticRole media enc) (vp_blocks p) = Ok b /\
    Forall (fun x => fst x = n) (a ++ b) /\ Forall2 (fun b a => frame (s, Primary) h (vb_pos b) (snd a)) (vp_blocks p) a /\ Forall2 (fun b a => role_label h b (snd a)) (vp_blocks p) b.
Proof.
  intros SE HB.
  destruct (each_single (fun b => drawBoundingBox media s (vb_pos b)) (fun b a => fst a = n /\ frame (s, Primary) h (vb_pos b) (snd a)) (vp_blocks p)) as (a & EA & FA).
  { intros b I. destruct (HB b I) as (EN & (EM & OS) & _). destruct (bounding_box_ok media _ h _ (s, Primary) EM OS) as (x & EX & FX). exists (pageNum (vb_pos b), x). split; [exact EX|]. split; [exact EN|exact FX]. }
  destruct (each_single (drawSemanticRole media enc) (fun b a => fst a = n /\ role_label h b (snd a)) (vp_blocks p)) as (b & EB & FB).
  { intros b I. destruct (HB b I) as (EN & (EM & OS) & HR). destruct (role_ok media enc h b EM OS SE HR) as (x & EX & FX). exists (pageNum (vb_pos b), x). split; [exact EX|]. split; [exact EN|exact FX]. }
  exists a, b. split; [exact EA|]. split; [exact EB|]. split.
  { apply Forall_app. split; [clear -FA|clear -FB]; [induction FA as [|? ? ? ? (E & _)]|induction FB as [|? ? ? ? (E & _)]]; constructor; assumption. }
  split; [clear -FA|clear -FB]; [induction FA as [|? ? ? ? (_ & E)]|induction FB as [|? ? ? ? (_ & E)]]; constructor; assumption.
Qed.

(** ** Cuts *)
Lemma cut_ok media enc s k c : standard_encoding enc -> cut_fine media c -> exists l, drawCut media enc s k c = Ok l /\ drawn_cut media s c (S k) l.
Proof.
  intros SE ((h & EM & Hh) & H1 & H2 & H3 & H4 & HI). unfold drawCut, get_page. rewrite EM. cbn [obind]. cbv zeta. eexists. split; [reflexivity|].
  exists h. split; [exact EM|]. apply near_in in Hh, H1, H2, H3, H4. pose proof (near_small 5 ltac:(lia) : near CUT_RADIUS 5 0 100) as NR.
  pose proof (near_sub _ _ _ _ _ _ _ _ Hh H2 ltac:(lra)) as Y1. pose proof (near_weak _ _ _ _ (/ 100000000) 2000000 Y1 ltac:(unfold u; lra) ltac:(lra)) as Y1'. clear Y1.
  pose proof (near_sub _ _ _ _ _ _ _ _ Hh H4 ltac:(lra)) as Y2. pose proof (near_weak _ _ _ _ (/ 100000000) 2000000 Y2 ltac:(unfold u; lra) ltac:(lra)) as Y2'. clear Y2.
  assert (CL : cut_line s h c (Line (mkRect (vc_x1 c) (dsub h (vc_y1 c)) (vc_x2 c) (dsub h (vc_y2 c))) (mkRect (vc_x1 c) (dsub h (vc_y1 c)) (vc_x2 c) (dsub h (vc_y2 c))) CUT_WIDTH (if vc_chosen c then s else Gray, Primary))).
  { unfold cut_line. do 2 eexists. split; [reflexivity|]. cbn [x1 y1 x2 y2]. split; [reflexivity|]. split; [exact (near_about _ _ _ _ Y1' ltac:(lra))|]. split; [reflexivity|exact (near_about _ _ _ _ Y2' ltac:(lra))]. }
  assert (CI : cut_id h c (FreeText (mkRect (if vc_x c then dsub (vc_x2 c) (ddiv (dZ 20) (dZ 2)) else dsub (vc_x2 c) (dZ 20)) (if vc_x c then dsub (dsub h (vc_y2 c)) (dZ 10) else dsub h (vc_y2 c))
       (dadd (if vc_x c then dsub (vc_x2 c) (ddiv (dZ 20) (dZ 2)) else dsub (vc_x2 c) (dZ 20)) (dZ 20)) (dadd (if vc_x c then dsub (dsub h (vc_y2 c)) (dZ 10) else dsub h (vc_y2 c)) (dZ 10)))
       CUT_ID_APPEARANCE (convertToUtf16 enc (vc_id c)) true)).
  { unfold cut_id. do 3 eexists. split; [reflexivity|]. split; [apply convert_reads; assumption|]. cbn [x1 y1 x2 y2].
    pose proof (near_small 20 ltac:(lia)) as N20. pose proof (near_small 10 ltac:(lia)) as N10.
    pose proof (near_div _ 2 _ _ _ N20 ltac:(lia) ltac:(lra) ltac:(lra) ltac:(lra)) as D.
    assert (MX : near (if vc_x c then dsub (vc_x2 c) (ddiv (dZ 20) (dZ 2)) else dsub (vc_x2 c) (dZ 20)) (B2R (vc_x2 c) - (if vc_x c then 10 else 20)) (/ 100000000) 2000000).
    { destruct (vc_x c).
      - pose proof (near_sub _ _ _ _ _ _ _ _ H3 D ltac:(unfold u; lra)) as N. eapply near_eq; [eapply near_weak; [exact N| |]|]; try (unfold u; lra).
      - pose proof (near_sub _ _ _ _ _ _ _ _ H3 N20 ltac:(lra)) as N. eapply near_weak; [exact N| |]; unfold u; lra. }
    assert (MY : near (if vc_x c then dsub (dsub h (vc_y2 c)) (dZ 10) else dsub h (vc_y2 c)) (B2R h - B2R (vc_y2 c) - (if vc_x c then 10 else 0)) (/ 10000000) 3000000).
    { destruct (vc_x c).
      - pose proof (near_sub _ _ _ _ _ _ _ _ Y2' N10 ltac:(lra)) as N. eapply near_weak; [exact N| |]; unfold u; lra.
      - eapply near_eq; [eapply near_weak; [exact Y2'| |]|]; lra. }
    pose proof (near_add _ _ _ _ _ _ _ _ MX N20 ltac:(lra)) as MX2. pose proof (near_add _ _ _ _ _ _ _ _ MY N10 ltac:(lra)) as MY2.
    apply near_about in MX; [|lra]. apply near_about in MY; [|lra]. apply near_about in MX2; [|unfold u; lra]. apply near_about in MY2; [|unfold u; lra].
    split; [exact MX|]. split; [exact MY|]. split; [destruct MX2 as (F & A)|destruct MY2 as (F & A)]; (split; [exact F|]);
      (match goal with |- Rabs (?x - ?y) <= _ => match type of A with Rabs (?x' - ?z) <= _ => replace (x - y) with (x' - z); [exact A|destruct (vc_x c); ring] end end). }
  split.
  { constructor; [reflexivity|]. apply Forall_app. split; [destruct (vc_chosen c); repeat constructor|repeat constructor]. }
  destruct (vc_chosen c); cbn [map snd app].
  - do 4 eexists. split; [reflexivity|]. split; [exact CL|]. pose proof near_06 as N6. change CUT_RADIUS with RADIUS in *.
    pose proof (near_sub _ _ _ _ _ _ _ _ H1 NR ltac:(lra)) as A. pose proof (near_sub _ _ _ _ _ _ _ _ Y1' NR ltac:(lra)) as B.
    pose proof (near_add _ _ _ _ _ _ _ _ H1 NR ltac:(lra)) as C. pose proof (near_add _ _ _ _ _ _ _ _ Y1' NR ltac:(lra)) as D.
    pose proof (near_add _ _ _ _ _ _ _ _ Y1' N6 ltac:(lra)) as D6.
    apply near_about in A; [|unfold u; lra]. apply near_about in B; [|unfold u; lra]. apply near_about in C; [|unfold u; lra]. apply near_about in D; [|unfold u; lra]. apply near_about in D6; [|unfold u; lra].
    split. { unfold cut_square. eexists. split; [reflexivity|]. cbn [x1 y1 x2 y2]. split; [exact A|]. split; [exact B|]. split; [exact C|exact D]. }
    split; [|exact CI]. unfold cut_number. do 3 eexists. split; [reflexivity|]. split; [apply number_shown; exact SE|]. cbn [x1 y1 x2 y2]. split; [exact A|]. split; [exact B|]. split; [exact C|exact D6].
  - do 2 eexists. split; [reflexivity|]. split; [exact CL|exact CI].
Qed.
Definition count_chosen (l : list vcut) : nat := length (filter vc_chosen l).
Lemma cuts_from_ok media enc s : standard_encoding enc -> forall l k, Forall (cut_fine media) l ->
  exists ls, cuts_from media enc s k l = Ok (concat ls) /\ length ls = length l /\
    forall i c, nth_error l i = Some c -> exists li, nth_error ls i = Some li /\ drawn_cut media s c (S (k + count_chosen (firstn i l))) li.
Proof.
  intros SE l. induction l as [|c l IH]; intros k H; [exists []; split; [reflexivity|]; split; [reflexivity|intros [|i] c E; discriminate]|].
  apply Forall_cons_iff in H. destruct H as (HC & HL). destruct (cut_ok media enc s k c SE HC) as (a & EA & DA).
  destruct (IH (if vc_chosen c then S k else k) HL) as (ls & ES & EL & HS). exists (a :: ls). cbn [cuts_from]. rewrite EA, ES. split; [reflexivity|]. split; [cbn [length]; rewrite EL; reflexivity|].
  intros [|i] d E; cbn [nth_error] in E |- *.
  - injection E as <-. exists a. split; [reflexivity|]. cbn [firstn]. unfold count_chosen. cbn [filter length]. rewrite Nat.add_0_r. exact DA.
  - destruct (HS i d E) as (li & E1 & E2). exists li. split; [exact E1|]. cbn [firstn]. unfold count_chosen in *. cbn [filter]. destruct (vc_chosen c); cbn [length]; [rewrite Nat.add_succ_r|]; exact E2.
Qed.
