(** LinesDefined.v - text line detection is defined (no undefined behaviour, no exception) for regular words. *)
From Coq Require Import ZArith NArith Reals Lra.
From Flocq Require Import Core.
From Verif Require Import Base Double DoubleFacts MathUtils MathUtilsProofs Sort Elements ElementsProofs GeometrySpec GridProofs
  Counter CounterProofs UtilsSpec Document Lines LinesSpec WordsProofs LinesProofs LineMergeProofs.
Local Open Scope nat_scope.
Local Opaque TOL dZ dadd dsub ddiv dmul dec DBL_MAX DBL_MIN.

(** A number close to k/10. *)
Definition near (k : Z) (d : double) : Prop :=
  (Z.abs k <= 1000000001)%Z /\ is_fin d = true /\ (Rabs (E d - IZR k / 10) <= / 4194304)%R.
Lemma tenth_near k d : tenth k d -> near k d.
Proof. intros H. pose proof (tenth_err _ _ H) as [A _]. destruct H as (B & C & _). split; [exact B|]. split; [exact C|exact A]. Qed.
Lemma near_bound k d : near k d -> (Rabs (E d) <= 100000001)%R.
Proof.
  intros (A & _ & B). apply Rabs_le_inv in B. assert (IZR (Z.abs k) <= 1000000001)%R by (apply IZR_le; exact A).
  rewrite abs_IZR in H. apply Rabs_le_inv in H. apply Rabs_le. lra.
Qed.
Lemma TOL_low : (9 / 100000 <= E TOL)%R.
Proof.
  destruct (dZ_exact 1) as (F1 & E1); [lia|]. destruct (dZ_exact (10 ^ 4)) as (F4 & E4); [lia|].
  destruct (ddiv_E (dZ 1) (dZ (10 ^ 4)) F1 F4) as [_ HE]; [rewrite E4; apply IZR_lt; lia|].
  change (ddiv (dZ 1) (dZ (10 ^ 4))) with TOL in HE. rewrite E4, E1 in HE. change (10 ^ 4)%Z with 10000%Z in HE.
  assert (Rabs (rd (1 / 10000) - 1 / 10000) <= / 4194304)%R as He.
  { rewrite <- e22. apply rd_err. rewrite e30. rewrite Rabs_pos_eq; lra. }
  apply Rabs_le_inv in He. pose proof M_big. rewrite clamp_id in HE; lra.
Qed.
Lemma smaller_near k l a b : near k a -> near l b -> smaller a b TOL = (k <? l)%Z.
Proof.
  intros Ha Hb. pose proof (near_bound _ _ Ha) as A2. pose proof (near_bound _ _ Hb) as B2.
  destruct Ha as (_ & Fa & A1), Hb as (_ & Fb & B1). pose proof TOL_low as HL. pose proof TOL_E as HT.
  unfold smaller. destruct (dsub_E b TOL Fb ElementsProofs.TOL_fin) as [Hn HE].
  apply Rabs_le_inv in A1, A2, B1, B2.
  assert (Rabs (rd (E b - E TOL) - (E b - E TOL)) <= / 4194304)%R as He.
  { rewrite <- e22. apply rd_err. rewrite e30. apply Rabs_le. lra. }
  apply Rabs_le_inv in He. pose proof M_big. rewrite clamp_id in HE by lra.
  destruct (Z.ltb_spec k l) as [Hkl|Hlk].
  - apply dlt_E; [apply fin_nn, Fa|exact Hn|]. assert (IZR k + 1 <= IZR l)%R as Hi. { rewrite <- plus_IZR. apply IZR_le. lia. } lra.
  - apply dlt_Ef; [apply fin_nn, Fa|exact Hn|]. apply IZR_le in Hlk. lra.
Qed.
Lemma larger_near k l a b : near k a -> near l b -> larger a b TOL = (l <? k)%Z.
Proof.
  intros Ha Hb. pose proof (near_bound _ _ Ha) as A2. pose proof (near_bound _ _ Hb) as B2.
  destruct Ha as (_ & Fa & A1), Hb as (_ & Fb & B1). pose proof TOL_low as HL. pose proof TOL_E as HT.
  unfold larger, dgt. destruct (dadd_E b TOL Fb ElementsProofs.TOL_fin) as [Hn HE].
  apply Rabs_le_inv in A1, A2, B1, B2.
  assert (Rabs (rd (E b + E TOL) - (E b + E TOL)) <= / 4194304)%R as He.
  { rewrite <- e22. apply rd_err. rewrite e30. apply Rabs_le. lra. }
  apply Rabs_le_inv in He. pose proof M_big. rewrite clamp_id in HE by lra.
  destruct (Z.ltb_spec l k) as [Hkl|Hlk].
  - apply dlt_E; [exact Hn|apply fin_nn, Fa|]. assert (IZR l + 1 <= IZR k)%R as Hi. { rewrite <- plus_IZR. apply IZR_le. lia. } lra.
  - apply dlt_Ef; [exact Hn|apply fin_nn, Fa|]. apply IZR_le in Hlk. lra.
Qed.
Lemma near_deq k x v : deq x v = true -> near k v -> near k x.
Proof.
  intros D (A & F & B). destruct (deq_nn _ _ D) as [Nx Nv]. apply deq_E in D; [|exact Nx|exact Nv].
  split; [exact A|]. split; [|rewrite D; exact B]. apply E_fin_iff; [exact Nx|]. rewrite D. apply E_fin_iff; assumption.
Qed.
Lemma DBL_MIN_near : near 0 DBL_MIN.
Proof.
  split; [lia|]. split; [reflexivity|].
  assert (0 <= E DBL_MIN <= / 4194304)%R as H.
  { split.
    - change 0%R with (E dzero). apply dle_E; [reflexivity|reflexivity|vm_compute; reflexivity].
    - destruct (dZ_exact 1) as (F1 & E1); [lia|]. destruct (dZ_exact 4194304) as (F4 & E4); [lia|].
      destruct (ddiv_E (dZ 1) (dZ 4194304) F1 F4) as [N4 HE]; [rewrite E4; apply IZR_lt; lia|].
      rewrite E1, E4 in HE. assert (rd (1 / 4194304) = / 4194304)%R as Hr.
      { replace (1 / 4194304)%R with (bpow radix2 (-22)) by (cbn; lra). rewrite rd_bpow by lia. reflexivity. }
      rewrite Hr in HE. pose proof M_big. rewrite clamp_id in HE by lra. rewrite <- HE. apply dle_E; [reflexivity|exact N4|]. vm_compute. reflexivity. }
  apply Rabs_le. lra.
Qed.
Lemma rounded_near d : rounded1 d -> exists k, near k d.
Proof. intros H. destruct (rounded1_tenth d H) as [k K]. exists k. apply tenth_near, K. Qed.

Lemma parsed_fin p : parsed_coordinates p -> fin_pos p.
Proof.
  intros (A & B & C & D). repeat split.
  - destruct (rounded1_tenth _ A) as (k & _ & F & _). exact F.
  - destruct (rounded1_tenth _ B) as (k & _ & F & _). exact F.
  - destruct (rounded1_tenth _ C) as (k & _ & F & _). exact F.
  - destruct (rounded1_tenth _ D) as (k & _ & F & _). exact F.
Qed.

Lemma least_near x l : is_least x l -> (forall v, In v l -> rounded1 v) -> exists k, near k x.
Proof. intros [_ (v & Hv & E)] H. destruct (rounded_near v (H v Hv)) as [k K]. exists k. apply (near_deq k x v E K). Qed.
Lemma greatest_near x l : is_greatest x (DBL_MIN :: l) -> (forall v, In v l -> rounded1 v) -> exists k, near k x.
Proof.
  intros [_ (v & [<-|Hv] & E)] H; [exists 0%Z; apply (near_deq 0 x _ E DBL_MIN_near)|].
  destruct (rounded_near v (H v Hv)) as [k K]. exists k. apply (near_deq k x v E K).
Qed.
Lemma smallest_near b ps : smallest_box b ps -> (forall p, In p ps -> parsed_coordinates p) -> exists k, near k (getRotLowerY b).
Proof.
  intros (B1 & B2 & B3 & B4) H.
  assert (HX : forall v, In v (xs ps) -> rounded1 v).
  { intros v Hv. apply in_flat_map in Hv as (p & Hp & Hv). destruct (H p Hp) as (? & ? & ? & ?). destruct Hv as [<-|[<-|[]]]; assumption. }
  assert (HYs : forall v, In v (ys ps) -> rounded1 v).
  { intros v Hv. apply in_flat_map in Hv as (p & Hp & Hv). destruct (H p Hp) as (? & ? & ? & ?). destruct Hv as [<-|[<-|[]]]; assumption. }
  assert (K1 := least_near _ _ B1 HX). assert (K2 := least_near _ _ B2 HYs). assert (K3 := greatest_near _ _ B3 HX). assert (K4 := greatest_near _ _ B4 HYs).
  unfold getRotLowerY. destruct (rotation b) as [|[[]|[]|]|]; assumption.
Qed.

Section D.
  Context (implW : (nat -> nat -> bool) -> list nat -> list nat) (implL : (tline -> tline -> bool) -> list tline -> list tline).
  Context (ordS : list (str * N) -> list (str * N)) (ordD : list (double * N) -> list (double * N)).
  Context (ordR : list (Z * list (double * list nat)) -> list (Z * list (double * list nat)))
          (ordY : list (double * list nat) -> list (double * list nat)).
  Context (acw : double) (h : heap).
  Context (HW : sort_ok implW) (HL : sort_ok implL).
  Context (HS : forall m, Permutation m (ordS m)) (HD : forall m, Permutation m (ordD m)).
  Context (HR : forall m, Permutation m (ordR m)) (HY : forall m, Permutation m (ordY m)).

  Definition regular (ws : list nat) : Prop := forall w, In w ws -> regular_word (h w).

  Lemma word_lt_swo rot ws : regular ws -> swo (word_lt h rot) ws.
  Proof.
    intros H. assert (RR : forall w, In w ws -> rounded1 (getRotLeftX (pos_of h w))) by (intros w Hw; apply (rot_rounded (pos_of h w)), (H w Hw)).
    unfold word_lt. destruct ((rot =? 0)%Z || (rot =? 1)%Z).
    - apply (smaller_swo (fun i => getRotLeftX (pos_of h i)) ws (fun x Hx => or_introl (RR x Hx))).
    - apply (larger_swo (fun i => getRotLeftX (pos_of h i)) ws (fun x Hx => or_introl (RR x Hx))).
  Qed.

  Lemma properties_defined l : regular (l_words l) -> exists l', computeTextLineProperties implW ordS ordD h l = Ok l'.
  Proof.
    intros RW. unfold computeTextLineProperties. destruct (l_words l) as [|w0 wt] eqn:EW; [eauto|]. rewrite <- EW in *. cbv zeta.
    destruct (std_sort_spec implW (word_lt h (rotation (wpos h w0))) (l_words l) HW (word_lt_swo _ _ RW)) as (ws & ES & P & _). rewrite ES. cbn [obind].
    destruct (guarded_mostFreq str_eqb [] (l_fontName l) (ordS (count_all str_eqb (map c_fontName (chars_of h ws))))) as [fn E1]. rewrite E1. cbn [obind].
    destruct (guarded_mostFreq deq dzero (l_fontSize l) (ordD (count_all deq (map c_fontSize (chars_of h ws))))) as [fs E2]. rewrite E2. cbn [obind].
    destruct (guarded_max (l_maxFontSize l) (map c_fontSize (chars_of h ws)) (ordD (count_all deq (map c_fontSize (chars_of h ws)))) (HD _)) as [mx E3].
    { intros f Hf. apply in_map_iff in Hf as (c & <- & Hc). unfold chars_of in Hc. apply in_concat in Hc as (cs & Hcs & Hc).
      apply in_map_iff in Hcs as (w & <- & Hw). apply (RW w); [|exact Hc]. apply (Permutation_in _ (Permutation_sym P)), Hw. }
    rewrite E3. cbn [obind].
    destruct (guarded_mostFreq deq dzero (l_base l) (ordD (count_all deq (map c_base (chars_of h ws))))) as [bs E4]. rewrite E4. cbn [obind]. eauto.
  Qed.
  Lemma regular_fin ws : regular ws -> fin_words h ws.
  Proof. intros H w Hw. apply parsed_fin, (H w Hw). Qed.

  (** lines with regular words *)
  Definition rokl (l : tline) : Prop := okl h l /\ regular (l_words l).
  Lemma create_defined ws : ws <> [] -> regular ws -> exists l, createTextLine implW ordS ordD h ws = Ok l /\ rokl l.
  Proof.
    intros NE RW. destruct (properties_defined (new_line ws) RW) as [l E]. exists l. split; [exact E|].
    destruct (create_ok implW ordS ordD h HW HS HD ws l NE (regular_fin ws RW) E) as [LO OK]. split; [exact OK|].
    intros w Hw. apply RW. apply (Permutation_in _ (Permutation_sym (proj1 (line_of_words h _ _ LO)))), Hw.
  Qed.
  Lemma merge_defined c p : rokl c -> rokl p -> exists pq, mergeTextLines implW ordS ordD h c p = Ok pq /\ rokl pq.
  Proof.
    intros [OC RC] [OP RP]. assert (RW : regular (l_words p ++ l_words c)) by (intros w Hw; apply in_app_or in Hw as [Hw|Hw]; [apply RP, Hw|apply RC, Hw]).
    destruct (properties_defined (mkLine (l_rank p) (l_pos p) (l_text p) (l_fontName p) (l_fontSize p) (l_maxFontSize p) (l_base p)
              (l_words p ++ l_words c) (l_prev p) (l_next p)) RW) as [pq E]. exists pq. split; [exact E|].
    destruct (merge_ok implW ordS ordD h HW HS HD c p pq OC OP E) as [LO OK]. split; [exact OK|].
    intros w Hw. apply RW. apply (Permutation_in _ (Permutation_sym (proj1 (line_of_words h _ _ LO)))), Hw.
  Qed.
  Lemma round_defined ls : forall acc prev did, Forall rokl ls -> Forall rokl acc -> (forall p, prev = Some p -> rokl p) ->
    exists out did', merge_round implW ordS ordD acw h acc prev did ls = Ok (out, did') /\ Forall rokl out.
  Proof.
    induction ls as [|c t IH]; intros acc prev did FL FA FP; cbn [merge_round].
    - exists (acc ++ opt_list prev), did. split; [reflexivity|]. apply Forall_app. split; [exact FA|]. destruct prev as [p|]; [constructor; [apply FP; reflexivity|constructor]|constructor].
    - inversion FL as [|? ? Hc Ht]. subst. destruct (do_merge acw prev c) eqn:EM.
      + destruct prev as [p|]; [|rewrite do_merge_none in EM; discriminate]. destruct (merge_defined c p Hc (FP p eq_refl)) as (pq & E & OK).
        rewrite E. cbn [obind]. apply IH; [exact Ht|exact FA|]. intros q [= <-]. exact OK.
      + apply IH; [exact Ht| |intros q [= <-]; exact Hc]. apply Forall_app. split; [exact FA|]. destruct prev as [p|]; [constructor; [apply FP; reflexivity|constructor]|constructor].
  Qed.
  Lemma rounds_defined fuel : forall ls, Forall rokl ls -> length ls < fuel -> exists out, merge_rounds implW ordS ordD acw h fuel ls = Some (Ok out).
  Proof.
    induction fuel as [|n IH]; intros ls FL L; [lia|]. cbn [merge_rounds].
    destruct (round_defined ls [] None false FL) as (ls' & did & E & F'); [constructor|discriminate|]. rewrite E. destruct did; [|eauto].
    apply IH; [exact F'|]. destruct (merge_round_length implW ordS ordD acw h _ _ _ _ _ _ E) as [_ R]. destruct (R eq_refl) as [X|X]; [discriminate|]. cbn in X. lia.
  Qed.

  Lemma line_lt_swo rot ls : Forall rokl ls -> swo (line_lt rot) ls.
  Proof.
    intros F. rewrite Forall_forall in F.
    assert (K : forall l, In l ls -> exists k, near k (getRotLowerY (l_pos l))).
    { intros l Hl. destruct (F l Hl) as [((ws & LO) & _ & _) RW]. pose proof LO as (_ & P & _ & _ & _ & SB & _).
      apply (smallest_near _ _ SB). intros p Hp. apply in_map_iff in Hp as (w & <- & Hw). apply (RW w). apply (Permutation_in _ P), Hw. }
    unfold line_lt. destruct ((rot =? 0)%Z || (rot =? 1)%Z).
    - apply key_swo with (key := fun l k => near k (getRotLowerY (l_pos l))); [exact K|]. intros x y k j _ _ Kx Ky. apply smaller_near; assumption.
    - apply key_swo with (key := fun l k => near (- k) (getRotLowerY (l_pos l))).
      + intros l Hl. destruct (K l Hl) as [k Kk]. exists (- k)%Z. rewrite Z.opp_involutive. exact Kk.
      + intros x y k j _ _ Kx Ky. unfold RotLowerYDesc. rewrite (larger_near _ _ _ _ Kx Ky). destruct (Z.ltb_spec (- j) (- k)), (Z.ltb_spec k j); try reflexivity; lia.
  Qed.

  Lemma omap_defined {A B} (f : A -> outcome B) (Q : B -> Prop) l : (forall x, In x l -> exists y, f x = Ok y /\ Q y) -> exists r, omap f l = Ok r /\ Forall Q r.
  Proof.
    induction l as [|x l IH]; intros H; cbn [omap]; [exists []; split; [reflexivity|constructor]|].
    destruct (H x (or_introl eq_refl)) as (y & E & Qy). rewrite E. cbn [obind]. destruct IH as (r & Er & F); [intros z Hz; apply H; right; exact Hz|].
    rewrite Er. cbn [obind]. exists (y :: r). split; [reflexivity|constructor; assumption].
  Qed.

  Lemma rotation_defined n r m : (forall y l, In (y, l) m -> l <> [] /\ regular l) ->
    exists out, rotation_lines implW implL ordS ordD ordY acw h n r m = Ok out.
  Proof.
    intros H. unfold rotation_lines.
    destruct (omap_defined (fun e => createTextLine implW ordS ordD h (snd e)) rokl (ordY m)) as (l0 & E0 & F0).
    { intros [y l] Hl. apply (Permutation_in _ (Permutation_sym (HY m))) in Hl. destruct (H y l Hl) as [NE RW]. apply create_defined; assumption. }
    rewrite E0. cbn [obind]. destruct (std_sort_spec implL (line_lt r) l0 HL (line_lt_swo r l0 F0)) as (l1 & E1 & P1 & _). rewrite E1. cbn [obind].
    assert (F1 : Forall rokl l1) by (apply Forall_forall; intros l Hl; rewrite Forall_forall in F0; apply F0, (Permutation_in _ (Permutation_sym P1)), Hl).
    destruct (rounds_defined (S (length l1)) l1 F1) as [out E]; [lia|]. rewrite E. cbn [obind]. eauto.
  Qed.

  Lemma segment_defined n ws : regular ws -> regular (flat_map (with_parts h) ws) ->
    exists gs, segment_lines implW implL ordS ordD ordR ordY acw h n ws = Ok gs.
  Proof.
    intros R1 R2. unfold segment_lines. destruct ws as [|w0 wt] eqn:EW; [eauto|]. rewrite <- EW in *. clear EW w0 wt.
    assert (NW : nn_words h ws) by (intros w Hw; apply fin_rot, (regular_fin ws R1), Hw).
    destruct (clusters_inv h ws NW) as (_ & I2 & _).
    assert (H : forall r m, In (r, m) (ordR (clusters h ws)) -> forall y l, In (y, l) m -> l <> [] /\ regular l).
    { intros r m Hm y l Hl. apply (Permutation_in _ (Permutation_sym (HR _))) in Hm. destruct (I2 r m Hm) as (_ & _ & A3).
      destruct (A3 y l Hl) as (B1 & w & B2 & B3 & B4 & B5). split.
      - assert (Iw : In w l). { rewrite B1. unfold on_baseline. apply in_flat_map. exists w. split; [|unfold with_parts; rewrite B3; left; reflexivity].
            apply filter_In. split; [exact B2|]. rewrite B4, Z.eqb_refl, B5. cbn [andb]. apply deq_refl. rewrite <- B5. apply NW, B2. }
        intros E. rewrite E in Iw. destruct Iw.
      - intros x Hx. apply R2. rewrite B1 in Hx. apply (on_baseline_incl h _ _ _ _ Hx). }
    revert n H. generalize (ordR (clusters h ws)). intros cls. induction cls as [|[r m] t IH]; intros n H; cbn [rotations_lines]; [eauto|].
    destruct (rotation_defined n r m (H r m (or_introl eq_refl))) as [g E]. rewrite E. cbn [obind].
    destruct (IH (n + Z.of_nat (length g))%Z) as [gs Es]; [intros r' m' Hm; apply (H r' m'); right; exact Hm|]. rewrite Es. cbn [obind]. eauto.
  Qed.

  (** ** The trim box never fails; pages and documents *)
  Lemma trim_defined seg ls : exists b, computeTrimBox ordD seg ls = Ok b.
  Proof.
    unfold computeTrimBox. cbv zeta. set (m := ordD _). destruct (N.ltb_spec 0 (sumCounts m)) as [P|P]; [|eauto].
    destruct (guarded_mostFreq deq dzero dzero m) as [k E]. rewrite (proj2 (N.ltb_lt 0 (sumCounts m)) P) in E. unfold mostFreq in E.
    destruct (mostFreqAndCount dzero m) as [[x c]| |]; try discriminate. cbn [obind]. eauto.
  Qed.
  Lemma segments_defined segs : forall n, (forall b ws, In (b, ws) segs -> regular ws /\ regular (flat_map (with_parts h) ws)) ->
    exists r, segments_lines implW implL ordS ordD ordR ordY acw h n segs = Ok r.
  Proof.
    induction segs as [|[b ws] t IH]; intros n H; cbn [segments_lines]; [eauto|].
    destruct (H b ws (or_introl eq_refl)) as [R1 R2]. destruct (segment_defined n ws R1 R2) as [gs E]. rewrite E. cbn [obind].
    assert (X : exists tb, (match ws with [] => Ok None | _ :: _ => do c <- computeTrimBox ordD b (concat gs) ; Ok (Some c) end) = Ok tb).
    { destruct ws; [eauto|]. destruct (trim_defined b (concat gs)) as [c Ec]. rewrite Ec. cbn [obind]. eauto. }
    destruct X as [tb ->]. cbn [obind].
    destruct (IH (n + Z.of_nat (length (concat gs)))%Z) as [r Er]; [intros b' ws' Hb; apply (H b' ws'); right; exact Hb|]. rewrite Er. cbn [obind]. eauto.
  Qed.
  Lemma detect_defined absd pages : forall n, (forall segs b ws, In segs pages -> In (b, ws) segs -> regular ws /\ regular (flat_map (with_parts h) ws)) ->
    exists r, detectTextLines implW implL ordS ordD ordR ordY acw absd h n pages = Ok r.
  Proof.
    induction pages as [|segs t IH]; intros n H; cbn [detectTextLines]; [eauto|].
    destruct (segments_defined segs n) as [r E]; [intros b ws Hb; apply (H segs b ws (or_introl eq_refl) Hb)|]. rewrite E. cbn [obind].
    destruct (IH (n + Z.of_nat (length (concat (map (fun s => concat (fst s)) r))))%Z) as [rest Er]; [intros segs' b ws Hs; apply H; right; exact Hs|].
    rewrite Er. cbn [obind]. eauto.
  Qed.

  (** ** Ranks *)
  Definition ranked (n : Z) (ls : list tline) : Prop := forall i l, nth_error ls i = Some l -> l_rank l = (n + Z.of_nat i)%Z.
  Lemma ranked_app n a b : ranked n a -> ranked (n + Z.of_nat (length a)) b -> ranked n (a ++ b).
  Proof.
    intros Ha Hb i l H. destruct (Nat.ltb_spec i (length a)) as [L|L].
    - rewrite nth_error_app1 in H by exact L. apply Ha, H.
    - rewrite nth_error_app2 in H by exact L. rewrite (Hb _ _ H). lia.
  Qed.
  Lemma rotation_ranked n r m out : rotation_lines implW implL ordS ordD ordY acw h n r m = Ok out -> ranked n out.
  Proof.
    unfold rotation_lines. intros H. destruct (omap _ _) as [l0| |]; try discriminate. cbn [obind] in H.
    destruct (std_sort _ _ _) as [l1| |]; try discriminate. cbn [obind] in H. destruct (merge_rounds _ _ _ _ _ _ _) as [[ls| |]|]; try discriminate.
    cbn [obind] in H. injection H as <-. intros i l Hl. apply number_nth in Hl as (l' & _ & ->). reflexivity.
  Qed.
  Lemma rotations_ranked cls : forall n out, rotations_lines implW implL ordS ordD ordY acw h n cls = Ok out -> ranked n (concat out).
  Proof.
    induction cls as [|[r m] t IH]; intros n out H; cbn [rotations_lines] in H; [injection H as <-; intros [|i] l; discriminate|].
    destruct (rotation_lines _ _ _ _ _ _ _ n r m) as [g| |] eqn:E; try discriminate. cbn [obind] in H.
    destruct (rotations_lines _ _ _ _ _ _ _ _ t) as [gs| |] eqn:Es; try discriminate. cbn [obind] in H. injection H as <-. cbn [concat].
    apply ranked_app; [apply (rotation_ranked _ _ _ _ E)|apply (IH _ _ Es)].
  Qed.
  Lemma segment_ranked n ws gs : segment_lines implW implL ordS ordD ordR ordY acw h n ws = Ok gs -> ranked n (concat gs).
  Proof. unfold segment_lines. destruct ws; intros H; [injection H as <-; intros [|i] l; discriminate|]. apply (rotations_ranked _ _ _ H). Qed.
  Lemma segments_ranked segs : forall n r, segments_lines implW implL ordS ordD ordR ordY acw h n segs = Ok r -> ranked n (page_lines r).
  Proof.
    induction segs as [|[b ws] t IH]; intros n r H; cbn [segments_lines] in H; [injection H as <-; intros [|i] l; discriminate|].
    destruct (segment_lines _ _ _ _ _ _ _ _ n ws) as [gs| |] eqn:E; try discriminate. cbn [obind] in H.
    destruct (match ws with [] => _ | _ :: _ => _ end) as [tb| |]; try discriminate. cbn [obind] in H.
    destruct (segments_lines _ _ _ _ _ _ _ _ _ t) as [rest| |] eqn:Er; try discriminate. cbn [obind] in H. injection H as <-.
    unfold page_lines. cbn [flat_map fst]. apply ranked_app; [apply (segment_ranked _ _ _ E)|apply (IH _ _ Er)].
  Qed.
  Lemma concat_page r : concat (map (fun s => concat (fst s)) r) = page_lines r.
  Proof. unfold page_lines. rewrite flat_map_concat_map. reflexivity. Qed.
  Lemma detect_ranked absd pages : forall n r, detectTextLines implW implL ordS ordD ordR ordY acw absd h n pages = Ok r ->
    ranked n (flat_map (fun p => page_lines (fst p)) r).
  Proof.
    induction pages as [|segs t IH]; intros n r H; cbn [detectTextLines] in H; [injection H as <-; intros [|i] l; discriminate|].
    destruct (segments_lines _ _ _ _ _ _ _ _ n segs) as [r1| |] eqn:E; try discriminate. cbn [obind] in H.
    destruct (detectTextLines _ _ _ _ _ _ _ _ _ _ t) as [rest| |] eqn:Er; try discriminate. cbn [obind] in H. injection H as <-.
    cbn [flat_map fst]. apply ranked_app; [apply (segments_ranked _ _ _ E)|]. rewrite concat_page in Er. apply (IH _ _ Er).
  Qed.

  (** ** Every word in exactly one line *)
  Lemma separate_perm ws : separate_symbols h ws -> Permutation ws (flat_map (with_parts h) ws).
  Proof.
    intros (ND & P1 & P2 & P3). 
    assert (SUBS : forall l, incl l ws -> NoDup l -> NoDup (flat_map (with_parts h) l)).
    { induction l as [|w l IH]; intros I N; [constructor|]. inversion N as [|? ? NI N']. subst. cbn [flat_map].
      assert (Iw : In w ws) by (apply I; left; reflexivity).
      assert (IH' : NoDup (flat_map (with_parts h) l)) by (apply IH; [intros x Hx; apply I; right; exact Hx|exact N']).
      unfold with_parts at 1. destruct (w_partOf (h w)) as [b|] eqn:EP; [exact IH'|].
      (* who stands for x: x itself if it is no part, else the base it refers to *)
      assert (OWN : forall x y, In y ws -> In x (with_parts h y) -> match w_partOf (h x) with None => y = x | Some b => y = b end).
      { intros x y Hy Hx. unfold with_parts in Hx. destruct (w_partOf (h y)) as [b|] eqn:EY; [destruct Hx|]. destruct Hx as [->|Hx].
        - rewrite EY. reflexivity.
        - destruct (P1 y x Hy EY Hx) as [_ Q]. rewrite Q. reflexivity. }
      assert (DJ : forall x, In x (w :: w_parts (h w)) -> ~ In x (flat_map (with_parts h) l)).
      { intros x Hx X. apply in_flat_map in X as (y & Hy & Hxy).
        assert (Hx' : In x (with_parts h w)) by (unfold with_parts; rewrite EP; exact Hx).
        pose proof (OWN x w Iw Hx') as O1. pose proof (OWN x y (I y (or_intror Hy)) Hxy) as O2.
        assert (w = y) by (destruct (w_partOf (h x)); congruence). subst y. contradiction. }
      assert (NW : NoDup (w :: w_parts (h w))).
      { constructor; [|apply P2, Iw]. intros X. destruct (P1 w w Iw EP X) as [_ Q]. congruence. }
      clear -NW DJ IH'. induction (w :: w_parts (h w)) as [|x u IHu]; [exact IH'|]. inversion NW as [|? ? NX NU]. subst. cbn [app]. constructor.
      - intros X. apply in_app_or in X as [X|X]; [contradiction|]. apply (DJ x (or_introl eq_refl) X).
      - apply IHu; [|exact NU]. intros z Hz. apply DJ. right. exact Hz. }
    apply NoDup_Permutation; [exact ND|apply SUBS; [intros x Hx; exact Hx|exact ND]|]. intros x. split.
    - intros Hx. apply in_flat_map. destruct (w_partOf (h x)) as [b|] eqn:EP.
      + destruct (P3 x b Hx EP) as (Q1 & Q2 & Q3). exists b. split; [exact Q1|]. unfold with_parts. rewrite Q2. right. exact Q3.
      + exists x. split; [exact Hx|]. unfold with_parts. rewrite EP. left. reflexivity.
    - intros Hx. apply in_flat_map in Hx as (y & Hy & Hx). unfold with_parts in Hx. destruct (w_partOf (h y)) eqn:EY; [destruct Hx|].
      destruct Hx as [<-|Hx]; [exact Hy|]. apply (P1 y x Hy EY Hx).
  Qed.
End D.
