(** ParsingProofs.v - proofs about Parsing.v. *)
From Coq Require Import ZArith NArith Reals Lra.
From Flocq Require Import Core IEEE754.BinarySingleNaN.
From Verif Require Import Base Double DoubleFacts MathUtils MathUtilsProofs Elements ElementsProofs GridProofs Document Fonts CharMap Parsing ImagingSpec ParsingSpec ParsingBoxes ImagingProofs.
Open Scope Z_scope.
Local Opaque TOL dadd dsub ddiv dmul dec DBL_MAX DBL_MIN dround.

Lemma same_agree a b : same_clip a b = agree a b.
Proof. reflexivity. Qed.

Lemma tenth_pos : (0 <= E (dec 1 1))%R.
Proof.
  assert (H : dle dzero (dec 1 1) = true) by (vm_compute; reflexivity). pose proof (dle_nn _ _ H) as [A B].
  apply (dle_E _ _ A B) in H. change (E dzero) with 0%R in H. exact H.
Qed.
Lemma tenth_nn : nn (dec 1 1).
Proof. vm_compute. reflexivity. Qed.
Lemma within_refl a : is_fin a = true -> within_tenth a a = true.
Proof.
  intro H. unfold within_tenth. pose proof (dsub_E a a H H) as (N & V). replace (E a - E a)%R with 0%R in V by lra. rewrite rd_0, clamp_0 in V.
  pose proof (dabs_E _ N) as (N' & V').
  apply dle_E; [exact N'|exact tenth_nn|]. rewrite V', V, Rabs_R0. exact tenth_pos.
Qed.
Lemma agree_refl k : is_fin (k_left k) = true -> is_fin (k_upper k) = true -> is_fin (k_right k) = true -> is_fin (k_lower k) = true ->
  agree k k = true.
Proof. intros. unfold agree. rewrite !within_refl by assumption. reflexivity. Qed.

Definition cond (j : nat) (ks : list clip) (k : clip) (en : entry) : bool :=
  Nat.eqb (en_page en) j && agree (en_clip en) k && negb (existsb (agree (en_clip en)) ks).
Lemma entries_snoc j ks k log en :
  entries_at j ks k (log ++ [en]) = entries_at j ks k log ++ if cond j ks k en then [en] else [].
Proof. unfold entries_at. rewrite filter_app. cbn [filter]. fold (cond j ks k en). reflexivity. Qed.
Lemma items_entries j ks k log : items_at j ks k log = map en_item (entries_at j ks k log).
Proof. reflexivity. Qed.
Lemma items_snoc j ks k log en :
  items_at j ks k (log ++ [en]) = items_at j ks k log ++ if cond j ks k en then [en_item en] else [].
Proof. rewrite !items_entries, entries_snoc, map_app. destruct (cond j ks k en); reflexivity. Qed.
Lemma holds_snoc items i cs ss gs : holds items cs ss gs ->
  holds (items ++ [i]) (cs ++ opt_char i) (ss ++ opt_shape i) (gs ++ opt_graphic i).
Proof.
  intros (-> & -> & ->). unfold holds. rewrite !flat_map_app. cbn [flat_map]. rewrite !app_nil_r. repeat split; destruct i; reflexivity.
Qed.

Lemma add_figures_some k i fs fs' : add_figures k i fs = Some fs' ->
  exists l1 f l2, fs = l1 ++ f :: l2 /\ fs' = l1 ++ add_figure i f :: l2 /\
    existsb (agree k) (map fg_clip l1) = false /\ agree k (fg_clip f) = true.
Proof.
  revert fs'. induction fs as [|f r IH]; intros fs' H; cbn [add_figures] in H; [discriminate|].
  rewrite same_agree in H. destruct (agree k (fg_clip f)) eqn:E.
  - injection H as <-. exists [], f, r. repeat split; try reflexivity. exact E.
  - destruct (add_figures k i r) as [r'|] eqn:R; [|discriminate]. injection H as <-.
    destruct (IH r' eq_refl) as (l1 & f0 & l2 & -> & -> & A & B). exists (f :: l1), f0, l2.
    repeat split; try reflexivity; [|exact B]. cbn [map existsb]. rewrite E. exact A.
Qed.
Lemma add_figures_none k i fs : add_figures k i fs = None -> existsb (agree k) (map fg_clip fs) = false.
Proof.
  induction fs as [|f r IH]; intro H; cbn [add_figures] in H; [reflexivity|].
  rewrite same_agree in H. destruct (agree k (fg_clip f)) eqn:E; [discriminate|].
  destruct (add_figures k i r) as [r'|] eqn:R; [discriminate|]. cbn [map existsb]. rewrite E. apply IH. reflexivity.
Qed.

Lemma firstn_mid {A} (l1 : list A) x l2 m : firstn m (l1 ++ x :: l2) =
  if (m <=? length l1)%nat then firstn m l1 else l1 ++ x :: firstn (m - S (length l1)) l2.
Proof.
  revert m. induction l1 as [|y l1 IH]; intros [|m]; cbn [app firstn length]; try reflexivity.
  - rewrite Nat.sub_succ, Nat.sub_0_r. reflexivity.
  - rewrite IH. change (S m <=? S (length l1))%nat with (m <=? length l1)%nat.
    destruct (m <=? length l1)%nat; reflexivity.
Qed.
Lemma nth_mid {A} (l1 : list A) x l2 m f : nth_error (l1 ++ x :: l2) m = Some f ->
  (m < length l1)%nat /\ nth_error l1 m = Some f \/ m = length l1 /\ f = x \/ (length l1 < m)%nat /\ nth_error l2 (m - S (length l1)) = Some f.
Proof.
  intro H. destruct (Nat.lt_trichotomy m (length l1)) as [L|[L|L]].
  - left. rewrite nth_error_app1 in H by exact L. auto.
  - right; left. subst m. rewrite nth_error_app2, Nat.sub_diag in H by lia. cbn in H. injection H as ->. auto.
  - right; right. rewrite nth_error_app2 in H by lia. split; [exact L|].
    replace (m - length l1)%nat with (S (m - S (length l1))) in H by lia. exact H.
Qed.

Lemma nn_is p : is_nan_d p = false <-> nn p.
Proof. unfold nn, is_nan_d. reflexivity. Qed.

(** ** Boxes *)

Lemma smallest_one p num : no_nan p -> smallest_around (mkPos num (leftX p) (upperY p) (rightX p) (lowerY p) 0 0) [p].
Proof.
  intros (A & B & C & D). split.
  - intros q [<-|[]]. cbn [leftX upperY rightX lowerY]. repeat split; apply dle_refl; assumption.
  - repeat split; exists p; split; try (left; reflexivity); reflexivity.
Qed.
Lemma smallest_snoc b l p : smallest_around b l -> (forall q, In q l -> no_nan q) -> no_nan p ->
  smallest_around (mkPos (pageNum b) (minimum (leftX b) (leftX p)) (minimum (upperY b) (upperY p)) (maximum (rightX b) (rightX p))
           (maximum (lowerY b) (lowerY p)) (rotation b) (wMode b)) (l ++ [p]).
Proof.
  intros (A & (p1 & I1 & E1) & (p2 & I2 & E2) & (p3 & I3 & E3) & (p4 & I4 & E4)) NL (N1 & N2 & N3 & N4).
  assert (B1 : nn (leftX b)) by (rewrite <- E1; apply (NL p1 I1)).
  assert (B2 : nn (upperY b)) by (rewrite <- E2; apply (NL p2 I2)).
  assert (B3 : nn (rightX b)) by (rewrite <- E3; apply (NL p3 I3)).
  assert (B4 : nn (lowerY b)) by (rewrite <- E4; apply (NL p4 I4)).
  pose proof (min_le _ _ B1 N1) as (M1 & M1'). pose proof (min_le _ _ B2 N2) as (M2 & M2').
  pose proof (max_ge _ _ B3 N3) as (M3 & M3'). pose proof (max_ge _ _ B4 N4) as (M4 & M4').
  split; cbn [leftX upperY rightX lowerY].
  - intros q H. apply in_app_or in H. destruct H as [H|[<-|[]]].
    + destruct (A q H) as (Q1 & Q2 & Q3 & Q4). split; [eapply dle_trans; [exact M1|exact Q1]|].
      split; [eapply dle_trans; [exact M2|exact Q2]|]. split; eapply dle_trans; [exact Q3|exact M3|exact Q4|exact M4].
    + split; [exact M1'|]. split; [exact M2'|]. split; [exact M3'|exact M4'].
  - assert (R : In p (l ++ [p])) by (apply in_or_app; right; left; reflexivity).
    split; [destruct (min_cases (leftX b) (leftX p)) as [->| ->]|split; [destruct (min_cases (upperY b) (upperY p)) as [->| ->]|
      split; [destruct (max_cases (rightX b) (rightX p)) as [->| ->]|destruct (max_cases (lowerY b) (lowerY p)) as [->| ->]]]].
    + exists p1. split; [apply in_or_app; left; exact I1|exact E1].
    + exists p. auto.
    + exists p2. split; [apply in_or_app; left; exact I2|exact E2].
    + exists p. auto.
    + exists p3. split; [apply in_or_app; left; exact I3|exact E3].
    + exists p. auto.
    + exists p4. split; [apply in_or_app; left; exact I4|exact E4].
    + exists p. auto.
Qed.

(** ** Placing one element *)
Lemma cond_page j ks k en : en_page en <> j -> cond j ks k en = false.
Proof. intro H. unfold cond. rewrite (proj2 (Nat.eqb_neq _ _) H). reflexivity. Qed.
Lemma cond_here j ks k en : en_page en = j -> cond j ks k en = agree (en_clip en) k && negb (existsb (agree (en_clip en)) ks).
Proof. intros <-. unfold cond. rewrite Nat.eqb_refl. reflexivity. Qed.

Lemma other_page j pg log en : en_page en <> j -> page_holds j pg log /\ figures_created j pg log ->
  page_holds j pg (log ++ [en]) /\ figures_created j pg (log ++ [en]).
Proof.
  intros N ((A & B & C) & D). split; [split; [|split]|].
  - rewrite items_snoc, cond_page by exact N. rewrite app_nil_r. exact A.
  - intros m f H. rewrite items_snoc, cond_page by exact N. rewrite app_nil_r. apply (B m f H).
  - intros e H J. apply in_app_or in H. destruct H as [H|[<-|[]]]; [apply (C e H J)|contradiction].
  - intros m f H. cbv zeta. rewrite entries_snoc, cond_page by exact N. rewrite app_nil_r. apply (D m f H).
Qed.

Lemma place_holds j pg log en : en_page en = j -> agree (en_clip en) (en_clip en) = true ->
  page_holds j pg log /\ figures_created j pg log ->
  page_holds j (place (en_clip en) (en_item en) pg) (log ++ [en]) /\ figures_created j (place (en_clip en) (en_item en) pg) (log ++ [en]).
Proof.
  intros J R ((A & B & C) & D). unfold place. rewrite same_agree.
  destruct (agree (en_clip en) (pp_clip pg)) eqn:P.
  - (* on the page *)
    split; [split; [|split]|]; unfold add_page; cbn [pp_num pp_clip pp_chars pp_shapes pp_graphics pp_figures].
    + rewrite items_snoc, cond_here by exact J. rewrite P. cbn [existsb negb andb]. apply holds_snoc. exact A.
    + intros m f H. rewrite items_snoc, cond_here by exact J. cbn [existsb]. rewrite P. cbn [orb negb]. rewrite andb_false_r, app_nil_r.
      apply (B m f H).
    + intros e H K. apply in_app_or in H. destruct H as [H|[<-|[]]]; [apply (C e H K)|left; exact P].
    + intros m f H. cbv zeta. cbn [pp_figures pp_clip pp_num] in *. rewrite entries_snoc, cond_here by exact J. cbn [existsb]. rewrite P. cbn [orb negb].
      rewrite andb_false_r, app_nil_r. apply (D m f H).
  - destruct (add_figures (en_clip en) (en_item en) (pp_figures pg)) as [fs|] eqn:F.
    + (* in an existing figure *)
      destruct (add_figures_some _ _ _ _ F) as (l1 & f0 & l2 & E1 & E2 & N1 & G). subst fs.
      unfold set_figures, page_holds, figures_created. cbn [pp_num pp_clip pp_chars pp_shapes pp_graphics pp_figures].
      rewrite E1 in B, C. unfold figures_created in D. rewrite E1 in D.
      assert (CL : forall m, map fg_clip (firstn m (l1 ++ add_figure (en_item en) f0 :: l2)) = map fg_clip (firstn m (l1 ++ f0 :: l2))).
      { intro m. rewrite !firstn_mid. destruct (m <=? length l1)%nat; [reflexivity|]. rewrite !map_app. reflexivity. }
      assert (S0 : forall m, (m < length l1)%nat -> forall f, nth_error l1 m = Some f ->
        forall ks, cond j (pp_clip pg :: ks) (fg_clip f) en = false).
      { intros m L f H ks. rewrite cond_here by exact J. assert (X : agree (en_clip en) (fg_clip f) = false); [|rewrite X; reflexivity].
        destruct (agree (en_clip en) (fg_clip f)) eqn:X; [|reflexivity].
        rewrite <- N1. symmetry. apply existsb_exists. exists (fg_clip f). split; [|exact X]. apply in_map. eapply nth_error_In, H. }
      assert (S1 : cond j (pp_clip pg :: map fg_clip (firstn (length l1) (l1 ++ f0 :: l2))) (fg_clip f0) en = true).
      { rewrite cond_here by exact J. rewrite G, firstn_app, Nat.sub_diag, firstn_all. cbn [firstn]. rewrite app_nil_r.
        cbn [existsb andb]. rewrite P, N1. reflexivity. }
      assert (S2 : forall m, (length l1 < m)%nat -> forall k, cond j (pp_clip pg :: map fg_clip (firstn m (l1 ++ f0 :: l2))) k en = false).
      { intros m L k. rewrite cond_here by exact J. assert (X : existsb (agree (en_clip en)) (pp_clip pg :: map fg_clip (firstn m (l1 ++ f0 :: l2))) = true);
          [|rewrite X; apply andb_false_r].
        apply existsb_exists. exists (fg_clip f0). split; [|exact G]. right. apply in_map. rewrite firstn_mid.
        destruct (Nat.leb_spec m (length l1)); [lia|]. apply in_or_app. right. left. reflexivity. }
      assert (NM : nth_error (l1 ++ f0 :: l2) (length l1) = Some f0).
      { rewrite nth_error_app2, Nat.sub_diag by lia. reflexivity. }
      assert (OLD : forall m f, nth_error (l1 ++ add_figure (en_item en) f0 :: l2) m = Some f -> (m = length l1 /\ f = add_figure (en_item en) f0) \/
        (nth_error (l1 ++ f0 :: l2) m = Some f /\ cond j (pp_clip pg :: map fg_clip (firstn m (l1 ++ f0 :: l2))) (fg_clip f) en = false)).
      { intros m f H. destruct (nth_mid _ _ _ _ _ H) as [(L & H')|[H'|(L & H')]]; [right|left; exact H'|right].
        - split; [rewrite nth_error_app1 by exact L; exact H'|apply (S0 m L f H')].
        - split; [|apply (S2 m L)]. rewrite nth_error_app2 by lia. replace (m - length l1)%nat with (S (m - S (length l1))) by lia. exact H'. }
      split; [split; [|split]|].
      * rewrite items_snoc, cond_here by exact J. rewrite P. cbn [andb]. rewrite app_nil_r. exact A.
      * intros m f H. rewrite CL, items_snoc. destruct (OLD m f H) as [(-> & ->)|(H' & X)].
        -- unfold add_figure at 1. cbn [fg_clip fg_chars fg_shapes fg_graphics add_figure]. rewrite S1. apply holds_snoc. exact (B _ _ NM).
        -- rewrite X, app_nil_r. exact (B _ _ H').
      * intros e H K. apply in_app_or in H. destruct H as [H|[<-|[]]].
        -- destruct (C e H K) as [X|(f & X & Y)]; [left; exact X|right]. apply in_app_or in X. destruct X as [X|[<-|X]].
           ++ exists f. split; [apply in_or_app; left; exact X|exact Y].
           ++ exists (add_figure (en_item en) f0). split; [apply in_or_app; right; left; reflexivity|exact Y].
           ++ exists f. split; [apply in_or_app; right; right; exact X|exact Y].
        -- right. exists (add_figure (en_item en) f0). split; [apply in_or_app; right; left; reflexivity|exact G].
      * intros m f H. cbv zeta. rewrite CL, entries_snoc. destruct (OLD m f H) as [(-> & ->)|(H' & X)].
        -- destruct (D _ _ NM) as (D1 & D2 & en0 & rest & D3 & D4 & D5). cbv zeta in D3.
           change (fg_clip (add_figure (en_item en) f0)) with (fg_clip f0). rewrite S1, D3. split; [exact D1|].
           split; [exact D2|]. exists en0, (rest ++ [en]). split; [reflexivity|]. split; [exact D4|].
           intro NN. change (en0 :: rest ++ [en]) with ((en0 :: rest) ++ [en]) in *. rewrite map_app.
           change (map (fun e => item_pos (en_item e)) [en]) with [item_pos (en_item en)].
           unfold add_figure. cbn [fg_pos]. apply smallest_snoc.
           ++ apply D5. intros e I. apply NN. apply in_or_app. left. exact I.
           ++ intros q I. apply in_map_iff in I. destruct I as (e & <- & I). apply NN. apply in_or_app. left. exact I.
           ++ apply NN. apply in_or_app. right. left. reflexivity.
        -- rewrite X, app_nil_r. exact (D _ _ H').
    + (* in a new figure *)
      pose proof (add_figures_none _ _ _ F) as NN.
      unfold set_figures, page_holds, figures_created. cbn [pp_num pp_clip pp_chars pp_shapes pp_graphics pp_figures].
      assert (EMPTY : entries_at j (pp_clip pg :: map fg_clip (pp_figures pg)) (en_clip en) log = []).
      { destruct (entries_at j (pp_clip pg :: map fg_clip (pp_figures pg)) (en_clip en) log) as [|e r] eqn:Z; [reflexivity|exfalso].
        assert (I : In e (entries_at j (pp_clip pg :: map fg_clip (pp_figures pg)) (en_clip en) log)) by (rewrite Z; left; reflexivity).
        apply filter_In in I. destruct I as (I & K). apply andb_true_iff in K. destruct K as (K & K3). apply andb_true_iff in K. destruct K as (K1 & K2).
        apply Nat.eqb_eq in K1. apply negb_true_iff in K3. cbn [existsb] in K3. apply orb_false_iff in K3. destruct K3 as (K3 & K4).
        destruct (C e I K1) as [X|(f & X & Y)]; [congruence|].
        assert (Z' : existsb (agree (en_clip e)) (map fg_clip (pp_figures pg)) = true); [|congruence].
        apply existsb_exists. exists (fg_clip f). split; [apply in_map, X|exact Y]. }
      set (nf := new_figure (pp_num pg) (en_clip en) (en_item en)).
      assert (NC : cond j (pp_clip pg :: map fg_clip (pp_figures pg)) (en_clip en) en = true).
      { rewrite cond_here by exact J. cbn [existsb]. rewrite R, P, NN. reflexivity. }
      assert (CASE : forall m f, nth_error (pp_figures pg ++ [nf]) m = Some f ->
        (f = nf /\ firstn m (pp_figures pg ++ [nf]) = pp_figures pg) \/
        (nth_error (pp_figures pg) m = Some f /\ firstn m (pp_figures pg ++ [nf]) = firstn m (pp_figures pg) /\ agree (en_clip en) (fg_clip f) = false)).
      { intros m f H. destruct (nth_mid _ _ _ _ _ H) as [(L & H')|[(-> & ->)|(L & H')]].
        - right. split; [exact H'|]. split; [rewrite firstn_mid; destruct (Nat.leb_spec m (length (pp_figures pg))); [reflexivity|lia]|].
          destruct (agree (en_clip en) (fg_clip f)) eqn:X; [|reflexivity]. rewrite <- NN. symmetry. apply existsb_exists.
          exists (fg_clip f). split; [apply in_map; eapply nth_error_In, H'|exact X].
        - left. split; [reflexivity|]. rewrite firstn_app, Nat.sub_diag, firstn_all. cbn [firstn]. apply app_nil_r.
        - destruct (m - S (length (pp_figures pg)))%nat; discriminate. }
      split; [split; [|split]|].
      * rewrite items_snoc, cond_here by exact J. rewrite P. cbn [andb]. rewrite app_nil_r. exact A.
      * intros m f H. rewrite items_snoc. destruct (CASE m f H) as [(-> & ->)|(H' & -> & X)].
        -- change (fg_clip nf) with (en_clip en). rewrite NC, items_entries, EMPTY. cbn [map app]. unfold nf, new_figure.
           cbn [fg_chars fg_shapes fg_graphics]. unfold holds. cbn [flat_map]. rewrite !app_nil_r. repeat split.
        -- rewrite cond_here by exact J. rewrite X. cbn [andb]. rewrite app_nil_r. exact (B m f H').
      * intros e H K. apply in_app_or in H. destruct H as [H|[<-|[]]].
        -- destruct (C e H K) as [X|(f & X & Y)]; [left; exact X|right]. exists f. split; [apply in_or_app; left; exact X|exact Y].
        -- right. exists nf. split; [apply in_or_app; right; left; reflexivity|exact R].
      * intros m f H. cbv zeta. rewrite entries_snoc. destruct (CASE m f H) as [(-> & ->)|(H' & -> & X)].
        -- change (fg_clip nf) with (en_clip en). rewrite NC, EMPTY. cbn [app]. split; [cbn [existsb]; rewrite P, NN; reflexivity|].
           split; [reflexivity|]. exists en, []. split; [reflexivity|]. split; [reflexivity|]. intro N0. cbn [map].
           apply smallest_one. apply N0. left. reflexivity.
        -- rewrite cond_here by exact J. rewrite X. cbn [andb]. rewrite app_nil_r. exact (D m f H').
Qed.

(** ** Lookup *)
Lemma find_first {V} n (l : list (str * V)) :
  match find (fun e => str_eqb (fst e) n) l with
  | Some (m, v) => m = n /\ exists a b, l = a ++ (n, v) :: b /\ ~ In n (map fst a)
  | None => ~ In n (map fst l)
  end.
Proof.
  induction l as [|[m v] l IH]; [exact (fun H => H)|]. cbn [find fst]. destruct (str_eqb m n) eqn:E.
  - apply str_eqb_eq in E. subst m. split; [reflexivity|]. exists [], l. split; [reflexivity|exact (fun H => H)].
  - assert (N : m <> n) by (intro H; subst; rewrite str_eqb_refl in E; discriminate).
    destruct (find (fun e => str_eqb (fst e) n) l) as [[m' v']|].
    + destruct IH as (-> & a & b & -> & NI). split; [reflexivity|]. exists ((m, v) :: a), b. split; [reflexivity|].
      intros [H|H]; [exact (N H)|exact (NI H)].
    + intros [H|H]; [exact (N H)|exact (IH H)].
Qed.
Lemma find_name_some n u t : find_name n = Some (u, t) -> in_table n u t.
Proof.
  unfold find_name. pose proof (find_first n charMapEntries) as F.
  destruct (find (fun e => str_eqb (fst e) n) charMapEntries) as [[m [u' t']]|]; cbn [option_map snd]; [|discriminate].
  intro H. inversion H; subst. destruct F as (_ & F). exact F.
Qed.
Lemma find_name_none n : find_name n = None -> forall u t, ~ in_table n u t.
Proof.
  unfold find_name. pose proof (find_first n charMapEntries) as F.
  destruct (find (fun e => str_eqb (fst e) n) charMapEntries) as [[m [u' t']]|]; cbn [option_map snd]; [discriminate|].
  intros _ u t (a & b & E & _). apply F. rewrite E, map_app. apply in_or_app. right. left. reflexivity.
Qed.

Lemma not_in_nil_filter {A} (f : A -> bool) l : (forall x, In x l -> f x = false) -> filter f l = [].
Proof.
  induction l as [|x l IH]; intro H; [reflexivity|]. cbn [filter]. rewrite (H x (or_introl eq_refl)). apply IH. intros y I. apply H. right. exact I.
Qed.
Lemma Forall2_length {A B} (P : A -> B -> Prop) l l' : Forall2 P l l' -> length l = length l'.
Proof. induction 1; [reflexivity|cbn [length]; congruence]. Qed.

Section Run.
  Context (parseFont : gfx_font -> outcome font) (mapUnicode : option (N -> str)) (from_bytes : str -> option (list N))
          (iswspace : N -> bool) (ids : Z -> str).
  Notation handle := (handle parseFont mapUnicode from_bytes iswspace ids).
  Notation handle_all := (handle_all parseFont mapUnicode from_bytes iswspace ids).
  Notation parse := (parse_events parseFont mapUnicode from_bytes iswspace ids).
  Notation adds := (adds parseFont mapUnicode from_bytes iswspace).

  Lemma handle_all_app a b p : handle_all (a ++ b) p = (do q <- handle_all a p; handle_all b q).
  Proof.
    revert p. induction a as [|e a IH]; intro p; [reflexivity|]. cbn [app Parsing.handle_all].
    destruct (handle p e) as [q|w|w]; cbn [obind]; [apply IH|reflexivity|reflexivity].
  Qed.
  Lemma parse_snoc es e s : parse (es ++ [e]) = Ok s -> exists p, parse es = Ok p /\ handle p e = Ok s.
  Proof.
    unfold parse_events. rewrite handle_all_app. destruct (handle_all es parser_init) as [p|w|w] eqn:H; cbn [obind]; try discriminate.
    cbn [Parsing.handle_all]. destruct (handle p e) as [q|w|w] eqn:Q; cbn [obind]; try discriminate.
    intro X. injection X as <-. exists p. split; [reflexivity|exact Q].
  Qed.

  (** Text *)
  Lemma char_name_spec s code : glyph_name s code (char_name (s_font s) code).
  Proof.
    unfold glyph_name, char_name. destruct (s_font s) as [f|] eqn:F.
    - destruct (pf_kind f) as [g w|w|] eqn:K.
      + destruct (g code) as [n|] eqn:G.
        * left. exists f, g, w. auto.
        * right. split; [|reflexivity]. intros f' g' w' n H H'. inversion H; subst f'. rewrite K in H'. inversion H'; subst. congruence.
      + right. split; [|reflexivity]. intros f' g' w' n H H'. inversion H; subst f'. congruence.
      + right. split; [|reflexivity]. intros f' g' w' n H H'. inversion H; subst f'. congruence.
    - right. split; [|reflexivity]. intros; discriminate.
  Qed.
  Lemma char_text_spec name u uLen text us : char_text mapUnicode name u uLen = Ok (text, us) ->
    glyph_text mapUnicode name u uLen text us.
  Proof.
    unfold char_text, glyph_text. intro H.
    assert (O : forall (X : match u with None => text = [] /\ us = [] | Some l => (exists rest, l = us ++ rest) /\
        Z.of_nat (length us) = Z.max uLen 0 /\ text = match mapUnicode with Some m => concat (map m us) | None => [] end end),
        (uLen <> 1 \/ forall c t, ~ in_table name c t) -> glyph_text mapUnicode name u uLen text us).
    { intros X Y. right. split; [exact Y|exact X]. }
    assert (B : (match u with None => Ok ([], []) | Some l => if Z.of_nat (length l) <? uLen then UB "read beyond the end of u"
        else let l := firstn (Z.to_nat uLen) l in Ok (match mapUnicode with Some m => concat (map m l) | None => [] end, l) end) = Ok (text, us) ->
        match u with None => text = [] /\ us = [] | Some l => (exists rest, l = us ++ rest) /\
        Z.of_nat (length us) = Z.max uLen 0 /\ text = match mapUnicode with Some m => concat (map m us) | None => [] end end).
    { clear. destruct u as [l|].
      - destruct (Z.ltb_spec (Z.of_nat (length l)) uLen); [discriminate|]. cbv zeta. intro X. inversion X; subst us.
        split; [exists (skipn (Z.to_nat uLen) l); symmetry; apply firstn_skipn|]. split; [|reflexivity].
        rewrite firstn_length. lia.
      - intro X. inversion X. auto. }
    destruct (Z.eqb_spec uLen 1) as [U|U].
    - destruct (find_name name) as [[c t]|] eqn:F.
      + inversion H; subst. left. split; [reflexivity|]. exists c. split; [apply find_name_some, F|reflexivity].
      + apply O; [apply B, H|right; apply find_name_none, F].
    - apply O; [apply B, H|left; exact U].
  Qed.
  Lemma is_blank_spec text b : is_blank from_bytes iswspace text = Ok b -> exists w, from_bytes text = Some w /\ (b = true <-> blank iswspace w).
  Proof.
    unfold is_blank. destruct (from_bytes text) as [w|]; [|discriminate]. intro H. injection H as <-. exists w. split; [reflexivity|].
    rewrite andb_true_iff, negb_true_iff, Nat.eqb_neq, forallb_forall. unfold blank. split.
    - intros (A & B). split; [intros ->; apply A; reflexivity|]. intros c I. apply B in I. apply orb_true_iff in I.
      destruct I as [I|I]; [left; exact I|right; apply N.eqb_eq, I].
    - intros (A & B). split; [destruct w; [congruence|discriminate]|]. intros c I. apply orb_true_iff.
      destruct (B c I) as [X|X]; [left; exact X|right; apply N.eqb_eq, X].
  Qed.

  (** Fonts *)
  Lemma key_called f : called f (font_key f).
  Proof. unfold called, font_key. destruct (g_name (pf_info f)) as [n|]; auto. Qed.
  Lemma called_key f n : called f n -> n = font_key f.
  Proof. unfold called, font_key. intros [->|[-> <-]]; reflexivity. Qed.
  Lemma find_font_first n l :
    match find_font n l with
    | Some i => exists a b, l = a ++ (n, i) :: b /\ ~ In n (map fst a)
    | None => ~ In n (map fst l)
    end.
  Proof.
    unfold find_font. pose proof (find_first n l) as F. destruct (find (fun e => str_eqb (fst e) n) l) as [[m i]|]; cbn [option_map snd];
      [apply (proj2 F)|exact F].
  Qed.
  Lemma find_font_snoc n l m i : find_font n (l ++ [(m, i)]) =
    match find_font n l with Some j => Some j | None => if str_eqb m n then Some i else None end.
  Proof.
    unfold find_font. induction l as [|[m' j] l IH]; cbn [app find fst].
    - destruct (str_eqb m n); reflexivity.
    - destruct (str_eqb m' n); [reflexivity|exact IH].
  Qed.
  Definition fonts_ok (es : list event) (p : parser) : Prop :=
    NoDup (map fst (pr_fonts p)) /\
    (forall n i, find_font n (pr_fonts p) = Some i -> exists f, first_called es n f /\ parseFont (pf_info f) = Ok i) /\
    (forall n, find_font n (pr_fonts p) = None -> forall s f, In (UpdateFont s) es -> s_font s = Some f -> ~ called f n) /\
    match selected es with
    | Some cur => exists i, pr_font p = Some i /\ find_font (font_key cur) (pr_fonts p) = Some i
    | None => pr_font p = None
    end.
  Lemma first_called_app es e n f : first_called es n f -> first_called (es ++ [e]) n f.
  Proof.
    intros (b & s & a & -> & H). exists b, s, (a ++ [e]). split; [rewrite <- app_assoc; reflexivity|exact H].
  Qed.
  Lemma selected_snoc es e : selected (es ++ [e]) = select (selected es) e.
  Proof. unfold selected. rewrite fold_left_app. reflexivity. Qed.
  Lemma fonts_ok_other es e p p' : (forall s, e <> UpdateFont s) -> pr_fonts p' = pr_fonts p -> pr_font p' = pr_font p ->
    fonts_ok es p -> fonts_ok (es ++ [e]) p'.
  Proof.
    intros N E1 E2 (A & B & C & D). unfold fonts_ok. rewrite E1, E2, selected_snoc.
    replace (select (selected es) e) with (selected es) by (destruct e; try reflexivity; exfalso; eapply N; reflexivity).
    split; [exact A|]. split; [|split; [|exact D]].
    - intros n i H. destruct (B n i H) as (f & X & Y). exists f. split; [apply first_called_app, X|exact Y].
    - intros n H s f I. apply in_app_or in I. destruct I as [I|[I|[]]]; [apply (C n H s f I)|exfalso; eapply N; exact I].
  Qed.
  Lemma fonts_ok_update es s p p' : handle p (UpdateFont s) = Ok p' -> fonts_ok es p -> fonts_ok (es ++ [UpdateFont s]) p'.
  Proof.
    cbn [Parsing.handle]. unfold update_font. intros H (A & B & C & D). unfold fonts_ok. rewrite selected_snoc. cbn [select].
    destruct (s_font s) as [f|] eqn:F.
    - destruct (find_font (font_key f) (pr_fonts p)) as [i|] eqn:X.
      + injection H as <-. cbn [pr_fonts pr_font]. split; [exact A|]. split; [|split].
        * intros n i' G. destruct (B n i' G) as (f' & Y & Z). exists f'. split; [apply first_called_app, Y|exact Z].
        * intros n G s' f' I F'. apply in_app_or in I. destruct I as [I|[I|[]]]; [apply (C n G s' f' I F')|].
          inversion I; subst s'. rewrite F in F'. inversion F'; subst f'. intro K. apply called_key in K. subst n. congruence.
        * exists i. auto.
      + destruct (parseFont (pf_info f)) as [i|w|w] eqn:PF; cbn [obind] in H; try discriminate. injection H as <-. cbn [pr_fonts pr_font].
        split; [|split; [|split]].
        * rewrite map_app. cbn [map fst]. pose proof (find_font_first (font_key f) (pr_fonts p)) as NI. rewrite X in NI.
          apply NoDup_app_comm_iff. cbn [app]. constructor; assumption.
        * intros n i' G. rewrite find_font_snoc in G. destruct (find_font n (pr_fonts p)) as [j|] eqn:Y.
          -- injection G as <-. destruct (B n j Y) as (f' & Y' & Z). exists f'. split; [apply first_called_app, Y'|exact Z].
          -- destruct (str_eqb (font_key f) n) eqn:Q; [|discriminate]. apply str_eqb_eq in Q. subst n. injection G as <-.
             exists f. split; [|exact PF]. exists es, s, []. split; [reflexivity|]. split; [exact F|]. split; [apply key_called|].
             intros s' f' I F' K. exact (C _ Y s' f' I F' K).
        * intros n G s' f' I F'. rewrite find_font_snoc in G. destruct (find_font n (pr_fonts p)) as [j|] eqn:Y; [discriminate|].
          destruct (str_eqb (font_key f) n) eqn:Q; [discriminate|].
          apply in_app_or in I. destruct I as [I|[I|[]]]; [apply (C n Y s' f' I F')|].
          inversion I; subst s'. rewrite F in F'. inversion F'; subst f'. intro K. apply called_key in K. subst n.
          rewrite str_eqb_refl in Q. discriminate.
        * exists i. split; [reflexivity|]. rewrite find_font_snoc, X, str_eqb_refl. reflexivity.
    - injection H as <-. cbn [pr_fonts pr_font]. split; [exact A|]. split; [|split; [|reflexivity]].
      + intros n i' G. destruct (B n i' G) as (f' & Y & Z). exists f'. split; [apply first_called_app, Y|exact Z].
      + intros n G s' f' I F'. apply in_app_or in I. destruct I as [I|[I|[]]]; [apply (C n G s' f' I F')|]. inversion I; subst s'. congruence.
  Qed.

  (** The document and the log *)
  Definition log_ok (log : list entry) (es : list event) (p : parser) : Prop :=
    map (fun en => item_rank (en_item en)) log = map Z.of_nat (seq 0 (length log)) /\
    pr_num p = Z.of_nat (length log) /\
    Forall2 started (starts es) (pages p) /\
    (pr_page p = None -> pr_done p = []) /\
    (forall j pg, nth_error (pages p) j = Some pg -> page_holds j pg log /\ figures_created j pg log) /\
    (forall en, In en log -> (en_page en < length (pages p))%nat).
  Lemma starts_snoc es e : starts (es ++ [e]) = starts es ++ if is_start e then [e] else [].
  Proof. unfold starts. rewrite filter_app. cbn [filter]. reflexivity. Qed.
  Lemma log_ok_quiet log es e p p' : is_start e = false -> pr_done p' = pr_done p -> pr_page p' = pr_page p -> pr_num p' = pr_num p ->
    log_ok log es p -> log_ok log (es ++ [e]) p'.
  Proof.
    intros N E1 E2 E3 (A & B & C & D & F & G). unfold log_ok, pages in *. rewrite E1, E2, E3, starts_snoc, N, app_nil_r.
    split; [exact A|]. split; [exact B|]. split; [exact C|]. split; [exact D|]. split; [exact F|exact G].
  Qed.
  Lemma nth_snoc {A} (l : list A) x i y : nth_error (l ++ [x]) i = Some y -> (i < length l)%nat /\ nth_error l i = Some y \/ i = length l /\ y = x.
  Proof.
    intro H. destruct (nth_mid _ _ _ _ _ H) as [X|[X|(L & X)]]; [left; exact X|right; exact X|].
    destruct (i - S (length l))%nat; discriminate.
  Qed.
  Lemma log_ok_start log es num s p : log_ok log es p -> log_ok log (es ++ [StartPage num s]) (start_page num s p).
  Proof.
    intros (A & B & C & D & F & G). unfold log_ok. rewrite starts_snoc. cbn [is_start].
    assert (PG : pages (start_page num s p) = pages p ++ [mkPPage num (round_clip (s_clip s)) [] [] [] []]) by reflexivity.
    rewrite PG. split; [exact A|]. split; [exact B|]. split; [|split; [|split]].
    - apply Forall2_app; [exact C|]. constructor; [|constructor]. exists num, s. split; [reflexivity|]. split; [reflexivity|].
      unfold rounded, round_clip, rnd. cbn [pp_clip k_left k_upper k_right k_lower]. repeat split.
    - discriminate.
    - intros j pg H. destruct (nth_snoc _ _ _ _ H) as [(_ & H')|(-> & ->)]; [apply (F j pg H')|].
      assert (EMPTY : forall ks k, entries_at (length (pages p)) ks k log = []).
      { intros ks k. unfold entries_at. apply not_in_nil_filter. intros en I. specialize (G en I).
        destruct (Nat.eqb_spec (en_page en) (length (pages p))); [lia|reflexivity]. }
      split; [split; [|split]|].
      + rewrite items_entries, EMPTY. repeat split.
      + intros m f X. destruct m; discriminate.
      + intros en I J. specialize (G en I). lia.
      + intros m f X. destruct m; discriminate.
    - intros en I. rewrite app_length. specialize (G en I). lia.
  Qed.

  Lemma log_ok_store log es e s k mk p p' : is_start e = false -> finite_clip (s_clip s) -> k = round_clip (s_clip s) ->
    (forall num r, pageNum (item_pos (mk num r)) = num /\ item_rank (mk num r) = r) ->
    store k mk p = Ok p' -> log_ok log es p ->
    exists en q, pr_page p = Some q /\ en_item en = mk (pp_num q) (pr_num p) /\ here es s en /\ log_ok (log ++ [en]) (es ++ [e]) p' /\
      pr_fonts p' = pr_fonts p /\ pr_font p' = pr_font p.
  Proof.
    intros N FC -> MK H (A & B & C & D & F & G). unfold store in H.
    destruct (pr_page p) as [q|] eqn:Q; [|discriminate]. destruct (pr_num p =? 2 ^ 31 - 1) eqn:O; [discriminate|]. injection H as <-.
    destruct (MK (pp_num q) (pr_num p)) as (MK1 & MK2).
    exists (mkEntry (length (pr_done p)) (round_clip (s_clip s)) (mk (pp_num q) (pr_num p))), q.
    set (en := mkEntry (length (pr_done p)) (round_clip (s_clip s)) (mk (pp_num q) (pr_num p))).
    assert (PG : pages p = pr_done p ++ [q]) by (unfold pages; rewrite Q; reflexivity).
    rewrite PG in *. assert (LEN : length (starts es) = S (length (pr_done p))).
    { apply Forall2_length in C. rewrite app_length in C. cbn [length] in C. lia. }
    split; [reflexivity|]. split; [reflexivity|]. split; [|split; [|split; reflexivity]].
    - split; [cbn [en_page en]; symmetry; exact LEN|]. split; [unfold rounded, en, round_clip, rnd; cbn [en_clip k_left k_upper k_right k_lower]; repeat split|].
      apply Forall2_app_inv_r in C. destruct C as (l & l' & C1 & C2 & ->). inversion C2 as [|x y l0 l0' (num & s0 & -> & X & _) C3]; subst. inversion C3; subst.
      exists (pp_num q), s0, l. split; [reflexivity|exact MK1].
    - unfold log_ok. rewrite starts_snoc, N, app_nil_r.
      assert (PG' : pages (mkParser (pr_done p) (Some (place (round_clip (s_clip s)) (mk (pp_num q) (pr_num p)) q)) (pr_fonts p) (pr_font p) (pr_num p + 1))
        = pr_done p ++ [place (en_clip en) (en_item en) q]) by reflexivity.
      rewrite PG'. cbn [pr_num pr_page]. rewrite !app_length, !map_app. cbn [length map].
      assert (KEEP : pp_num (place (en_clip en) (en_item en) q) = pp_num q /\ pp_clip (place (en_clip en) (en_item en) q) = pp_clip q).
      { unfold place. destruct (same_clip (en_clip en) (pp_clip q)); [split; reflexivity|].
        destruct (add_figures (en_clip en) (en_item en) (pp_figures q)); split; reflexivity. }
      assert (REFL : agree (en_clip en) (en_clip en) = true).
      { destruct FC as (F1 & F2 & F3 & F4). apply agree_refl; assumption. }
      split; [|split; [|split; [|split; [|split]]]].
      + rewrite A, Nat.add_1_r, seq_S, map_app. cbn [map Nat.add]. f_equal. f_equal. unfold en. cbn [en_item]. rewrite MK2. exact B.
      + rewrite B. lia.
      + apply Forall2_app_inv_r in C. destruct C as (l & l' & C1 & C2 & ->). inversion C2 as [|x y l0 l0' (num & s0 & -> & X & Y) C3]; subst. inversion C3; subst.
        apply Forall2_app; [exact C1|]. constructor; [|constructor]. exists (pp_num q), s0. rewrite (proj1 KEEP), (proj2 KEEP). auto.
      + discriminate.
      + intros j pg H. destruct (nth_snoc _ _ _ _ H) as [(L & H')|(-> & ->)].
        * apply other_page; [unfold en; cbn [en_page]; lia|]. apply F. rewrite nth_error_app1 by exact L. exact H'.
        * apply place_holds; [reflexivity|exact REFL|]. apply F. rewrite nth_error_app2, Nat.sub_diag by lia. reflexivity.
      + intros e0 I. apply in_app_or in I. destruct I as [I|[<-|[]]]; [|unfold en; cbn [en_page]; lia].
        specialize (G e0 I). rewrite app_length in G. exact G.
  Qed.

  Lemma run_ok es : finite_clips es -> forall p, parse es = Ok p -> fonts_ok es p /\
    exists parts, length parts = length es /\
      (forall i e, nth_error es i = Some e -> exists part, nth_error parts i = Some part /\ adds (firstn i es) e part) /\
      log_ok (concat parts) es p.
  Proof.
    induction es as [|e es IH] using rev_ind; intros FC p H.
    - inversion H; subst p. split.
      + split; [constructor|]. split; [discriminate|]. split; [intros n _ s f []|reflexivity].
      + exists []. split; [reflexivity|]. split; [intros i e X; destruct i; discriminate|].
        split; [reflexivity|]. split; [reflexivity|]. split; [constructor|]. split; [reflexivity|].
        split; [intros j pg X; destruct j; discriminate|intros en []].
    - apply parse_snoc in H. destruct H as (p0 & H0 & H).
      assert (FC0 : finite_clips es) by (intros e0 s I; apply FC; apply in_or_app; left; exact I).
      destruct (IH FC0 p0 H0) as (FO & parts & L & PA & LO).
      assert (DONE : forall part, adds es e part -> log_ok (concat parts ++ part) (es ++ [e]) p ->
        exists parts, length parts = length (es ++ [e]) /\
          (forall i e0, nth_error (es ++ [e]) i = Some e0 -> exists part, nth_error parts i = Some part /\ adds (firstn i (es ++ [e])) e0 part) /\
          log_ok (concat parts) (es ++ [e]) p).
      { intros part AD LO'. exists (parts ++ [part]). split; [rewrite !app_length, L; reflexivity|]. split.
        - intros i e0 X. destruct (nth_snoc _ _ _ _ X) as [(LT & X')|(-> & ->)].
          + destruct (PA i e0 X') as (pt & Y & Z). exists pt. rewrite nth_error_app1 by lia. split; [exact Y|].
            rewrite firstn_app. replace (i - length es)%nat with 0%nat by lia. cbn [firstn]. rewrite app_nil_r. exact Z.
          + exists part. rewrite <- L, nth_error_app2, Nat.sub_diag by lia. split; [reflexivity|].
            rewrite L, firstn_app, Nat.sub_diag, firstn_all. cbn [firstn]. rewrite app_nil_r. exact AD.
        - rewrite concat_app. cbn [concat]. rewrite app_nil_r. exact LO'. }
      assert (KF : forall s, state_of e = Some s -> finite_clip (s_clip s)).
      { intros s X. apply (FC e s); [apply in_or_app; right; left; reflexivity|exact X]. }
      destruct e as [num s| |s|s code nBytes u uLen|s|s|s]; cbn [Parsing.handle] in H.
      + injection H as <-. split; [apply (fonts_ok_other es _ p0); try reflexivity; [discriminate|exact FO]|].
        apply (DONE []); [reflexivity|]. rewrite app_nil_r. apply log_ok_start, LO.
      + injection H as <-. split; [apply (fonts_ok_other es _ p0); try reflexivity; [discriminate|exact FO]|].
        apply (DONE []); [reflexivity|]. rewrite app_nil_r. apply (log_ok_quiet _ _ _ p0); try reflexivity. exact LO.
      + split; [apply (fonts_ok_update es s p0 p H FO)|]. apply (DONE []); [reflexivity|]. rewrite app_nil_r.
        apply (log_ok_quiet _ _ _ p0); try reflexivity; [| | |exact LO]; unfold update_font in H;
          (destruct (s_font s) as [f|]; [destruct (find_font (font_key f) (pr_fonts p0)) as [i|];
             [|destruct (parseFont (pf_info f)) as [i|w|w]; cbn [obind] in H; try discriminate]|]; injection H as <-; reflexivity).
      + (* a character *)
        assert (SEL := proj2 (proj2 (proj2 FO))). unfold draw_char in H.
        destruct (pr_font p0) as [i|] eqn:PF.
        * destruct (selected es) as [cur|] eqn:SC; [|discriminate].
          destruct (char_text mapUnicode (char_name (s_font s) code) u uLen) as [[text us]|w|w] eqn:CT; cbn [obind] in H; try discriminate.
          destruct (is_blank from_bytes iswspace text) as [b|w|w] eqn:BL; cbn [obind] in H; try discriminate.
          destruct (is_blank_spec _ _ BL) as (w & FB & BW).
          assert (NEQ : Some cur <> None) by discriminate.
          destruct b.
          -- injection H as <-. split; [apply (fonts_ok_other es _ p0); try reflexivity; [discriminate|exact FO]|].
             apply (DONE []); [|rewrite app_nil_r; apply (log_ok_quiet _ _ _ p0); try reflexivity; exact LO].
             cbn [ParsingSpec.adds]. rewrite SC. split; [discriminate|]. intros _. exists (char_name (s_font s) code), text, us, w.
             split; [apply char_name_spec|]. split; [apply char_text_spec, CT|]. split; [exact FB|]. split; [reflexivity|].
             intro NB. exfalso. apply NB, BW. reflexivity.
          -- destruct (s_font s) as [pf|] eqn:SF; [|discriminate].
             destruct (char_width (Some pf) code nBytes) as [wd|w'|w'] eqn:CW; cbn [obind] in H; try discriminate.
             assert (LS := fun M => log_ok_store (concat parts) es (DrawChar s code nBytes u uLen) s (round_clip (s_clip s)) _ p0 p eq_refl (KF s eq_refl) eq_refl M H LO).
             specialize (LS (fun num r => conj eq_refl eq_refl)).
             destruct LS as (en & q & PP & EI & HE & LO' & E1 & E2).
             split; [apply (fonts_ok_other es _ p0); [discriminate|exact E1|exact E2|exact FO]|].
             apply (DONE [en]); [|exact LO']. cbn [ParsingSpec.adds]. rewrite SC. split; [discriminate|]. intros _.
             exists (char_name (s_font s) code), text, us, w. split; [apply char_name_spec|].
             split; [rewrite SF; apply char_text_spec, CT|]. split; [exact FB|]. split; [intro NB; apply BW in NB; discriminate|].
             intros _. pose proof (char_box_ok s i pf (char_name (s_font s) code) wd (pp_num q)) as CB. rewrite SF in CB.
             assert (CP : wMode (fst (char_position s i pf (char_name (Some pf) code) wd (pp_num q))) = pf_wMode pf /\
               rotation (fst (char_position s i pf (char_name (Some pf) code) wd (pp_num q))) = char_rotation s) by (split; reflexivity).
             destruct (char_position s i pf (char_name (Some pf) code) wd (pp_num q)) as [ps bs] eqn:EP. cbn [fst] in CP.
             eexists. exists en. split; [reflexivity|]. split; [exact EI|]. split; [exact HE|].
             unfold char_of. cbn [c_text c_unicodes c_name c_opacity c_color c_fontSize c_fontName c_isSub c_isSuper c_markOf c_hasMark c_pos c_base].
             rewrite SF. do 6 (split; [reflexivity|]). split; [|repeat split].
             destruct FO as (_ & FB' & _ & _). destruct SEL as (i' & X & Y). inversion X; subst i'. destruct (FB' _ _ Y) as (f & Z1 & Z2).
             exists f, i, pf, wd. split; [|split; [exact Z2|split; [reflexivity|]]].
             { exists cur, (font_key cur). split; [exact SC|]. split; [apply key_called|exact Z1]. }
             split; [reflexivity|]. split; [apply char_width_ok, CW|]. split; [apply CP|]. split; [rewrite (proj2 CP); apply turned_ok, SF|exact CB].
        * injection H as <-. split; [apply (fonts_ok_other es _ p0); try reflexivity; [discriminate|exact FO]|].
          apply (DONE []); [|rewrite app_nil_r; apply (log_ok_quiet _ _ _ p0); try reflexivity; exact LO].
          cbn [ParsingSpec.adds]. split; [reflexivity|]. intro X. exfalso. apply X.
          destruct (selected es) as [cur|]; [|reflexivity]. destruct SEL as (i & Y & _). discriminate.
      + unfold stroke in H. destruct (fold_left (see_point (round_clip (s_clip s))) (concat (s_path s)) (DBL_MAX, DBL_MAX, DBL_MIN, DBL_MIN)) as [[[a b] c] d] eqn:FL.
        assert (LS := fun M => log_ok_store (concat parts) es (Stroke s) s (round_clip (s_clip s)) _ p0 p eq_refl (KF s eq_refl) eq_refl M H LO).
             specialize (LS (fun num r => conj eq_refl eq_refl)).
        destruct LS as (en & q & PP & EI & HE & LO' & E1 & E2).
        split; [apply (fonts_ok_other es _ p0); [discriminate|exact E1|exact E2|exact FO]|].
        apply (DONE [en]); [|exact LO']. eexists. exists en. split; [reflexivity|]. split; [exact EI|]. split; [exact HE|]. apply shape_box_ok, FL.
      + unfold stroke in H. destruct (fold_left (see_point (round_clip (s_clip s))) (concat (s_path s)) (DBL_MAX, DBL_MAX, DBL_MIN, DBL_MIN)) as [[[a b] c] d] eqn:FL.
        assert (LS := fun M => log_ok_store (concat parts) es (Fill s) s (round_clip (s_clip s)) _ p0 p eq_refl (KF s eq_refl) eq_refl M H LO).
             specialize (LS (fun num r => conj eq_refl eq_refl)).
        destruct LS as (en & q & PP & EI & HE & LO' & E1 & E2).
        split; [apply (fonts_ok_other es _ p0); [discriminate|exact E1|exact E2|exact FO]|].
        apply (DONE [en]); [|exact LO']. eexists. exists en. split; [reflexivity|]. split; [exact EI|]. split; [exact HE|]. apply shape_box_ok, FL.
      + unfold draw_graphic in H. cbv zeta in H.
        match type of H with (if ?c then _ else _) = _ => destruct c eqn:OUT end.
        * injection H as <-. split; [apply (fonts_ok_other es _ p0); try reflexivity; [discriminate|exact FO]|].
          apply (DONE []); [left; split; [reflexivity|apply (graphic_box_ok s 0), OUT]|rewrite app_nil_r; apply (log_ok_quiet _ _ _ p0); try reflexivity; exact LO].
        * assert (LS := fun M => log_ok_store (concat parts) es (DrawImage s) s (round_clip (s_clip s)) _ p0 p eq_refl (KF s eq_refl) eq_refl M H LO).
             specialize (LS (fun num r => conj eq_refl eq_refl)).
          destruct LS as (en & q & PP & EI & HE & LO' & E1 & E2).
          split; [apply (fonts_ok_other es _ p0); [discriminate|exact E1|exact E2|exact FO]|].
          apply (DONE [en]); [|exact LO']. right. eexists. exists en. split; [reflexivity|]. split; [exact EI|]. split; [exact HE|]. apply (graphic_box_ok s), OUT.
  Qed.

  (** Progress *)
  Definition is_update (e : event) : bool := match e with UpdateFont _ => true | _ => false end.
  Lemma store_fonts k mk p p' : store k mk p = Ok p' -> pr_fonts p' = pr_fonts p /\ pr_font p' = pr_font p.
  Proof. unfold store. destruct (pr_page p); [|discriminate]. destruct (pr_num p =? 2 ^ 31 - 1); [discriminate|]. intro H. injection H as <-. split; reflexivity. Qed.
  Lemma kept_fonts e p p' : is_update e = false -> handle p e = Ok p' -> pr_fonts p' = pr_fonts p /\ pr_font p' = pr_font p.
  Proof.
    destruct e as [num s| |s|s code nBytes u uLen|s|s|s]; cbn [Parsing.handle is_update]; intros U H; try discriminate.
    - injection H as <-. split; reflexivity.
    - injection H as <-. split; reflexivity.
    - unfold draw_char in H. destruct (pr_font p) as [i|] eqn:FI; [|injection H as <-; split; [reflexivity|exact FI]]. rewrite <- FI.
      destruct (char_text _ _ _ _) as [[t us]|x|x]; cbn [obind] in H; try discriminate.
      destruct (is_blank _ _ _) as [b|x|x]; cbn [obind] in H; try discriminate. destruct b; [injection H as <-; split; reflexivity|].
      destruct (s_font s); [|discriminate]. destruct (char_width _ _ _); cbn [obind] in H; try discriminate. apply (store_fonts _ _ _ _ H).
    - unfold stroke in H. destruct (fold_left _ _ _) as [[[a b] c] d]. apply (store_fonts _ _ _ _ H).
    - unfold stroke in H. destruct (fold_left _ _ _) as [[[a b] c] d]. apply (store_fonts _ _ _ _ H).
    - unfold draw_graphic in H. cbv zeta in H. match type of H with (if ?c then _ else _) = _ => destruct c end; [injection H as <-; split; reflexivity|]. apply (store_fonts _ _ _ _ H).
  Qed.
  Definition ready (es : list event) (p : parser) : Prop :=
    pr_num p <= Z.of_nat (length es) /\ (starts es <> [] -> pr_page p <> None).
  Lemma store_ready es e k mk p : Z.of_nat (length (es ++ [e])) < 2 ^ 31 -> is_start e = false -> ready es p -> starts es <> [] ->
    exists p', store k mk p = Ok p' /\ ready (es ++ [e]) p'.
  Proof.
    intros L NS (A & B) S0. unfold store. specialize (B S0). destruct (pr_page p) as [q|]; [|congruence].
    rewrite app_length in L. cbn [length] in L.
    destruct (Z.eqb_spec (pr_num p) (2 ^ 31 - 1)); [lia|]. eexists. split; [reflexivity|]. split; cbn [pr_num pr_page].
    - rewrite app_length. cbn [length]. lia.
    - discriminate.
  Qed.
  Lemma progress es : orderly parseFont mapUnicode from_bytes es -> exists p, parse es = Ok p /\ fonts_ok es p /\ ready es p.
  Proof.
    induction es as [|e es IH] using rev_ind; intros (L & ST & PF & DC).
    - exists parser_init. split; [reflexivity|]. split.
      + split; [constructor|]. split; [discriminate|]. split; [intros n _ s f []|reflexivity].
      + split; [cbn; lia|]. intro X. exfalso. apply X. reflexivity.
    - assert (O' : orderly parseFont mapUnicode from_bytes es).
      { split; [rewrite app_length in L; lia|]. split; [|split].
        - intros past x rest EQ. apply (ST past x (rest ++ [e])). rewrite EQ, <- app_assoc. reflexivity.
        - intros s f I. apply PF. apply in_or_app. left. exact I.
        - intros past s code n u uLen rest EQ. apply (DC past s code n u uLen (rest ++ [e])). rewrite EQ, <- app_assoc. reflexivity. }
      destruct (IH O') as (p & P & FO & RD).
      assert (STEP : exists p', handle p e = Ok p' /\ ready (es ++ [e]) p').
      { assert (QUIET : forall p', is_start e = false -> pr_num p' = pr_num p -> pr_page p' = pr_page p -> ready (es ++ [e]) p').
        { intros p' NS E1 E2. destruct RD as (A & B). split; [rewrite E1, app_length; lia|]. rewrite E2. intro X. apply B. intro Y. apply X.
          unfold starts in *. rewrite filter_app, Y. cbn [filter]. rewrite NS. reflexivity. }
        destruct e as [num s| |s|s code nBytes u uLen|s|s|s]; cbn [Parsing.handle].
        - eexists. split; [reflexivity|]. destruct RD as (A & B). split; [rewrite app_length; cbn [pr_num start_page]; lia|]. discriminate.
        - exists p. split; [reflexivity|]. apply QUIET; reflexivity.
        - unfold update_font. destruct (s_font s) as [f|] eqn:SF; [|eexists; split; [reflexivity|apply QUIET; reflexivity]].
          destruct (find_font (font_key f) (pr_fonts p)) as [i|]; [eexists; split; [reflexivity|apply QUIET; reflexivity]|].
          destruct (PF s f) as (i & HI); [apply in_or_app; right; left; reflexivity|exact SF|].
          rewrite HI. cbn [obind]. eexists. split; [reflexivity|]. apply QUIET; reflexivity.
        - unfold draw_char. destruct (pr_font p) as [i|] eqn:FI; [|exists p; split; [reflexivity|apply QUIET; reflexivity]].
          assert (SEL : selected es <> None).
          { intro X. destruct FO as (_ & _ & _ & Y). rewrite X in Y. congruence. }
          destruct (DC es s code nBytes u uLen [] eq_refl SEL) as (D1 & D2 & D3 & D4).
          assert (CT : exists text us, char_text mapUnicode (char_name (s_font s) code) u uLen = Ok (text, us)).
          { unfold char_text. destruct (if uLen =? 1 then find_name (char_name (s_font s) code) else None) as [[c t]|]; [eauto|].
            destruct u as [l|]; [|eauto]. destruct (Z.ltb_spec (Z.of_nat (length l)) uLen) as [Q|Q]; [|eauto]. specialize (D3 l eq_refl). lia. }
          destruct CT as (text & us & CT). rewrite CT. cbn [obind].
          assert (FB : from_bytes text <> None).
          { apply (D4 (char_name (s_font s) code) text us); [apply char_name_spec|apply char_text_spec, CT]. }
          unfold is_blank. destruct (from_bytes text) as [w|]; [|congruence]. cbn [obind].
          destruct (negb (Nat.eqb (length w) 0) && forallb (fun c => iswspace c || (c =? 160)%N) w); [exists p; split; [reflexivity|apply QUIET; reflexivity]|].
          destruct (s_font s) as [pf|] eqn:SF; [|congruence].
          assert (CW : exists wd, char_width (Some pf) code nBytes = Ok wd).
          { unfold char_width. destruct (pf_kind pf); [eauto| |eauto]. destruct (0 <? nBytes); [|eauto]. unfold code_bytes.
            destruct (Z.ltb_spec 4 nBytes); [lia|]. cbn [obind]. eauto. }
          destruct CW as (wd & CW). rewrite CW. cbn [obind]. apply store_ready; [exact L|reflexivity|exact RD|]. apply (ST es _ [] eq_refl eq_refl).
        - unfold stroke. destruct (fold_left _ _ _) as [[[a b] c] d]. apply store_ready; [exact L|reflexivity|exact RD|]. apply (ST es _ [] eq_refl eq_refl).
        - unfold stroke. destruct (fold_left _ _ _) as [[[a b] c] d]. apply store_ready; [exact L|reflexivity|exact RD|]. apply (ST es _ [] eq_refl eq_refl).
        - unfold draw_graphic. cbv zeta. match goal with |- context [if ?c then _ else _] => destruct c end.
          + exists p. split; [reflexivity|apply QUIET; reflexivity].
          + apply store_ready; [exact L|reflexivity|exact RD|]. apply (ST es _ [] eq_refl eq_refl). }
      destruct STEP as (p' & H & RD'). exists p'.
      assert (P' : parse (es ++ [e]) = Ok p').
      { unfold Parsing.parse_events in *. rewrite handle_all_app, P. cbn [obind Parsing.handle_all]. rewrite H. reflexivity. }
      split; [exact P'|]. split; [|exact RD'].
      destruct (is_update e) eqn:U.
      + destruct e; try discriminate. apply (fonts_ok_update es s p p' H FO).
      + assert (NU : forall s, e <> UpdateFont s) by (intros s ->; discriminate).
        destruct (kept_fonts e p p' U H) as (K1 & K2). apply (fonts_ok_other es e p p'); assumption.
  Qed.

  Lemma fonts_run es : forall p, parse es = Ok p -> fonts_ok es p.
  Proof.
    induction es as [|e es IH] using rev_ind; intros p H.
    - inversion H; subst p. split; [constructor|]. split; [discriminate|]. split; [intros n _ s f []|reflexivity].
    - apply parse_snoc in H. destruct H as (p0 & H0 & H). specialize (IH p0 H0). destruct (is_update e) eqn:U.
      + destruct e; try discriminate. apply (fonts_ok_update es s p0 p H IH).
      + assert (NU : forall s, e <> UpdateFont s) by (intros s ->; discriminate).
        destruct (kept_fonts e p0 p U H) as (K1 & K2). apply (fonts_ok_other es e p0 p); assumption.
  Qed.
End Run.
Lemma first_called_unique es n f g : first_called es n f -> first_called es n g -> f = g.
Proof.
  intros (b1 & s1 & a1 & E1 & F1 & C1 & N1) (b2 & s2 & a2 & E2 & F2 & C2 & N2).
  assert (EQ : b1 ++ UpdateFont s1 :: a1 = b2 ++ UpdateFont s2 :: a2) by congruence.
  apply app_eq_app in EQ. destruct EQ as (l & [(L1 & L2)|(L1 & L2)]).
  - destruct l as [|x l]; [cbn [app] in L2; inversion L2; congruence|]. cbn [app] in L2. inversion L2; subst x. exfalso.
    apply (N1 s2 g); [rewrite L1; apply in_or_app; right; left; reflexivity|exact F2|exact C2].
  - destruct l as [|x l]; [cbn [app] in L2; inversion L2; congruence|]. cbn [app] in L2. inversion L2; subst x. exfalso.
    apply (N2 s1 f); [rewrite L1; apply in_or_app; right; left; reflexivity|exact F1|exact C1].
Qed.
