(** BlocksProofs.v - proofs about text blocks. *)
From Coq Require Import ZArith NArith.
From Verif Require Import Base Double DoubleFacts MathUtils MathUtilsProofs Elements ElementsProofs GeometrySpec Counter CounterProofs
  UtilsSpec TextUtils Document LinesSpec WordsProofs LinesProofs Blocks BlocksSpec.
Local Open Scope nat_scope.
Local Opaque TOL dZ dadd dsub ddiv dmul dec DBL_MAX DBL_MIN.

Lemma intercalate_blank ts : intercalate [" "%char] ts = blank_separated ts.
Proof.
  induction ts as [|t r IH]; [reflexivity|]. destruct r as [|t' r]; [reflexivity|].
  change (intercalate [" "%char] (t :: t' :: r)) with (t ++ [" "%char] ++ intercalate [" "%char] (t' :: r)). rewrite IH. reflexivity.
Qed.

(** ** Lists *)
Lemma consecutive_nil {A} (a b : A) : ~ consecutive a b [].
Proof. intros (x & y & E). destruct x; discriminate. Qed.
Lemma consecutive_one {A} (a b c : A) : ~ consecutive a b [c].
Proof. intros (x & y & E). destruct x as [|? [|? ?]]; discriminate. Qed.
Lemma consecutive_cons {A} (a b c d : A) l : consecutive a b (c :: d :: l) <-> (a = c /\ b = d) \/ consecutive a b (d :: l).
Proof.
  split.
  - intros (x & y & E). destruct x as [|e x].
    + injection E as -> -> _. left. split; reflexivity.
    + injection E as _ E. right. exists x, y. exact E.
  - intros [[-> ->]|(x & y & E)]; [exists [], l; reflexivity|]. exists (c :: x), y. rewrite E. reflexivity.
Qed.
Lemma last_opt_snoc {A} (l : list A) x : last_opt (l ++ [x]) = Some x.
Proof. unfold last_opt. rewrite rev_app_distr. reflexivity. Qed.
Lemma snoc_cases {A} (l : list A) : l = [] \/ exists l' x, l = l' ++ [x].
Proof. induction l as [|x l _] using rev_ind; [left; reflexivity|right; exists l, x; reflexivity]. Qed.
Lemma last_opt_nth {A} (l : list A) : last_opt l = elem_before l (length l).
Proof.
  destruct (snoc_cases l) as [->|(l' & x & ->)]; [reflexivity|]. rewrite last_opt_snoc, app_length, Nat.add_1_r. cbn [elem_before].
  rewrite nth_error_app2, Nat.sub_diag by lia. reflexivity.
Qed.

Section P.
  Context (ordS : list (str * N) -> list (str * N)) (ordD : list (double * N) -> list (double * N)).
  Context (absd : double -> double) (label_regex : str -> bool) (h : heap) (doc : bdoc).
  Context (HS : forall m, Permutation m (ordS m)) (HD : forall m, Permutation m (ordD m)).

  Lemma sc_refl l : same_content l l. Proof. repeat split. Qed.
  Lemma sc_trans a b c : same_content a b -> same_content b c -> same_content a c.
  Proof.
    intros (A1 & A2 & A3 & A4 & A5 & A6 & A7 & A8 & A9 & A0) (B1 & B2 & B3 & B4 & B5 & B6 & B7 & B8 & B9 & B0).
    repeat split; etransitivity; eassumption.
  Qed.
  Lemma sc_sym a b : same_content a b -> same_content b a.
  Proof. intros (A1 & A2 & A3 & A4 & A5 & A6 & A7 & A8 & A9 & A0). repeat split; symmetry; assumption. Qed.
  Definition same_all (lh lh' : lheap) : Prop := forall j, same_content (lh j) (lh' j).
  Lemma sa_refl lh : same_all lh lh. Proof. intros j. apply sc_refl. Qed.
  Lemma sa_trans a b c : same_all a b -> same_all b c -> same_all a c.
  Proof. intros A B j. eapply sc_trans; [apply A|apply B]. Qed.
  Lemma sa_sym a b : same_all a b -> same_all b a.
  Proof. intros A j. apply sc_sym, A. Qed.

  (** ** Centered lines *)
  Lemma is_centered p q : computeIsCentered absd doc p q = true <-> centered_pair absd doc p q.
  Proof.
    unfold computeIsCentered, centered_pair, centering_tol. destruct (smaller _ _ _); split.
    - discriminate.
    - intros [E _]. discriminate.
    - intros E. split; [reflexivity|exact E].
    - intros [_ E]. exact E.
  Qed.
  Lemma has_formula t : contains_formula t = true <-> formula t.
  Proof.
    unfold contains_formula, formulaIdAlphabet, formula. cbn [S_ list_ascii_of_string existsb]. rewrite orb_false_r, orb_true_iff, !mem_ascii_In. reflexivity.
  Qed.
  Definition visible (p q : bline) : bool :=
    negb (contains_formula (bl_text p) || contains_formula (bl_text q)) &&
    (larger (absd (computeLeftXOffset (bl_pos p) (bl_pos q))) (centering_tol doc) TOL
     || larger (absd (computeRightXOffset (bl_pos p) (bl_pos q))) (centering_tol doc) TOL).
  Lemma visible_spec p q : visible p q = true <-> visibly_centered absd doc p q.
  Proof.
    unfold visible, visibly_centered. rewrite andb_true_iff, negb_true_iff, orb_false_iff, orb_true_iff, <- !has_formula, !not_true_iff_false. unfold centering_tol. tauto.
  Qed.
  Lemma centered_scan_spec lh ls : forall p large n,
    centered_scan absd doc lh p ls large n =
    if forallb (fun '(a, b) => computeIsCentered absd doc (bl_pos (lh a)) (bl_pos (lh b))) (pairs_of (p :: ls))
    then Some (large || existsb (fun '(a, b) => visible (lh a) (lh b)) (pairs_of (p :: ls)),
               (n + Z.of_nat (length (filter negb (map (fun '(a, b) => visible (lh a) (lh b)) (pairs_of (p :: ls))))))%Z)
    else None.
  Proof.
    induction ls as [|l t IH]; intros p large n.
    - cbn [centered_scan pairs_of forallb existsb map filter length]. rewrite orb_false_r, Z.add_0_r. reflexivity.
    - change (pairs_of (p :: l :: t)) with ((p, l) :: pairs_of (l :: t)). cbn [centered_scan forallb existsb map filter]. cbv zeta.
      destruct (computeIsCentered _ _ _ _); [|reflexivity]. cbn [andb].
      change (negb (contains_formula (bl_text (lh p)) || contains_formula (bl_text (lh l))) && _) with (visible (lh p) (lh l)).
      destruct (visible (lh p) (lh l)) eqn:EV; rewrite IH; destruct (forallb _ _); try reflexivity; cbn [negb length orb]; f_equal; f_equal.
      + rewrite orb_true_r. reflexivity.
      + rewrite Nat2Z.inj_succ. lia.
  Qed.
  Lemma pairs_consecutive {A} (l : list A) a b : In (a, b) (pairs_of l) <-> consecutive a b l.
  Proof.
    induction l as [|c [|d t] IH].
    - split; [intros []|intros H; destruct (consecutive_nil _ _ H)].
    - split; [intros []|intros H; destruct (consecutive_one _ _ _ H)].
    - change (pairs_of (c :: d :: t)) with ((c, d) :: pairs_of (d :: t)). rewrite consecutive_cons, <- IH. cbn [In]. split.
      + intros [E|H]; [injection E as -> ->; left; split; reflexivity|right; exact H].
      + intros [[-> ->]|H]; [left; reflexivity|right; exact H].
  Qed.
  Lemma lines_centered_spec lh ls : computeIsTextLinesCentered absd doc lh ls = true <-> lines_centered absd doc lh ls.
  Proof.
    unfold computeIsTextLinesCentered, lines_centered. destruct ls as [|p t].
    { split; [discriminate|]. intros (_ & (a & b & H & _) & _). destruct (consecutive_nil _ _ H). }
    rewrite centered_scan_spec. set (L := p :: t). set (f := fun '(a, b) => computeIsCentered absd doc (bl_pos (lh a)) (bl_pos (lh b))).
    set (g := fun '(a, b) => visible (lh a) (lh b)).
    assert (U : forall sel, Forall2 (fun '(a, b) v => v = true <-> visibly_centered absd doc (lh a) (lh b)) (pairs_of L) sel -> sel = map g (pairs_of L)).
    { induction (pairs_of L) as [|[a b] ps IH]; intros sel F; inversion F as [|? v ? vs H F']; subst; [reflexivity|].
      cbn [map]. rewrite <- (IH vs F'). f_equal. unfold g. destruct v, (visible (lh a) (lh b)) eqn:E; try reflexivity.
      - rewrite <- E. symmetry. apply visible_spec, H. reflexivity.
      - apply H. apply visible_spec, E. }
    split.
    - destruct (forallb f (pairs_of L)) eqn:EF; [|discriminate]. rewrite orb_false_l, andb_true_iff, Z.leb_le. intros [E1 E2].
      split; [|split].
      + intros a b H. apply pairs_consecutive in H. apply is_centered. rewrite forallb_forall in EF. apply (EF (a, b) H).
      + apply existsb_exists in E1 as ([a b] & H & V). exists a, b. split; [apply pairs_consecutive, H|apply visible_spec, V].
      + exists (map g (pairs_of L)). split; [|unfold g in *; lia]. clear. induction (pairs_of L) as [|[a b] ps IH]; constructor; [apply visible_spec|exact IH].
    - intros (H1 & (a & b & H2 & H3) & sel & H4 & H5). apply U in H4. subst sel.
      assert (forallb f (pairs_of L) = true) as ->.
      { apply forallb_forall. intros [c d] H. apply is_centered, H1, pairs_consecutive, H. }
      rewrite orb_false_l, andb_true_iff, Z.leb_le. split; [|unfold g in *; lia].
      apply existsb_exists. exists (a, b). split; [apply pairs_consecutive, H2|apply visible_spec, H3].
  Qed.

  (** ** Emphasis *)
  Lemma isupper_letter c : isalpha c = true <-> letter c.
  Proof.
    unfold isalpha, isupper, islower, letter. rewrite orb_true_iff, !andb_true_iff, !Nat.leb_le. tauto.
  Qed.
  Lemma islower_letter c : islower c = true <-> lower_letter c.
  Proof. unfold islower, lower_letter. rewrite andb_true_iff, !Nat.leb_le. tauto. Qed.
  Lemma upper_scan_spec t : forall seen, upper_scan t seen = true <->
    (seen = true \/ exists c, In c t /\ letter c) /\ forall c, In c t -> ~ lower_letter c.
  Proof.
    induction t as [|c t IH]; intros seen; cbn [upper_scan].
    - split; [intros E; split; [left; exact E|intros ? []]|]. intros [[E|(c & [] & _)] _]. exact E.
    - destruct (isalpha c) eqn:EA; [destruct (islower c) eqn:EL|].
      + split; [discriminate|]. intros [_ H]. destruct (H c (or_introl eq_refl)). apply islower_letter, EL.
      + rewrite IH. split.
        * intros [_ H]. split; [right; exists c; split; [left; reflexivity|apply isupper_letter, EA]|].
          intros d [<-|Hd]; [rewrite <- islower_letter, EL; discriminate|apply H, Hd].
        * intros [_ H]. split; [left; reflexivity|]. intros d Hd. apply H. right. exact Hd.
      + rewrite IH. assert (NL : ~ letter c) by (rewrite <- isupper_letter, EA; discriminate).
        assert (NW : ~ lower_letter c) by (intros H; apply NL; right; exact H). split.
        * intros [H1 H2]. split.
          -- destruct H1 as [H1|(d & Hd & H1)]; [left; exact H1|right; exists d; split; [right; exact Hd|exact H1]].
          -- intros d [<-|Hd]; [exact NW|apply H2, Hd].
        * intros [H1 H2]. split.
          -- destruct H1 as [H1|(d & [<-|Hd] & H1)]; [left; exact H1|contradiction|right; exists d; split; assumption].
          -- intros d Hd. apply H2. right. exact Hd.
  Qed.
  Lemma emphasized_spec t fn fs : computeIsEmphasized doc t fn fs = true <-> emphasized doc t fn fs.
  Proof.
    unfold computeIsEmphasized, emphasized. destruct (font_of doc (bd_fontName doc)) as [df|].
    2:{ split; [discriminate|]. intros (? & ? & E & _). discriminate. }
    destruct (font_of doc fn) as [ef|].
    2:{ split; [discriminate|]. intros (? & ? & _ & E & _). discriminate. }
    destruct (larger fs _ _) eqn:E1.
    { split; [|reflexivity]. intros _. exists df, ef. split; [reflexivity|]. split; [reflexivity|]. left. reflexivity. }
    destruct (equalOrLarger _ _ _ && larger _ _ _) eqn:E2.
    { split; [|reflexivity]. intros _. apply andb_true_iff in E2 as [A B]. exists df, ef. split; [reflexivity|]. split; [reflexivity|]. right. left. split; assumption. }
    destruct (equalOrLarger fs (bd_fontSize doc) (dZ 1) && f_italic ef) eqn:E3.
    { split; [|reflexivity]. intros _. apply andb_true_iff in E3 as [A B]. exists df, ef. split; [reflexivity|]. split; [reflexivity|]. right. right. left. split; assumption. }
    rewrite upper_scan_spec. split.
    - intros [[E|H1] H2]; [discriminate|]. exists df, ef. split; [reflexivity|]. split; [reflexivity|]. right. right. right. split; assumption.
    - intros (df' & ef' & A & B & H). injection A as <-. injection B as <-. destruct H as [H|[[X Y]|[[X Y]|[X Y]]]].
      + discriminate.
      + rewrite X, Y in E2. discriminate.
      + rewrite X, Y in E3. discriminate.
      + split; [right; exact X|exact Y].
  Qed.

  (** ** createTextBlock *)
  Lemma block_box_fields l : forall b,
    leftX (fold_left block_box_add l b) = fold_left (fun x p => minimum x (minimum (leftX p) (rightX p))) l (leftX b) /\
    upperY (fold_left block_box_add l b) = fold_left (fun x p => minimum x (minimum (upperY p) (lowerY p))) l (upperY b) /\
    rightX (fold_left block_box_add l b) = fold_left (fun x p => maximum x (maximum (leftX p) (rightX p))) l (rightX b) /\
    lowerY (fold_left block_box_add l b) = fold_left (fun x p => maximum x (maximum (upperY p) (lowerY p))) l (lowerY b) /\
    pageNum (fold_left block_box_add l b) = pageNum b /\ rotation (fold_left block_box_add l b) = rotation b /\
    wMode (fold_left block_box_add l b) = wMode b.
  Proof. induction l as [|p l IH]; intros b; cbn [fold_left]; [repeat split|]. apply (IH (block_box_add b p)). Qed.
  Lemma block_box_ok n r w ps : ps <> [] -> (forall p, In p ps -> finite_pos p) ->
    smallest_box (fold_left block_box_add ps (mkPos n DBL_MAX DBL_MAX DBL_MIN DBL_MIN r w)) ps.
  Proof.
    intros NE FP. destruct (block_box_fields ps (mkPos n DBL_MAX DBL_MAX DBL_MIN DBL_MIN r w)) as (F1 & F2 & F3 & F4 & _).
    unfold smallest_box. rewrite F1, F2, F3, F4. cbn [leftX upperY rightX lowerY].
    assert (NN : forall p, In p ps -> nn (leftX p) /\ nn (rightX p) /\ nn (upperY p) /\ nn (lowerY p)).
    { intros p Hp. destruct (FP p Hp) as (? & ? & ? & ?). repeat split; apply fin_nn; assumption. }
    split; [|split; [|split]].
    - apply (run_least (fun p => minimum (leftX p) (rightX p)) (fun p => [leftX p; rightX p])); [|exact NE|apply DBL_MAX_nn|].
      + intros p Hp. destruct (NN p Hp) as (N1 & N2 & _). split; [apply minimum_nn; assumption|]. split.
        * intros v [<-|[<-|[]]]; [apply minimum_le_l|apply minimum_le_r]; assumption.
        * destruct (minimum_cases (leftX p) (rightX p)) as [->| ->]; [left|right; left]; reflexivity.
      + right. destruct ps as [|p t]; [congruence|]. exists (leftX p). split; [left; reflexivity|]. right. apply fin_le_max. apply (FP p (or_introl eq_refl)).
    - apply (run_least (fun p => minimum (upperY p) (lowerY p)) (fun p => [upperY p; lowerY p])); [|exact NE|apply DBL_MAX_nn|].
      + intros p Hp. destruct (NN p Hp) as (_ & _ & N1 & N2). split; [apply minimum_nn; assumption|]. split.
        * intros v [<-|[<-|[]]]; [apply minimum_le_l|apply minimum_le_r]; assumption.
        * destruct (minimum_cases (upperY p) (lowerY p)) as [->| ->]; [left|right; left]; reflexivity.
      + right. destruct ps as [|p t]; [congruence|]. exists (upperY p). split; [left; reflexivity|]. right. apply fin_le_max. apply (FP p (or_introl eq_refl)).
    - apply (run_greatest (fun p => maximum (leftX p) (rightX p)) (fun p => [leftX p; rightX p])); [apply DBL_MIN_nn| |apply DBL_MIN_nn|apply dle_refl, DBL_MIN_nn|].
      + intros p Hp. destruct (NN p Hp) as (N1 & N2 & _). split; [apply maximum_nn; assumption|]. split.
        * intros v [<-|[<-|[]]]; [apply maximum_ge_l|apply maximum_ge_r]; assumption.
        * destruct (maximum_cases (leftX p) (rightX p)) as [->| ->]; [left|right; left]; reflexivity.
      + exists DBL_MIN. split; [left; reflexivity|apply deq_refl, DBL_MIN_nn].
    - apply (run_greatest (fun p => maximum (upperY p) (lowerY p)) (fun p => [upperY p; lowerY p])); [apply DBL_MIN_nn| |apply DBL_MIN_nn|apply dle_refl, DBL_MIN_nn|].
      + intros p Hp. destruct (NN p Hp) as (_ & _ & N1 & N2). split; [apply maximum_nn; assumption|]. split.
        * intros v [<-|[<-|[]]]; [apply maximum_ge_l|apply maximum_ge_r]; assumption.
        * destruct (maximum_cases (upperY p) (lowerY p)) as [->| ->]; [left|right; left]; reflexivity.
      + exists DBL_MIN. split; [left; reflexivity|apply deq_refl, DBL_MIN_nn].
  Qed.

  Lemma link_lines_spec ls : forall rest i lh, NoDup rest -> (forall k l, nth_error rest k = Some l -> nth_error ls (i + k) = Some l) ->
    let lh' := link_lines ls i rest lh in
    same_all lh lh' /\ (forall j, ~ In j rest -> lh' j = lh j) /\
    (forall j, bl_left (lh' j) = bl_left (lh j) /\ bl_right (lh' j) = bl_right (lh j)) /\
    forall k l, nth_error rest k = Some l -> bl_prev (lh' l) = elem_before ls (i + k) /\ bl_next (lh' l) = elem_after ls (i + k).
  Proof.
    induction rest as [|x t IH]; intros i lh ND NTH; cbn [link_lines].
    { cbv zeta. split; [apply sa_refl|]. split; [reflexivity|]. split; [intros j; split; reflexivity|]. intros [|k] l H; discriminate. }
    inversion ND as [|? ? NI ND']; subst. set (lh1 := fun j => if j =? x then link_line ls i (lh x) else lh j).
    assert (N1 : forall k l, nth_error t k = Some l -> nth_error ls (S i + k) = Some l).
    { intros k l H. replace (S i + k) with (i + S k) by lia. apply NTH. exact H. }
    destruct (IH (S i) lh1 ND' N1) as (A & B & C & D). cbv zeta in *.
    assert (S1 : same_all lh lh1).
    { intros j. unfold lh1. destruct (Nat.eqb_spec j x) as [->|_]; [repeat split|apply sc_refl]. }
    split; [eapply sa_trans; eassumption|]. split; [|split].
    - intros j Hj. rewrite B by (intros X; apply Hj; right; exact X). unfold lh1. destruct (Nat.eqb_spec j x) as [->|_]; [|reflexivity].
      destruct Hj. left. reflexivity.
    - intros j. destruct (C j) as [C1 C2]. rewrite C1, C2. unfold lh1. destruct (Nat.eqb_spec j x) as [->|_]; split; reflexivity.
    - intros [|k] l H.
      + injection H as <-. rewrite (B x NI). unfold lh1. rewrite Nat.eqb_refl. cbn [link_line bl_prev bl_next]. rewrite Nat.add_0_r. split.
        * destruct i as [|i]; [reflexivity|]. cbn [Nat.ltb Nat.leb elem_before]. rewrite Nat.sub_succ, Nat.sub_0_r. reflexivity.
        * unfold elem_after. destruct (Nat.ltb_spec i (length ls - 1)) as [L|L]; [rewrite Nat.add_1_r; reflexivity|]. symmetry. apply nth_error_None.
          assert (Hl := NTH 0 x eq_refl). rewrite Nat.add_0_r in Hl. assert (i < length ls) by (apply nth_error_Some; rewrite Hl; discriminate). lia.
      + cbn [nth_error] in H. destruct (D k l H) as [D1 D2]. rewrite D1, D2. replace (S i + k) with (i + S k) by lia. split; reflexivity.
  Qed.
  Lemma margin_lines_spec tl tr : forall ls lh, NoDup ls ->
    let lh' := margin_lines tl tr ls lh in
    same_all lh lh' /\ (forall j, ~ In j ls -> lh' j = lh j) /\
    (forall j, bl_prev (lh' j) = bl_prev (lh j) /\ bl_next (lh' j) = bl_next (lh j)) /\
    forall l, In l ls -> bl_left (lh' l) = dsub (leftX (bl_pos (lh l))) tl /\ bl_right (lh' l) = dsub tr (rightX (bl_pos (lh l))).
  Proof.
    induction ls as [|x t IH]; intros lh ND; cbn [margin_lines].
    { cbv zeta. split; [apply sa_refl|]. split; [reflexivity|]. split; [intros j; split; reflexivity|]. intros l []. }
    inversion ND as [|? ? NI ND']; subst. set (lh1 := fun j => if j =? x then set_margins tl tr (lh x) else lh j).
    destruct (IH lh1 ND') as (A & B & C & D). cbv zeta in *.
    assert (S1 : same_all lh lh1).
    { intros j. unfold lh1. destruct (Nat.eqb_spec j x) as [->|_]; [repeat split|apply sc_refl]. }
    split; [eapply sa_trans; eassumption|]. split; [|split].
    - intros j Hj. rewrite B by (intros X; apply Hj; right; exact X). unfold lh1. destruct (Nat.eqb_spec j x) as [->|_]; [|reflexivity].
      destruct Hj. left. reflexivity.
    - intros j. destruct (C j) as [C1 C2]. rewrite C1, C2. unfold lh1. destruct (Nat.eqb_spec j x) as [->|_]; split; reflexivity.
    - intros l [<-|Hl].
      + rewrite (B x NI). unfold lh1. rewrite Nat.eqb_refl. split; reflexivity.
      + destruct (D l Hl) as [D1 D2]. rewrite D1, D2. destruct (S1 l) as (-> & _). split; reflexivity.
  Qed.

  (** ** Hanging indent *)
  Notation bad_lower := (fun l => at_margin doc dzero l && starts_lower l && negb (first_word_in h [S_ "van"; S_ "von"; S_ "de"] l)).
  Lemma hang_line_spec lh mf i l s s' : hang_line h doc lh mf i l s = Ok s' ->
    hg_firstIndented s' = (if (i =? 0) && considered doc l then at_margin doc mf l else hg_firstIndented s) /\
    hg_firstCapacity s' = (if (i =? 1) && considered doc l then second_fits h doc lh l else hg_firstCapacity s) /\
    hg_othersIndented s' = (if 0 <? i then hg_othersIndented s && (negb (considered doc l) || at_margin doc mf l) else hg_othersIndented s) /\
    hg_lowerNon s' = (hg_lowerNon s + b2z (bad_lower l))%Z /\
    hg_lowerInd s' = (hg_lowerInd s + b2z (at_margin doc mf l && starts_lower l))%Z /\
    hg_non s' = (hg_non s + b2z (at_margin doc dzero l))%Z /\ hg_ind s' = (hg_ind s + b2z (at_margin doc mf l))%Z.
  Proof.
    unfold hang_line. fold (margin_threshold doc). unfold at_margin, considered. fold (margin_threshold doc).
    rewrite (N.leb_antisym (N.of_nat (length (bl_text l))) 3).
    destruct (N.of_nat (length (bl_text l)) <? 3)%N.
    { intros E. injection E as <-. cbn [negb andb b2z orb]. rewrite !andb_false_r, !Z.add_0_r, andb_true_r. destruct (0 <? i); repeat split. }
    destruct (equal (bl_left l) (bl_right l) (margin_threshold doc) && larger (bl_left l) (margin_threshold doc) TOL).
    { intros E. injection E as <-. cbn [negb andb b2z orb]. rewrite !andb_false_r, !Z.add_0_r, andb_true_r. destruct (0 <? i); repeat split. }
    cbn [negb andb orb]. rewrite !andb_true_r. unfold second_fits, first_word_in. destruct (bl_words l) as [|w ws] eqn:EW; [discriminate|].
    intros E. injection E as <-. cbn [hg_firstIndented hg_firstCapacity hg_othersIndented hg_lowerNon hg_lowerInd hg_non hg_ind].
    change (match bl_text l with c :: _ => islower c | [] => false end) with (starts_lower l). change lastNamePrefixes with [S_ "van"; S_ "von"; S_ "de"].
    cbv beta. set (pre := existsb (str_eqb (w_text (h w))) [S_ "van"; S_ "von"; S_ "de"]). set (e0 := equal (bl_left l) dzero (margin_threshold doc)). set (em := equal (bl_left l) mf (margin_threshold doc)).
    split; [reflexivity|]. split.
    { unfold computeHasPrevLineCapacity, line_at. rewrite EW. destruct (bl_prev l); reflexivity. }
    split; [reflexivity|]. split; [f_equal; f_equal; destruct e0, (starts_lower l); cbn [andb]; rewrite ?andb_true_r, ?andb_false_r; reflexivity|]. split; [f_equal; f_equal; apply andb_comm|]. split; reflexivity.
  Qed.
  Definition countb {A} (f : A -> bool) (l : list A) : Z := Z.of_nat (length (filter f l)).
  Lemma countb_cons {A} (f : A -> bool) x l : countb f (x :: l) = (b2z (f x) + countb f l)%Z.
  Proof. unfold countb. cbn [filter]. destruct (f x); cbn [length b2z]; [rewrite Nat2Z.inj_succ; lia|lia]. Qed.
  Lemma countb_zero {A} (f : A -> bool) l : (countb f l =? 0)%Z = negb (existsb f l).
  Proof.
    induction l as [|x l IH]; [reflexivity|]. rewrite countb_cons. cbn [existsb]. destruct (f x); cbn [b2z orb negb].
    - apply Z.eqb_neq. unfold countb. lia.
    - exact IH.
  Qed.
  Lemma hang_scan_spec lh mf : forall ls i s s', hang_scan h doc lh mf i ls s = Ok s' ->
    hg_firstIndented s' = (match ls with l :: _ => if (i =? 0) && considered doc (lh l) then at_margin doc mf (lh l) else hg_firstIndented s | [] => hg_firstIndented s end) /\
    hg_firstCapacity s' = existsb (fun l => considered doc l && second_fits h doc lh l) (map lh (firstn 1 (if i =? 0 then skipn 1 ls else if i =? 1 then ls else [])))
       || (negb (existsb (considered doc) (map lh (firstn 1 (if i =? 0 then skipn 1 ls else if i =? 1 then ls else [])))) && hg_firstCapacity s) /\
    hg_othersIndented s' = (hg_othersIndented s && forallb (fun l => negb (considered doc l) || at_margin doc mf l) (map lh (if i =? 0 then skipn 1 ls else ls))) /\
    hg_lowerNon s' = (hg_lowerNon s + countb bad_lower (map lh ls))%Z /\
    hg_lowerInd s' = (hg_lowerInd s + countb (fun l => at_margin doc mf l && starts_lower l) (map lh ls))%Z /\
    hg_non s' = (hg_non s + countb (at_margin doc dzero) (map lh ls))%Z /\ hg_ind s' = (hg_ind s + countb (at_margin doc mf) (map lh ls))%Z.
  Proof.
    induction ls as [|l t IH]; intros i s s' H; cbn [hang_scan] in H.
    { injection H as <-. assert (Z : forall n (b : bool), firstn n (if b then @nil nat else []) = []) by (intros [|?] []; reflexivity).
      destruct (i =? 0), (i =? 1); cbn; rewrite ?Z.add_0_r, ?andb_true_r; repeat split. }
    destruct (hang_line h doc lh mf i (lh l) s) as [s1| |] eqn:E1; try discriminate. cbn [obind] in H.
    destruct (hang_line_spec _ _ _ _ _ _ E1) as (A1 & A2 & A3 & A4 & A5 & A6 & A7).
    destruct (IH _ _ _ H) as (B1 & B2 & B3 & B4 & B5 & B6 & B7). cbn [map]. rewrite !countb_cons.
    split; [|split; [|split; [|split; [|split; [|split]]]]].
    - rewrite B1, A1. destruct t; cbn [Nat.eqb andb]; reflexivity.
    - rewrite B2, A2. destruct i as [|[|i]]; cbn [Nat.eqb andb].
      + destruct t as [|l' t]; cbn [skipn firstn map existsb negb orb andb]; reflexivity.
      + cbn [skipn firstn map existsb negb orb andb]. rewrite !orb_false_r. destruct (considered doc (lh l)); cbn [andb negb orb]; [rewrite orb_false_r; reflexivity|reflexivity].
      + cbn [firstn map existsb negb orb andb]. reflexivity.
    - rewrite B3, A3. destruct i as [|i]; cbn [Nat.eqb Nat.ltb Nat.leb skipn map forallb]; [reflexivity|]. rewrite andb_assoc. reflexivity.
    - rewrite B4, A4. lia.
    - rewrite B5, A5. lia.
    - rewrite B6, A6. lia.
    - rewrite B7, A7. lia.
  Qed.

  Lemma filter_map_comm {A B} (f : A -> B) (p : B -> bool) l : filter p (map f l) = map f (filter (fun x => p (f x)) l).
  Proof. induction l as [|x l IH]; [reflexivity|]. cbn [map filter]. destruct (p (f x)); cbn [map]; rewrite IH; reflexivity. Qed.
  Lemma hanging_spec lh ls d : (N.of_nat (length ls) < 2 ^ 32)%N -> (forall l, In l ls -> is_nan_d (bl_left (lh l)) = false) ->
    computeHangingIndent ordD h doc lh ls = Ok d -> hanging_indent h doc lh ls d.
  Proof.
    intros LT NN H. unfold computeHangingIndent in H. cbv zeta in H.
    assert (NL : length (filter (fun l => (3 <=? N.of_nat (length (bl_text (lh l))))%N) ls) =
                 length (filter (fun l : bline => (3 <=? N.of_nat (length (bl_text l)))%N) (map lh ls))) by (rewrite filter_map_comm, map_length; reflexivity).
    assert (EL : map (fun l => bl_left (lh l)) (filter (fun l => equalOrLarger (bl_left (lh l)) (margin_threshold doc) TOL) ls) = large_margins doc lh ls).
    { unfold large_margins. rewrite filter_map_comm. reflexivity. }
    rewrite EL in H. set (L := large_margins doc lh ls) in *.
    assert (LL : (N.of_nat (length L) < 2 ^ 32)%N).
    { eapply N.le_lt_trans; [|exact LT]. unfold L, large_margins. rewrite filter_map_comm, map_length.
      assert (length (filter (fun x => equalOrLarger (bl_left (lh x)) (dmul (dZ 1) (bd_acw doc)) TOL) ls) <= length ls); [|lia].
      clear. induction ls as [|x l IH]; [apply le_n|]. cbn [filter]. destruct (equalOrLarger _ _ _); cbn [length]; lia. }
    assert (LR : forall x, In x L -> deq x x = true).
    { intros x Hx. apply filter_In in Hx as [Hx _]. apply in_map_iff in Hx as (l & <- & Hl). apply deq_refl. unfold nn. apply NN, Hl. }
    destruct (mostFreq_counted deq (fun a b Q => eq_trans (deq_sym b a) Q) deq_trans L dzero _ LR LL (HD _)) as [_ M2].
    rewrite (sumCounts_counted deq L _ LL (HD _)) in H.
    destruct L as [|x0 L0] eqn:EL0.
    { left. split; [exact EL0|]. cbn [length N.of_nat N.ltb N.compare obind] in H.
      destruct (equalOrSmaller _ _ _) in H; [injection H as <-; reflexivity|].
      destruct (hang_scan _ _ _ _ _ _ _) as [s| |]; try discriminate. cbn [obind] in H.
      repeat (match type of H with (if ?c then _ else _) = _ => destruct c end); injection H as <-; reflexivity. }
    rewrite <- EL0 in *. destruct (N.ltb_spec 0 (N.of_nat (length L))) as [_|X]; [|rewrite EL0 in X; cbn [length] in X; lia].
    destruct M2 as (x & E & Hx & Mx); [rewrite EL0; discriminate|]. rewrite E in H. cbn [obind] in H.
    right. exists x. split; [split; assumption|]. unfold hanging_by. cbv zeta. fold L.
    rewrite nat_N_Z in H.
    destruct (equalOrSmaller _ _ _) in H |- *.
    { injection H as <-. split; [intros [Q _]; discriminate|reflexivity]. }
    destruct (hang_scan _ _ _ _ _ _ _) as [s| |] eqn:ES; try discriminate. cbn [obind] in H.
    destruct (hang_scan_spec _ _ _ _ _ _ ES) as (S1 & S2 & S3 & S4 & S5 & S6 & S7).
    cbn [hg_firstIndented hg_firstCapacity hg_othersIndented hg_lowerNon hg_lowerInd hg_non hg_ind Nat.eqb andb orb] in *.
    rewrite Z.add_0_l in S4, S5, S6, S7. rewrite S7, S4, S6, S5, S3 in H. clear S3 S4 S5 S6 S7.
    rewrite !andb_false_r, orb_false_r in S2.
    assert (F1 : hg_firstIndented s = existsb (at_margin doc x) (firstn 1 (map lh ls))).
    { rewrite S1. destruct ls as [|l t]; [reflexivity|]. cbn [map firstn existsb]. rewrite orb_false_r. destruct (considered doc (lh l)) eqn:EC; [reflexivity|].
      unfold at_margin. rewrite EC. reflexivity. }
    assert (SM : skipn 1 (map lh ls) = map lh (skipn 1 ls)) by (destruct ls; reflexivity).
    assert (FM : firstn 1 (skipn 1 (map lh ls)) = map lh (firstn 1 (skipn 1 ls))) by (destruct ls as [|? [|? ?]]; reflexivity).
    rewrite FM, SM. rewrite F1, S2 in H. clear S1 S2 F1 SM FM.
    rewrite countb_zero in H.
    destruct (existsb (at_margin doc x) (map lh ls)) eqn:X1; cbn [negb] in H.
    2:{ injection H as <-. split; [intros (_ & Q & _); discriminate|reflexivity]. }
    destruct (existsb bad_lower (map lh ls)) eqn:X2.
    { assert (0 <? countb bad_lower (map lh ls) = true)%Z as Z1.
      { pose proof (countb_zero bad_lower (map lh ls)) as Q. rewrite X2 in Q. apply Z.eqb_neq in Q. apply Z.ltb_lt. unfold countb in *. lia. }
      rewrite Z1 in H. injection H as <-. split; [intros (_ & _ & Q & _); discriminate|reflexivity]. }
    assert (countb bad_lower (map lh ls) = 0%Z) as Z1.
    { apply Z.eqb_eq. rewrite countb_zero, X2. reflexivity. }
    rewrite Z1 in H. change ((0 <? 0)%Z) with false in H. change ((0 <=? 0)%Z) with true in H. cbn iota in H. rewrite andb_true_r in H.
    destruct (existsb (at_margin doc x) (firstn 1 (map lh ls))) eqn:Y1; cbn [negb andb] in H.
    all: destruct (existsb _ (map lh (firstn 1 (skipn 1 ls)))) eqn:Y2 in H |- *; cbn [negb andb] in H.
    all: destruct (forallb _ (map lh (skipn 1 ls))) eqn:Y3 in H |- *; cbn iota in H.
    all: destruct (Z.leb_spec 10 (countb (at_margin doc dzero) (map lh ls))) as [Y4|Y4]; cbn iota in H.
    all: try (injection H as <-; split; [reflexivity|intros Q; destruct Q; split; [reflexivity|]; split; [reflexivity|]; split; [reflexivity|];
      first [left; split; [reflexivity|]; split; reflexivity | right; left; unfold countb in Y4; lia]]; fail).
    all: rewrite NL in H.
    all: destruct (Z.leb_spec 4 (Z.of_nat (length (filter (fun l : bline => (3 <=? N.of_nat (length (bl_text l)))%N) (map lh ls))))) as [Y5|Y5]; cbn [andb] in H.
    all: try (injection H as <-; split; [|reflexivity]; intros (_ & _ & _ & [(Q1 & Q2 & Q3)|[Q|[Q _]]]); [first [discriminate Q1|discriminate Q2|discriminate Q3]|unfold countb in Y4; lia|lia]).
    all: destruct (existsb (fun l => at_margin doc x l && starts_lower l) (map lh ls)) eqn:Y6.
    all: assert (Y7 := countb_zero (fun l => at_margin doc x l && starts_lower l) (map lh ls)); rewrite Y6 in Y7; cbn [negb] in Y7.
    all: (apply Z.eqb_neq in Y7 || apply Z.eqb_eq in Y7).
    all: destruct (Z.leb_spec 1 (countb (fun l => at_margin doc x l && starts_lower l) (map lh ls))) as [Y8|Y8]; try (unfold countb in Y7, Y8; lia).
    all: injection H as <-.
    all: try (split; [reflexivity|]; intros Q; destruct Q; split; [reflexivity|]; split; [reflexivity|]; split; [reflexivity|]; right; right; split; [lia|reflexivity]).
    all: split; [|reflexivity]; intros (_ & _ & _ & [(Q1 & Q2 & Q3)|[Q|[_ Q]]]); [first [discriminate Q1|discriminate Q2|discriminate Q3]|unfold countb in Y4; lia|discriminate Q].
  Qed.

  (** ** What a block depends on *)
  Lemma map_same {B} (f g : bline -> B) (lh lh' : lheap) ls : (forall a b, same_content a b -> f b = g a) -> same_all lh lh' ->
    map (fun l => f (lh' l)) ls = map (fun l => g (lh l)) ls.
  Proof. intros F S. apply map_ext. intros l. apply F, S. Qed.
  Lemma words_text_same a b : same_content a b -> words_text h b = words_text h a.
  Proof. unfold words_text. intros (_ & _ & _ & _ & _ & -> & _). reflexivity. Qed.
  Lemma lines_centered_same lh lh' ls : same_all lh lh' -> lines_centered absd doc lh ls -> lines_centered absd doc lh' ls.
  Proof.
    intros S.
    assert (V : forall a b, visibly_centered absd doc (lh' a) (lh' b) <-> visibly_centered absd doc (lh a) (lh b)).
    { intros a b. unfold visibly_centered. destruct (S a) as (-> & -> & _), (S b) as (-> & -> & _). reflexivity. }
    intros (A & (a & b & B1 & B2) & sel & C1 & C2). split; [|split].
    - intros c d H. specialize (A c d H). destruct (S c) as (-> & _), (S d) as (-> & _). exact A.
    - exists a, b. split; [exact B1|apply V, B2].
    - exists sel. split; [|exact C2]. clear -C1 V. induction C1 as [|[a b] v ps vs H F IH]; constructor; [|exact IH]. rewrite V. exact H.
  Qed.
  Lemma block_of_same lh lh' b : same_all lh lh' -> block_of absd h doc lh b -> block_of absd h doc lh' b.
  Proof.
    intros S (l0 & rest & A1 & A2 & A3 & A4 & A5 & A6 & A7 & A8 & A9 & A10 & A11). exists l0, rest.
    destruct (S l0) as (P0 & _ & _ & _ & _ & _ & P1 & _). rewrite P0, P1.
    rewrite (map_same (words_text h) (words_text h) lh lh' _ words_text_same S).
    rewrite (map_same bl_pos bl_pos lh lh' _ (fun a b H => proj1 H) S).
    rewrite (map_same bl_fontName bl_fontName lh lh' _ (fun a b H => proj1 (proj2 (proj2 H))) S).
    rewrite (map_same bl_fontSize bl_fontSize lh lh' _ (fun a b H => proj1 (proj2 (proj2 (proj2 H)))) S).
    do 6 (split; [assumption|]). split; [|split; [assumption|split; [|split; [assumption|]]]].
    - intros F. apply A7. intros l Hl. specialize (F l Hl). destruct (S l) as (E & _). rewrite E in F. exact F.
    - intros L. destruct (A9 L) as [B1 B2]. split; [exact B1|]. intros N. apply B2. intros l Hl. specialize (N l Hl).
      destruct (S l) as (_ & _ & _ & E & _). rewrite E in N. exact N.
    - rewrite A11. split; apply lines_centered_same; [exact S|apply sa_sym, S].
  Qed.
  Lemma block_of_next lh b n : block_of absd h doc lh b -> block_of absd h doc lh (set_next b n).
  Proof. exact (fun H => H). Qed.

  Lemma link_last_snoc bs b n : link_last (bs ++ [b]) n = bs ++ [set_next b n].
  Proof.
    induction bs as [|c t IH]; [reflexivity|]. cbn [app]. destruct (t ++ [b]) as [|d r] eqn:E; [destruct t; discriminate|].
    change (link_last (c :: d :: r) n) with (c :: link_last (d :: r) n). rewrite IH. reflexivity.
  Qed.
  Lemma link_last_length bs n : length (link_last bs n) = length bs.
  Proof. destruct (snoc_cases bs) as [->|(t & b & ->)]; [reflexivity|]. rewrite link_last_snoc, !app_length. reflexivity. Qed.
  (** Everything but [tb_next]. *)
  Definition same_but_next (b b' : tblock) : Prop := exists n, b' = b \/ b' = set_next b n.
  Lemma link_last_nth bs n i b : nth_error (link_last bs n) i = Some b ->
    exists b0, nth_error bs i = Some b0 /\ b = (if S i =? length bs then set_next b0 n else b0).
  Proof.
    destruct (snoc_cases bs) as [->|(t & c & ->)]; [destruct i; discriminate|]. rewrite link_last_snoc, app_length. cbn [length]. intros H.
    destruct (Nat.lt_ge_cases i (length t)) as [L|L].
    - rewrite nth_error_app1 in H |- * by exact L. exists b. split; [exact H|]. destruct (Nat.eqb_spec (S i) (length t + 1)); [lia|reflexivity].
    - rewrite nth_error_app2 in H |- * by exact L. destruct (i - length t) as [|k] eqn:E; [|destruct k; discriminate].
      injection H as <-. exists c. split; [reflexivity|]. destruct (Nat.eqb_spec (S i) (length t + 1)); [reflexivity|lia].
  Qed.
  Lemma link_last_lines bs n : map tb_lines (link_last bs n) = map tb_lines bs.
  Proof. destruct (snoc_cases bs) as [->|(t & c & ->)]; [reflexivity|]. rewrite link_last_snoc, !map_app. reflexivity. Qed.

  Definition hang_fine (lh : lheap) (b : tblock) : Prop :=
    (N.of_nat (length (tb_lines b)) < 2 ^ 32)%N -> (forall l, In l (tb_lines b) -> is_nan_d (bl_left (lh l)) = false) ->
    hanging_indent h doc lh (tb_lines b) (tb_hang b).

  Lemma create_spec ls bs lh bs' lh' : NoDup ls -> createTextBlock ordS ordD absd h doc ls bs lh = Ok (bs', lh') ->
    exists b, bs' = link_last bs (length bs) ++ [b] /\ tb_lines b = ls /\ tb_rank b = Z.of_nat (length bs) /\
      tb_prev b = (match bs with [] => None | _ :: _ => Some (length bs - 1) end) /\ tb_next b = None /\
      block_of absd h doc lh b /\ same_all lh lh' /\ (forall j, ~ In j ls -> lh' j = lh j) /\
      (forall k l, nth_error ls k = Some l -> bl_prev (lh' l) = elem_before ls k /\ bl_next (lh' l) = elem_after ls k /\
         bl_left (lh' l) = left_margin b (lh l) /\ bl_right (lh' l) = right_margin doc (last_opt bs) b (lh l)) /\
      hang_fine lh' b.
  Proof.
    intros ND H. unfold createTextBlock in H. destruct ls as [|l0 rest] eqn:EL; [discriminate|]. cbn iota in H. rewrite <- EL in *.
    destruct (bd_seg doc (bl_seg (lh l0))) as [seg [[[tl tu] tr] tlo]] eqn:ESEG. cbv zeta in H.
    set (box := fold_left _ _ _) in *.
    destruct (if (0 <? sumCounts (ordS _))%N then _ else _) as [fn| |] eqn:E1 in H; try discriminate. cbn [obind] in H.
    destruct (if (0 <? sumCounts (ordD _))%N then _ else _) as [fs| |] eqn:E2 in H; try discriminate. cbn [obind] in H.
    set (lh1 := link_lines ls 0 ls lh) in *. set (tr' := block_right _ _ _ _ _ _) in *.
    set (lh2 := margin_lines (maximum (leftX box) tl) tr' ls lh1) in *.
    destruct (computeHangingIndent ordD h doc lh2 ls) as [hi| |] eqn:E3; try discriminate. cbn [obind] in H. injection H as <- <-.
    destruct (link_lines_spec ls ls 0 lh ND (fun k l Q => Q)) as (L1 & L2 & L3 & L4). fold lh1 in L1, L2, L3, L4.
    destruct (margin_lines_spec (maximum (leftX box) tl) tr' ls lh1 ND) as (M1 & M2 & M3 & M4). fold lh2 in M1, M2, M3, M4.
    set (b := mkTBlock _ _ _ _ _ _ _ _ _ _ _ _ _). exists b. split; [reflexivity|]. split; [reflexivity|]. split; [reflexivity|].
    split; [reflexivity|]. split; [reflexivity|].
    assert (NE : forall B (f : nat -> B), map f ls <> []) by (intros B f Q; rewrite EL in Q; discriminate).
    split.
    { exists l0, rest. cbn [b tb_lines tb_seg tb_pos tb_text tb_trim tb_fontName tb_fontSize tb_emph tb_centered]. rewrite ESEG. cbn [snd fst].
      destruct (block_box_fields (map (fun l => bl_pos (lh l)) ls) (mkPos (pageNum (bl_pos (lh l0))) DBL_MAX DBL_MAX DBL_MIN DBL_MIN (rotation (bl_pos (lh l0))) (wMode (bl_pos (lh l0)))))
        as (_ & _ & _ & _ & F5 & F6 & F7). fold box in F5, F6, F7.
      split; [exact EL|]. split; [reflexivity|]. split; [exact F5|]. split; [exact F6|]. split; [exact F7|]. split.
      { rewrite intercalate_blank. f_equal. apply map_ext. intros l. unfold line_text, words_text. rewrite intercalate_blank.
        destruct (L1 l) as (_ & _ & _ & _ & _ & -> & _). reflexivity. }
      split; [intros F; apply block_box_ok; [apply NE|]; intros p Hp; apply in_map_iff in Hp as (l & <- & Hl); apply F, Hl|].
      split; [reflexivity|]. split.
      { intros LT. split.
        - apply (guarded_frequent str_eqb [] [] _ (ordS (count_all str_eqb (map (fun l => bl_fontName (lh l)) ls))) fn).
          + intros x y Q. apply str_eqb_eq in Q. subst. apply str_eqb_refl.
          + intros x y z Q1 Q2. apply str_eqb_eq in Q1, Q2. subst. apply str_eqb_refl.
          + intros x _. apply str_eqb_refl.
          + rewrite map_length. exact LT.
          + apply NE.
          + apply HS.
          + exact E1.
        - intros NN. apply (guarded_frequent deq dzero (dopp done) _ (ordD (count_all deq (map (fun l => bl_fontSize (lh l)) ls))) fs).
          + intros x y Q. rewrite deq_sym. exact Q.
          + apply deq_trans.
          + intros x Hx. apply in_map_iff in Hx as (l & <- & Hl). apply deq_refl. unfold nn. apply NN, Hl.
          + rewrite map_length. exact LT.
          + apply NE.
          + apply HD.
          + exact E2. }
      split; [apply emphasized_spec|]. rewrite lines_centered_spec. split; apply lines_centered_same; [apply sa_sym, L1|exact L1]. }
    split; [eapply sa_trans; eassumption|]. split; [intros j Hj; rewrite M2, L2 by exact Hj; reflexivity|]. split.
    { intros k l Hk. destruct (L4 k l Hk) as [X1 X2]. destruct (M3 l) as [Y1 Y2]. rewrite Y1, Y2, X1, X2.
      destruct (M4 l (nth_error_In _ _ Hk)) as [Z1 Z2]. rewrite Z1, Z2. destruct (L1 l) as (-> & _).
      split; [reflexivity|]. split; [reflexivity|]. split; [reflexivity|]. unfold right_margin. f_equal.
      unfold tr', block_right, block_border. cbn [b tb_lines tb_seg tb_pos]. rewrite ESEG. cbn [fst].
      destruct (length ls) as [|[|[|n]]]; cbn [Nat.eqb]; try (destruct (last_opt bs); reflexivity).
      destruct (last_opt bs) as [p|]; destruct (equal _ _ _); reflexivity. }
    intros LT NN. cbn [b tb_lines tb_hang] in *. apply (hanging_spec lh2 ls hi LT NN E3).
  Qed.

  (** ** The invariant of both passes: [bs] are blocks made of lines in [lh0]; [lhc]: the lines now. *)
  Definition block_lines (bs : list tblock) : list nat := concat (map tb_lines bs).
  Record inv (lh0 lhc : lheap) (bs : list tblock) : Prop := mkInv {
    inv_good : good_blocks absd h doc lh0 bs;
    inv_placed : lines_placed doc lh0 lhc bs;
    inv_hang : Forall (hang_fine lhc) bs }.
  Lemma inv_nil lh0 lhc : inv lh0 lhc [].
  Proof.
    constructor; [| |constructor].
    - intros [|i] b H; discriminate.
    - intros [|i] b k l H; discriminate.
  Qed.
  Lemma hanging_frame lh lh' ls d : (forall l, In l ls -> lh' l = lh l) ->
    (forall l p, In l ls -> bl_prev (lh l) = Some p -> lh' p = lh p) ->
    hanging_indent h doc lh ls d -> hanging_indent h doc lh' ls d.
  Proof.
    intros F P. assert (M : map lh' ls = map lh ls) by (apply map_ext_in; exact F).
    assert (LM : large_margins doc lh' ls = large_margins doc lh ls).
    { unfold large_margins. f_equal. apply map_ext_in. intros l Hl. rewrite (F l Hl). reflexivity. }
    assert (SF : existsb (fun l => considered doc l && second_fits h doc lh' l) (firstn 1 (skipn 1 (map lh ls))) =
                 existsb (fun l => considered doc l && second_fits h doc lh l) (firstn 1 (skipn 1 (map lh ls)))).
    { destruct ls as [|a [|b t]]; [reflexivity|reflexivity|]. cbn [map skipn firstn existsb]. f_equal. f_equal. unfold second_fits.
      destruct (bl_prev (lh b)) as [p|] eqn:E; [|reflexivity]. rewrite (P b p); [reflexivity|right; left; reflexivity|exact E]. }
    unfold hanging_indent, hanging_by. cbv zeta. rewrite LM, M, SF. exact (fun H => H).
  Qed.
  Lemma elem_before_in {A} (l : list A) i x : elem_before l i = Some x -> In x l.
  Proof. destruct i; [discriminate|]. apply nth_error_In. Qed.
  Lemma in_block_lines bs b l : In b bs -> In l (tb_lines b) -> In l (block_lines bs).
  Proof. intros Hb Hl. apply in_concat. exists (tb_lines b). split; [apply in_map, Hb|exact Hl]. Qed.
  (** The invariant holds as long as the lines of the blocks do not change. *)
  Lemma inv_frame lh0 lhc lhd bs : inv lh0 lhc bs -> (forall j, In j (block_lines bs) -> lhd j = lhc j) -> inv lh0 lhd bs.
  Proof.
    intros [G P H] F. constructor; [exact G| |].
    - intros i b k l Hb Hl. rewrite (F l).
      + apply (P i b k l Hb Hl).
      + apply (in_block_lines bs b); eapply nth_error_In; eassumption.
    - apply Forall_forall. intros b Hb. rewrite Forall_forall in H. intros LT NN.
      assert (FB : forall l, In l (tb_lines b) -> lhd l = lhc l) by (intros l Hl; apply F, (in_block_lines bs b); assumption).
      apply (hanging_frame lhc); [exact FB| |].
      + intros l p Hl E. apply In_nth_error in Hb as (i & Hi). apply In_nth_error in Hl as (k & Hk).
        destruct (P i b k l Hi Hk) as (Q & _). rewrite Q in E. apply FB. apply (elem_before_in _ _ _ E).
      + apply (H b Hb LT). intros l Hl. rewrite <- (FB l Hl). apply NN, Hl.
  Qed.
End P.
