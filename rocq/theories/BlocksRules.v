(** BlocksRules.v - the rules of the detection of text blocks agree with the tables of BlocksSpec.v. *)
From Coq Require Import ZArith NArith.
From Verif Require Import Base Double MathUtils Elements Counter UtilsSpec TextUtils Document LinesSpec Blocks BlocksSpec BlocksProofs BlocksPasses.
Local Open Scope nat_scope.
Local Opaque TOL dZ dadd dsub ddiv dmul dec DBL_MAX DBL_MIN.

Fixpoint first_true (rs : list (bool * bool)) : bool := match rs with [] => false | (c, v) :: t => if c then v else first_true t end.
Lemma first_rule_fun rs v v' : first_rule rs v -> first_rule rs v' -> v = v'.
Proof.
  intros H. revert v'. induction H as [|c v rs Hc|c v rs w Hc H IH]; intros v' H'; inversion H'; subst; try reflexivity; try contradiction. apply IH. assumption.
Qed.
Lemma first_rule_true bs rs : Forall2 (fun b r => snd b = snd r /\ (fst b = true <-> fst r)) bs rs -> first_rule rs (first_true bs).
Proof.
  induction 1 as [|[c v] [P w] bs rs [E I] F IH]; [constructor|]. cbn [fst snd first_true] in *. subst w. destruct c.
  - apply fr_here, I. reflexivity.
  - apply fr_next; [|exact IH]. intros X. apply I in X. discriminate.
Qed.

Section P.
  Context (absd : double -> double) (label_regex : str -> bool) (h : heap) (doc : bdoc).

  (** ** First pass *)
  Lemma overlaps_spec p f : overlaps p f = true <-> inside p f.
  Proof. unfold overlaps, inside. apply andb_true_iff. Qed.
  Lemma figure_spec p fs : forall i, match computeOverlapsFigure p i fs with
    | Some k => i <= k /\ first_figure p fs (k - i)
    | None => forall k f, nth_error fs k = Some f -> ~ inside p f
    end.
  Proof.
    induction fs as [|f t IH]; intros i; cbn [computeOverlapsFigure]; [intros [|k] ? H; discriminate|].
    destruct (overlaps p f) eqn:E.
    - split; [apply le_n|]. rewrite Nat.sub_diag. split; [exists f; split; [reflexivity|apply overlaps_spec, E]|]. intros j g L. lia.
    - assert (NI : ~ inside p f) by (intros X; apply overlaps_spec in X; congruence). specialize (IH (S i)). destruct (computeOverlapsFigure p (S i) t) as [k|].
      + destruct IH as [L ((g & G1 & G2) & G3)]. split; [lia|]. replace (k - i) with (S (k - S i)) by lia. split; [exists g; split; assumption|].
        intros [|j] g' L' H; [injection H as <-; exact NI|]. apply (G3 j); [lia|exact H].
      + intros [|k] g H; [injection H as <-; exact NI|apply (IH k g H)].
  Qed.
  Lemma first_figure_fun p fs i j : first_figure p fs i -> first_figure p fs j -> i = j.
  Proof.
    intros [(f & F1 & F2) F3] [(g & G1 & G2) G3]. destruct (Nat.lt_trichotomy i j) as [L|[E|L]]; [|exact E|].
    - destruct (G3 i f L F1 F2).
    - destruct (F3 j g L G1 G2).
  Qed.
  Definition sameFig (p l : bline) : bool :=
    match computeOverlapsFigure (bl_pos p) 0 (page_figures doc (pageNum (bl_pos l))), computeOverlapsFigure (bl_pos l) 0 (page_figures doc (pageNum (bl_pos l))) with
    | Some i, Some j => i =? j | _, _ => false end.
  Lemma sameFig_spec p l : sameFig p l = true <-> same_figure doc p l.
  Proof.
    unfold sameFig, same_figure. set (fs := page_figures doc _). pose proof (figure_spec (bl_pos p) fs 0) as A. pose proof (figure_spec (bl_pos l) fs 0) as B.
    destruct (computeOverlapsFigure (bl_pos p) 0 fs) as [i|].
    2:{ split; [discriminate|]. intros (k & [(f & F1 & F2) _] & _). destruct (A k f F1 F2). }
    destruct (computeOverlapsFigure (bl_pos l) 0 fs) as [j|].
    2:{ split; [discriminate|]. intros (k & _ & [(f & F1 & F2) _]). destruct (B k f F1 F2). }
    destruct A as [_ A], B as [_ B]. rewrite Nat.sub_0_r in A, B. rewrite Nat.eqb_eq. split.
    - intros ->. exists j. split; assumption.
    - intros (k & K1 & K2). rewrite (first_figure_fun _ _ _ _ A K1), (first_figure_fun _ _ _ _ B K2). reflexivity.
  Qed.
  Lemma neqb_iff (x y : Z) : negb (x =? y)%Z = true <-> x <> y.
  Proof. rewrite negb_true_iff. apply Z.eqb_neq. Qed.
  Lemma prelim_rules_spec lh l p v : bl_prev l = Some p -> startsPreliminaryBlock doc lh l = Ok v ->
    first_rule (preliminary_rules doc (line_at lh (bl_prev (lh p))) (lh p) l) v.
  Proof.
    intros EP H. unfold startsPreliminaryBlock in H. rewrite EP in H. cbn [line_at] in H. set (q := lh p) in *. set (pp := line_at lh (bl_prev q)) in *.
    assert (FG : rule_sameFigure doc q l = Ok (if sameFig q l then TFalse else TNone)).
    { destruct (rule_sameFigure doc q l) as [f| |] eqn:E; try discriminate. clear H. unfold rule_sameFigure in E. unfold sameFig, page_figures. destruct (pageNum (bl_pos l) <? 1)%Z; [discriminate|].
      destruct (nth_error (bd_figures doc) (Z.to_nat (pageNum (bl_pos l) - 1))) as [fs|] eqn:EN; [|discriminate].
      rewrite (nth_error_nth _ _ [] EN). rewrite <- E. f_equal. destruct (computeOverlapsFigure (bl_pos q) 0 fs), (computeOverlapsFigure (bl_pos l) 0 fs); try reflexivity. }
    rewrite FG in H. cbn [obind] in H. match type of H with Ok ?d = _ => assert (EV : v = d) by (exact (f_equal (fun o => match o with Ok a => a | _ => false end) (eq_sym H))) end. rewrite EV. clear EV H v.
    set (tab := [(sameFig q l, false); (negb (rotation (bl_pos q) =? rotation (bl_pos l))%Z, true); (negb (wMode (bl_pos q) =? wMode (bl_pos l))%Z, true);
      (negb (equal (bl_fontSize q) (bl_fontSize l) (dZ 1)) && negb (equal (bl_maxFontSize q) (bl_maxFontSize l) (dZ 1)), true);
      (equalOrSmaller (line_distance q l) dzero TOL, false);
      (larger (line_distance q l) (expected_distance doc l) (distance_threshold (expected_distance doc l)), true);
      (match pp with Some r => larger (line_distance q l) (line_distance r q) (dmul (dec 5 1) (bd_wordHeight doc)) | None => false end, true)]).
    assert (ET : decide [if sameFig q l then TFalse else TNone; rule_rotation q l; rule_wMode q l; rule_fontSize q l; rule_lineDistance doc q l; rule_increasedLineDistance doc pp q l] = first_true tab).
    { unfold rule_rotation, rule_wMode, rule_fontSize, rule_lineDistance, rule_increasedLineDistance, tab. cbn [first_true].
      destruct (sameFig q l); [reflexivity|]. destruct (negb (rotation _ =? _)%Z); [reflexivity|]. destruct (negb (wMode _ =? _)%Z); [reflexivity|].
      destruct (negb (equal (bl_fontSize q) _ _) && _); [reflexivity|]. destruct (equalOrSmaller _ _ _); [reflexivity|]. destruct (larger (line_distance q l) (expected_distance doc l) _); [reflexivity|].
      destruct pp as [r|]; [|reflexivity]. destruct (larger _ _ _); reflexivity. }
    rewrite ET. apply first_rule_true. unfold tab, preliminary_rules.
    repeat match goal with |- Forall2 _ (_ :: _) (_ :: _) => constructor; [cbn [fst snd]; split; [reflexivity|]|] | |- Forall2 _ [] [] => constructor end.
    - apply sameFig_spec.
    - apply neqb_iff.
    - apply neqb_iff.
    - unfold same_fs. rewrite andb_true_iff, !negb_true_iff, !not_true_iff_false. reflexivity.
    - reflexivity.
    - reflexivity.
    - destruct pp; [reflexivity|split; [discriminate|intros []]].
  Qed.

  (** ** Second pass *)
  Lemma fits_spec p l : computeHasPrevLineCapacity h doc (Some p) l = true <-> fits_into h doc p l.
  Proof. unfold computeHasPrevLineCapacity, fits_into. destruct (bl_words l); [split; [discriminate|intros []]|reflexivity]. Qed.
  Lemma prefixb_spec a : forall b, prefixb a b = true <-> exists y, b = a ++ y.
  Proof.
    induction a as [|c a IH]; intros b.
    - cbn. split; [intros _; exists b; reflexivity|reflexivity].
    - destruct b as [|d b]; cbn [prefixb app].
      + split; [discriminate|]. intros (y & E). discriminate.
      + rewrite andb_true_iff, Ascii.eqb_eq, IH. split.
        * intros (-> & y & ->). exists y. reflexivity.
        * intros (y & E). injection E as -> ->. split; [reflexivity|exists y; reflexivity].
  Qed.
  Lemma substringb_spec a : forall b, substringb a b = true <-> exists x y, b = x ++ a ++ y.
  Proof.
    induction b as [|d b IH]; cbn [substringb]; rewrite orb_true_iff, prefixb_spec.
    - split; [intros [(y & E)|H]; [exists [], y; exact E|discriminate]|].
      intros (x & y & E). left. exists y. destruct x; [exact E|discriminate].
    - rewrite IH. split.
      + intros [(y & E)|(x & y & E)]; [exists [], y; exact E|exists (d :: x), y; rewrite E; reflexivity].
      + intros ([|e x] & y & E); [left; exists y; exact E|right]. injection E as -> ->. exists x, y. reflexivity.
  Qed.
  Lemma c_str_spec t p : up_to_nul t p <-> p = c_str t.
  Proof.
    unfold up_to_nul. split.
    - revert p. induction t as [|c t IH]; intros p (N & H); cbn [c_str].
      + destruct H as [H|(r & H)]; [symmetry; exact H|]. destruct p; discriminate.
      + destruct (Ascii.eqb_spec c "000"%char) as [->|NC].
        * destruct p as [|d p]; [reflexivity|]. destruct N. left. destruct H as [H|(r & H)]; injection H; congruence.
        * destruct p as [|d p]; [destruct H as [H|(r & H)]; [discriminate|injection H; congruence]|].
          assert (d = c) as -> by (destruct H as [H|(r & H)]; injection H; congruence). f_equal. apply IH.
          split; [intros HI; apply N; right; exact HI|]. destruct H as [H|(r & H)]; injection H as H; [left; exact H|right; exists r; exact H].
    - intros ->. induction t as [|c t [N H]]; cbn [c_str]; [split; [intros []|left; reflexivity]|].
      destruct (Ascii.eqb_spec c "000"%char) as [->|NC]; [split; [intros []|right; exists t; reflexivity]|].
      split; [intros [E|E]; [congruence|exact (N E)]|]. destruct H as [H|(r & H)]; [left; rewrite <- H; reflexivity|right; exists r; cbn [app]; rewrite <- H; reflexivity].
  Qed.
  Lemma item_text_spec t : substringb (c_str t) superItemLabelAlphabet = true <-> exists p x y, up_to_nul t p /\ ITEM_ALPHABET = x ++ p ++ y.
  Proof.
    rewrite substringb_spec. change superItemLabelAlphabet with ITEM_ALPHABET. split.
    - intros (x & y & E). exists (c_str t), x, y. split; [apply c_str_spec; reflexivity|exact E].
    - intros (p & x & y & U & E). apply c_str_spec in U. subst p. exists x, y. exact E.
  Qed.
  Lemma item_label_spec l : computeIsPrefixedByItemLabel label_regex h l = true <-> item_label label_regex h l.
  Proof.
    unfold computeIsPrefixedByItemLabel, item_label. destruct (bl_words l) as [|w ws]; [split; [discriminate|intros []]|].
    destruct (w_chars (h w)); [split; [discriminate|intros []]|]. rewrite orb_true_iff, andb_true_iff, item_text_spec. reflexivity.
  Qed.
  Lemma super_prefix_spec : forall cs p, leading_superscripts cs p <-> p = super_prefix cs.
  Proof.
    intros cs p. split.
    - intros (pre & rest & -> & F & R & ->). induction pre as [|c pre IH]; cbn [app super_prefix map concat].
      + destruct rest as [|c rest]; [reflexivity|]. cbn [super_prefix]. rewrite R. reflexivity.
      + rewrite (F c (or_introl eq_refl)). f_equal. apply IH. intros; apply F; right; assumption.
    - intros ->. induction cs as [|c cs IH].
      + exists [], []. split; [reflexivity|]. split; [intros ? []|]. split; [exact I|reflexivity].
      + cbn [super_prefix]. destruct (c_isSuper c) eqn:E.
        * destruct IH as (pre & rest & -> & F & R & EQ). exists (c :: pre), rest. split; [reflexivity|]. split; [|split; [exact R|cbn [map concat]; f_equal; exact EQ]].
          intros x [<-|H]; [exact E|apply F, H].
        * exists [], (c :: cs). split; [reflexivity|]. split; [intros ? []|]. split; [exact E|reflexivity].
  Qed.
  Lemma footnote_spec labels l : computeIsPrefixedByFootnoteLabel h labels l = true <-> footnote_label h labels l.
  Proof.
    unfold computeIsPrefixedByFootnoteLabel, footnote_label. destruct (bl_words l) as [|w ws]; [split; [discriminate|intros []]|]. cbv zeta.
    assert (P : forall Q : str -> Prop, Q (super_prefix (w_chars (h w))) <-> exists p, leading_superscripts (w_chars (h w)) p /\ Q p).
    { intro Q. split; [intro H; eexists; split; [apply super_prefix_spec; reflexivity|exact H]|]. intros (p & E & H). apply super_prefix_spec in E. subst p. exact H. }
    rewrite <- P. destruct labels as [s|].
    - rewrite existsb_exists. split.
      + intros (x & Hx & E). apply str_eqb_eq in E. rewrite E. exact Hx.
      + intros H. exists (super_prefix (w_chars (h w))). split; [exact H|apply str_eqb_refl].
    - rewrite negb_true_iff, <- not_true_iff_false, str_eqb_eq. reflexivity.
  Qed.
  Lemma sibling_spec lh o l : sibling_item label_regex h lh o l = true <-> item_sibling label_regex h lh o l.
  Proof.
    unfold sibling_item, item_sibling. destruct o as [s|]; [|split; [discriminate|intros []]].
    destruct (bl_words (lh s)) as [|v vs]; [split; [discriminate|]; intros (_ & ? & ? & ? & ? & E & _); discriminate|].
    destruct (bl_words l) as [|w ws]; [split; [discriminate|]; intros (_ & ? & ? & ? & ? & _ & E & _); discriminate|].
    unfold equal_fonts. rewrite !andb_true_iff, item_label_spec, str_eqb_eq. split.
    - intros (A & B & C). split; [exact A|]. exists v, w, vs, ws. split; [reflexivity|]. split; [reflexivity|]. split; assumption.
    - intros (A & v' & w' & r & r' & E1 & E2 & B & C). injection E1 as <- _. injection E2 as <- _. split; [exact A|]. split; assumption.
  Qed.
  Lemma runs_on_spec p l : (negb (computeIsPrefixedByItemLabel label_regex h p) && str_eqb (bl_fontName p) (bl_fontName l)
      && equal (bl_fontSize p) (bl_fontSize l) (dZ 1) && equalOrSmaller (computeVerticalGap (bl_pos p) (bl_pos l)) dzero TOL
      && negb (endsWithSentenceDelimiter (bl_text p) SENTENCE_DELIMITERS) && computeHasEqualLeftX (bl_pos p) (bl_pos l) (bd_acw doc)) = true <-> runs_on label_regex h doc p l.
  Proof.
    unfold runs_on, same_fs. rewrite !andb_true_iff, !negb_true_iff, <- item_label_spec, str_eqb_eq, not_true_iff_false. tauto.
  Qed.
  Lemma first_item_spec lh labels l : computeIsFirstLineOfItem label_regex h doc lh labels l = true <-> begins_item label_regex h doc lh labels l.
  Proof.
    unfold computeIsFirstLineOfItem, begins_item.
    destruct (bl_words l) as [|w ws] eqn:EW.
    { split; [discriminate|]. intros ([H|H] & _); unfold item_label, footnote_label in H; rewrite EW in H; destruct H. }
    cbv zeta. destruct (negb (computeIsPrefixedByItemLabel label_regex h l) && negb (computeIsPrefixedByFootnoteLabel h labels l)) eqn:E1.
    { split; [discriminate|]. apply andb_true_iff in E1 as [A B]. apply negb_true_iff in A, B. intros ([H|H] & _).
      - apply item_label_spec in H. congruence.
      - apply footnote_spec in H. congruence. }
    assert (A : item_label label_regex h l \/ footnote_label h labels l).
    { rewrite <- item_label_spec, <- footnote_spec. destruct (computeIsPrefixedByItemLabel label_regex h l); [left; reflexivity|]. destruct (computeIsPrefixedByFootnoteLabel h labels l); [right; reflexivity|discriminate]. }
    match goal with |- context [if ?c then false else _] => destruct c eqn:E2 end.
    { split; [discriminate|]. intros (_ & N & _). exfalso. apply N. destruct (bl_prev l) as [p|]; [|discriminate]. exists p. split; [reflexivity|]. apply runs_on_spec, E2. }
    assert (B : ~ (exists p, bl_prev l = Some p /\ runs_on label_regex h doc (lh p) l)).
    { intros (p & EP & R). rewrite EP in E2. cbn [line_at] in E2. apply runs_on_spec in R. congruence. }
    rewrite <- footnote_spec in A |- *. rewrite <- !sibling_spec.
    destruct (sibling_item label_regex h lh (bl_prevSib l) l); [split; [intros _|reflexivity]; split; [exact A|]; split; [exact B|left; reflexivity]|].
    destruct (sibling_item label_regex h lh (bl_nextSib l) l); [split; [intros _|reflexivity]; split; [exact A|]; split; [exact B|right; left; reflexivity]|].
    split; [intros E; split; [exact A|]; split; [exact B|right; right; exact E]|]. intros (_ & _ & [E|[E|E]]); [discriminate|discriminate|exact E].
  Qed.
  Lemma continuation_spec lh labels fuel : forall l c, computeIsContinuationOfItem label_regex h doc fuel lh labels l = Some c ->
    (c = true <-> continues_item label_regex h doc lh labels l).
  Proof.
    induction fuel as [|n IH]; intros l c H; [discriminate|]. cbn [computeIsContinuationOfItem] in H. destruct (bl_parent l) as [p|] eqn:EP.
    - destruct (computeIsFirstLineOfItem label_regex h doc lh labels (lh p)) eqn:EF.
      + injection H as <-. split; [intros _|reflexivity]. apply ci_parent with p; [exact EP|apply first_item_spec, EF].
      + rewrite (IH _ _ H). split; [intros X; apply ci_up with p; assumption|]. intros X. inversion X as [? q EQ FI|? q EQ CI]; subst.
        * rewrite EP in EQ. injection EQ as <-. apply first_item_spec in FI. congruence.
        * rewrite EP in EQ. injection EQ as <-. exact CI.
    - injection H as <-. split; [discriminate|]. intros X. inversion X; congruence.
  Qed.
  Lemma both_emph_spec p l : (line_emphasized doc p && line_emphasized doc l && str_eqb (bl_fontName p) (bl_fontName l) && equal (bl_fontSize p) (bl_fontSize l) (dZ 1)) = true
    <-> both_emphasized doc p l.
  Proof. unfold both_emphasized, same_fs, line_emphasized. rewrite !andb_true_iff, !emphasized_spec, str_eqb_eq. tauto. Qed.

  Lemma block_rules_spec fuel lh labels b l p v : bl_prev l = Some p -> startsBlock absd label_regex h doc fuel lh labels b l = Ok v ->
    first_rule (block_rules absd label_regex h doc lh labels b (lh p) l) v.
  Proof.
    intros EP H. unfold startsBlock in H. rewrite EP in H. cbn [line_at] in H. set (q := lh p) in *.
    unfold rule_centered in H.
    destruct (tb_centered b) eqn:EC.
    { cbn [negb] in H. unfold block_rules. rewrite EC. destruct (computeIsFirstLineOfItem label_regex h doc lh None l) eqn:EF; injection H as <-.
      - apply fr_here. split; [reflexivity|apply first_item_spec, EF].
      - apply fr_next; [intros [_ X]; apply first_item_spec in X; congruence|]. apply fr_here. reflexivity. }
    cbn [negb] in H.
    unfold block_rules. cbv zeta. rewrite EC. apply fr_next; [intros [X _]; discriminate|]. apply fr_next; [discriminate|].
    unfold rule_item in H. destruct (computeIsContinuationOfItem label_regex h doc fuel lh (Some labels) q) as [Cp|] eqn:E1; [|discriminate].
    destruct (computeIsContinuationOfItem label_regex h doc fuel lh (Some labels) l) as [Cl|] eqn:E2; [|discriminate].
    apply continuation_spec in E1, E2. cbn [obind] in H. match type of H with Ok ?d = _ => assert (EV : v = d) by (exact (f_equal (fun o => match o with Ok a => a | _ => false end) (eq_sym H))) end. rewrite EV. clear EV H v. rewrite EC.
    assert (Fp := first_item_spec lh (Some labels) q). assert (Fl := first_item_spec lh (Some labels) l). assert (FT := fits_spec q l).
    assert (EM := both_emph_spec q l).
    assert (OF : offset_ok doc q l = true <-> slightly_indented doc q l) by reflexivity.
    unfold rule_emphasized, rule_hangingIndent, rule_indent.
    set (bFp := computeIsFirstLineOfItem label_regex h doc lh (Some labels) q) in *. set (bFl := computeIsFirstLineOfItem label_regex h doc lh (Some labels) l) in *.
    set (cap := computeHasPrevLineCapacity h doc (Some q) l) in *. set (off := offset_ok doc q l) in *.
    set (em := line_emphasized doc q && line_emphasized doc l && str_eqb (bl_fontName q) (bl_fontName l) && equal (bl_fontSize q) (bl_fontSize l) (dZ 1)) in *.
    set (F := begins_item label_regex h doc lh (Some labels)) in *. set (C := continues_item label_regex h doc lh (Some labels)) in *.
    set (hi := tb_hang b). set (nh := equalOrSmaller hi dzero TOL). set (sm := smaller (bl_left l) hi (bd_acw doc)). set (eqh := equal (bl_left l) hi (bd_acw doc)).
    set (lap := larger (bl_left q) hi (bd_acw doc)). set (lal := larger (bl_left l) hi (bd_acw doc)).
    set (w6 := larger (bl_left l) (dmul (dZ 6) (bd_acw doc)) TOL). set (p6 := larger (bl_left q) (dmul (dZ 6) (bd_acw doc)) TOL).
    set (al := equal (absd (computeLeftXOffset (bl_pos q) (bl_pos l))) dzero (bd_acw doc)).
    assert (AL : al = true <-> tight_left absd doc (bl_pos q) (bl_pos l)) by reflexivity.
    set (bt := between (bl_left l) (dmul (dZ 1) (bd_acw doc)) (dmul (dZ 6) (bd_acw doc)) TOL).
    set (dl := endsWithSentenceDelimiter (bl_text q) SENTENCE_DELIMITERS). set (up := startsWithUpper (bl_text l)).
    set (tab := [(bFl, true); (Cl && cap, true); (Cl && bFp, false); (Cl && (Cp && off), false); (Cl && Cp, true); (Cl, false); ((bFp || Cp) && cap, true);
      ((bFp || Cp) && (negb dl && negb up), false); (em, false); (negb nh && sm, true); (negb nh && (eqh && (lap && off)), false); (negb nh && (eqh && lap), true);
      (negb nh && (eqh && cap), true); (negb nh && eqh, false); (negb nh && (lal && (lap && off)), false); (negb nh && lal, true); (negb nh, false);
      (w6 && al, false); (w6, true); (p6 && al, false); (p6, true); (bt, true); (cap, true)]).
    match goal with |- first_rule _ ?d => assert (ET : d = first_true tab) end.
    { unfold tab. clearbody bFp bFl cap off em F C hi nh sm eqh lap lal w6 p6 al bt dl up. clear.
      destruct bFl; [reflexivity|].
      destruct Cl, cap, bFp, Cp, off; cbn [first_true decide andb orb]; try reflexivity.
      all: destruct dl, up; cbn [first_true decide andb orb negb]; try reflexivity.
      all: destruct em; [reflexivity|]; destruct nh; [|destruct sm; [reflexivity|]; destruct eqh, lap, lal; reflexivity].
      all: destruct w6, p6, al, bt; reflexivity. }
    rewrite ET. apply first_rule_true. unfold tab.
    repeat match goal with |- Forall2 _ (_ :: _) (_ :: _) => constructor; [cbn [fst snd]; split; [reflexivity|]|] | |- Forall2 _ [] [] => constructor end.
    all: rewrite ?andb_true_iff, ?orb_true_iff, ?negb_true_iff; try assumption; try reflexivity; try tauto.
  Qed.
End P.
