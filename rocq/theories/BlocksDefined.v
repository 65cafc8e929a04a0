(** BlocksDefined.v - when the detection of text blocks is defined. *)
From Coq Require Import ZArith NArith.
From Verif Require Import Base Double MathUtils Elements Counter UtilsSpec TextUtils Document LinesSpec WordsProofs Blocks BlocksSpec BlocksProofs BlocksPasses.
Local Open Scope nat_scope.
Local Opaque TOL dZ dadd dsub ddiv dmul dec DBL_MAX DBL_MIN.

Section P.
  Context (ordS : list (str * N) -> list (str * N)) (ordD : list (double * N) -> list (double * N)).
  Context (absd : double -> double) (label_regex : str -> bool) (h : heap) (doc : bdoc).
  Context (HS : forall m, Permutation m (ordS m)) (HD : forall m, Permutation m (ordD m)).
  Notation create := (createTextBlock ordS ordD absd h doc).
  Notation Inv := (inv absd h doc).
  Context (lh0 : lheap) (m : nat -> nat) (B : nat).
  (** The page of a line exists; a line with at least three bytes of text has a word; lines have fewer ancestors than [B]. *)
  Definition on_page (l : bline) : Prop := (1 <= pageNum (bl_pos l) <= Z.of_nat (length (bd_figures doc)))%Z.
  Definition has_words (l : bline) : Prop := (3 <= N.of_nat (length (bl_text l)))%N -> bl_words l <> [].
  Context (HM : forall l p, bl_parent (lh0 l) = Some p -> m p < m l) (HB : forall l, m l < B).

  Lemma hang_scan_defined lh mf : forall ls i s, (forall l, In l ls -> has_words (lh l)) -> exists s', hang_scan h doc lh mf i ls s = Ok s'.
  Proof.
    induction ls as [|l t IH]; intros i s W; cbn [hang_scan]; [eexists; reflexivity|].
    assert (X : exists s1, hang_line h doc lh mf i (lh l) s = Ok s1).
    { unfold hang_line. destruct (N.ltb_spec (N.of_nat (length (bl_text (lh l)))) 3) as [L|L]; [eexists; reflexivity|].
      destruct (equal _ _ _ && larger _ _ _); [eexists; reflexivity|]. specialize (W l (or_introl eq_refl) L).
      destruct (bl_words (lh l)); [congruence|]. eexists. reflexivity. }
    destruct X as (s1 & ->). cbn [obind]. apply IH. intros x Hx. apply W. right. exact Hx.
  Qed.
  Lemma mostFreqAndCount_guarded (ms : list (double * N)) : exists k n, (if (0 <? sumCounts ms)%N then mostFreqAndCount dzero ms else Ok (dzero, 0%N)) = Ok (k, n).
  Proof.
    destruct (guarded_mostFreq deq dzero dzero ms) as (k & E). destruct (0 <? sumCounts ms)%N; [|eexists; eexists; reflexivity].
    unfold mostFreq in E. destruct (mostFreqAndCount dzero ms) as [[k' n]| |]; try discriminate. exists k', n. reflexivity.
  Qed.
  Lemma create_defined ls bs lhc : ls <> [] -> NoDup ls -> (forall l, In l ls -> has_words (lhc l)) -> exists r, create ls bs lhc = Ok r.
  Proof.
    intros NE ND W. unfold createTextBlock. destruct ls as [|l0 rest] eqn:EL; [congruence|]. cbn iota. rewrite <- EL in *.
    destruct (bd_seg doc (bl_seg (lhc l0))) as [seg [[[tl tu] tr] tlo]]. cbv zeta. set (box := fold_left _ _ _).
    destruct (guarded_mostFreq str_eqb ([] : str) [] (ordS (count_all str_eqb (map (fun l => bl_fontName (lhc l)) ls)))) as (fn & ->). cbn [obind].
    destruct (guarded_mostFreq deq dzero (dopp done) (ordD (count_all deq (map (fun l => bl_fontSize (lhc l)) ls)))) as (fs & ->). cbn [obind].
    set (lh1 := link_lines ls 0 ls lhc). set (tr' := block_right _ _ _ _ _ _). set (lh2 := margin_lines _ tr' ls lh1).
    destruct (link_lines_spec ls ls 0 lhc ND (fun k l Q => Q)) as (L1 & _). fold lh1 in L1.
    destruct (margin_lines_spec (maximum (leftX box) tl) tr' ls lh1 ND) as (M1 & _). fold lh2 in M1.
    assert (W2 : forall l, In l ls -> has_words (lh2 l)).
    { intros l Hl. specialize (W l Hl). destruct (sa_trans _ _ _ L1 M1 l) as (_ & E1 & _ & _ & _ & E2 & _). unfold has_words in *. rewrite E1, E2. exact W. }
    assert (HH : exists hi, computeHangingIndent ordD h doc lh2 ls = Ok hi).
    { unfold computeHangingIndent. cbv zeta. match goal with |- context [ordD ?c] => destruct (mostFreqAndCount_guarded (ordD c)) as (mf & n & ->) end. cbn [obind].
      destruct (equalOrSmaller _ _ _); [eexists; reflexivity|]. destruct (hang_scan_defined lh2 mf ls 0 (mkHang false false true 0 0 0 0) W2) as (s & ->). cbn [obind].
      repeat (match goal with |- exists _, (if ?c then _ else _) = _ => destruct c end); eexists; reflexivity. }
    destruct HH as (hi & ->). cbn [obind]. eexists. reflexivity.
  Qed.

  Lemma sa_words lhc l : same_all lh0 lhc -> has_words (lh0 l) -> has_words (lhc l).
  Proof. intros SA W. destruct (SA l) as (_ & E1 & _ & _ & _ & E2 & _). unfold has_words in *. rewrite E1, E2. exact W. Qed.
  Lemma starts_prelim_defined lhc l : same_all lh0 lhc -> on_page (lh0 l) -> exists s, startsPreliminaryBlock doc lhc (lhc l) = Ok s.
  Proof.
    intros SA P. unfold startsPreliminaryBlock. destruct (line_at lhc (bl_prev (lhc l))) as [p|]; [|eexists; reflexivity].
    unfold rule_sameFigure. destruct (SA l) as (E & _). rewrite E. destruct P as [P1 P2]. destruct (Z.ltb_spec (pageNum (bl_pos (lh0 l))) 1) as [X|_]; [lia|].
    destruct (nth_error (bd_figures doc) (Z.to_nat (pageNum (bl_pos (lh0 l)) - 1))) eqn:EN; [cbn [obind]; eexists; reflexivity|]. apply nth_error_None in EN. lia.
  Qed.
  Lemma prelim_lines_defined : forall ls cur bs lhc, same_all lh0 lhc -> Inv lh0 lhc bs -> NoDup (block_lines bs ++ cur ++ ls) ->
    (forall l, In l (cur ++ ls) -> on_page (lh0 l) /\ has_words (lh0 l)) -> exists r, prelim_lines ordS ordD absd h doc ls cur bs lhc = Ok r.
  Proof.
    induction ls as [|l t IH]; intros cur bs lhc SA I ND W; cbn [prelim_lines].
    - destruct (nonempty cur) eqn:EN; [|eexists; reflexivity]. rewrite app_nil_r in *. apply create_defined; [apply nonempty_true, EN|exact (NoDup_app_r _ _ ND)|].
      intros l Hl. apply sa_words; [exact SA|apply W, Hl].
    - destruct (starts_prelim_defined lhc l SA) as (s & ->); [apply W, in_mid|]. cbn [obind]. destruct (s && nonempty cur) eqn:EC.
      + apply andb_true_iff in EC as [_ EN]. apply nonempty_true in EN. assert (ND1 : NoDup (block_lines bs ++ cur)) by (rewrite app_assoc in ND; exact (NoDup_app_l _ _ ND)).
        destruct (create_defined cur bs lhc EN (NoDup_app_r _ _ ND1)) as ([bs1 lh1] & E1).
        { intros x Hx. apply sa_words; [exact SA|apply W, in_or_app; left; exact Hx]. }
        rewrite E1. cbn [obind]. destruct (create_inv ordS ordD absd h doc HS HD lh0 lhc cur bs bs1 lh1 E1 SA I ND1) as (A & I' & C & D). apply IH; [exact A|exact I'| |].
        * unfold block_lines in *. rewrite D, concat_app. cbn [concat]. rewrite app_nil_r, <- app_assoc. exact ND.
        * intros x Hx. apply W, in_or_app. right. exact Hx.
      + apply IH; [exact SA|exact I| |]; rewrite <- app_assoc; assumption.
  Qed.
  Lemma prelim_segments_defined : forall segs lhc, same_all lh0 lhc -> NoDup (concat segs) -> (forall l, In l (concat segs) -> lhc l = lh0 l) ->
    (forall l, In l (concat segs) -> on_page (lh0 l) /\ has_words (lh0 l)) -> exists r, prelim_segments ordS ordD absd h doc segs lhc = Ok r.
  Proof.
    induction segs as [|ls t IH]; intros lhc SA ND EQ W; cbn [prelim_segments]; [eexists; reflexivity|]. cbn [concat] in *.
    destruct (prelim_lines_defined ls [] [] lhc SA (inv_nil _ _ _ _ _)) as ([bs lh1] & E1); [exact (NoDup_app_l _ _ ND)|intros l Hl; apply W, in_or_app; left; exact Hl|].
    rewrite E1. cbn [obind]. destruct (prelim_lines_spec ordS ordD absd h doc HS HD lh0 ls [] [] lhc bs lh1 E1 SA (inv_nil _ _ _ _ _)) as (A & _ & C & _); [exact (NoDup_app_l _ _ ND)|].
    destruct (IH lh1 A (NoDup_app_r _ _ ND)) as ([rest lh2] & E2).
    - intros l Hl. rewrite C; [apply EQ, in_or_app; right; exact Hl|]. intros X. apply (NoDup_app_disj _ _ l ND X Hl).
    - intros l Hl. apply W, in_or_app. right. exact Hl.
    - rewrite E2. cbn [obind]. eexists. reflexivity.
  Qed.
  Lemma prelim_pages_defined : forall pages lhc, same_all lh0 lhc -> NoDup (concat (map (@concat nat) pages)) -> (forall l, In l (concat (map (@concat nat) pages)) -> lhc l = lh0 l) ->
    (forall l, In l (concat (map (@concat nat) pages)) -> on_page (lh0 l) /\ has_words (lh0 l)) -> exists r, prelim_pages ordS ordD absd h doc pages lhc = Ok r.
  Proof.
    induction pages as [|segs t IH]; intros lhc SA ND EQ W; cbn [prelim_pages]; [eexists; reflexivity|]. cbn [map concat] in *.
    destruct (prelim_segments_defined segs lhc SA (NoDup_app_l _ _ ND)) as ([bss lh1] & E1); [intros l Hl; apply EQ, in_or_app; left; exact Hl|intros l Hl; apply W, in_or_app; left; exact Hl|].
    rewrite E1. cbn [obind].
    destruct (prelim_segments_spec ordS ordD absd h doc HS HD lh0 segs lhc bss lh1 E1 SA (NoDup_app_l _ _ ND)) as (A & _ & C & _); [intros l Hl; apply EQ, in_or_app; left; exact Hl|].
    destruct (IH lh1 A (NoDup_app_r _ _ ND)) as ([rest lh2] & E2).
    - intros l Hl. rewrite C; [apply EQ, in_or_app; right; exact Hl|]. intros X. apply (NoDup_app_disj _ _ l ND X Hl).
    - intros l Hl. apply W, in_or_app. right. exact Hl.
    - rewrite E2. cbn [obind]. eexists. reflexivity.
  Qed.

  Lemma continuation_defined lhc labels : same_all lh0 lhc -> forall n l, m l < n ->
    exists c, forall fuel, n <= fuel -> computeIsContinuationOfItem label_regex h doc fuel lhc labels (lhc l) = Some c.
  Proof.
    intros SA. induction n as [|n IH]; intros l L; [lia|].
    destruct (SA l) as (_ & _ & _ & _ & _ & _ & _ & EP & _). destruct (bl_parent (lh0 l)) as [p|] eqn:E.
    - destruct (IH p) as (c & H); [specialize (HM l p E); lia|].
      exists (if computeIsFirstLineOfItem label_regex h doc lhc labels (lhc p) then true else c). intros [|fuel] F; [lia|]. cbn [computeIsContinuationOfItem]. rewrite EP, H by lia.
      destruct (computeIsFirstLineOfItem label_regex h doc lhc labels (lhc p)); reflexivity.
    - exists false. intros [|fuel] F; [lia|]. cbn [computeIsContinuationOfItem]. rewrite EP. reflexivity.
  Qed.
  Lemma starts_block_defined lhc labels b l : same_all lh0 lhc ->
    exists s, forall fuel, B <= fuel -> startsBlock absd label_regex h doc fuel lhc labels b (lhc l) = Ok s.
  Proof.
    intros SA. unfold startsBlock. destruct (bl_prev (lhc l)) as [p|]; cbn [line_at]; [|exists true; reflexivity].
    destruct (rule_centered label_regex h doc lhc b (lhc l)); try (exists true; reflexivity); try (exists false; reflexivity).
    destruct (continuation_defined lhc (Some labels) SA B p (HB p)) as (c1 & H1). destruct (continuation_defined lhc (Some labels) SA B l (HB l)) as (c2 & H2).
    eexists. intros fuel F. unfold rule_item. rewrite (H1 fuel F), (H2 fuel F). cbn [obind]. reflexivity.
  Qed.
  Lemma final_lines_defined b : forall ls cur labels bs lhc, same_all lh0 lhc -> Inv lh0 lhc bs -> NoDup (block_lines bs ++ cur ++ ls) ->
    (forall l, In l (cur ++ ls) -> has_words (lh0 l)) ->
    exists r, forall fuel, B <= fuel -> final_lines ordS ordD absd label_regex h doc fuel b ls cur labels bs lhc = Ok r.
  Proof.
    induction ls as [|l t IH]; intros cur labels bs lhc SA I ND W; cbn [final_lines].
    - destruct (nonempty cur) eqn:EN; [|eexists; reflexivity]. rewrite app_nil_r in *.
      destruct (create_defined cur bs lhc) as ([bs1 lh1] & ->); [apply nonempty_true, EN|exact (NoDup_app_r _ _ ND)| |cbn [obind]; eexists; reflexivity].
      intros l Hl. apply sa_words; [exact SA|apply W, Hl].
    - set (labels1 := computePotentialFootnoteLabels h (lhc l) labels). destruct (starts_block_defined lhc labels1 b l SA) as (s & ES).
      destruct (s && nonempty cur) eqn:EC.
      + apply andb_true_iff in EC as [-> EN]. apply nonempty_true in EN. assert (ND1 : NoDup (block_lines bs ++ cur)) by (rewrite app_assoc in ND; exact (NoDup_app_l _ _ ND)).
        destruct (create_defined cur bs lhc EN (NoDup_app_r _ _ ND1)) as ([bs1 lh1] & E1).
        { intros x Hx. apply sa_words; [exact SA|apply W, in_or_app; left; exact Hx]. }
        destruct (create_inv ordS ordD absd h doc HS HD lh0 lhc cur bs bs1 lh1 E1 SA I ND1) as (A & I' & C & D).
        destruct (IH [l] labels1 bs1 lh1 A I') as (r & E2).
        * unfold block_lines in *. rewrite D, concat_app. cbn [concat]. rewrite app_nil_r, <- app_assoc. exact ND.
        * intros x Hx. apply W, in_or_app. right. exact Hx.
        * exists r. intros fuel F. rewrite (ES fuel F). cbn [obind]. destruct cur; [congruence|]. cbn [nonempty andb]. rewrite E1. cbn [obind]. apply E2, F.
      + destruct (IH (cur ++ [l]) labels1 bs lhc SA I) as (r & E2); [rewrite <- app_assoc; assumption|rewrite <- app_assoc; assumption|].
        exists r. intros fuel F. rewrite (ES fuel F). cbn [obind]. rewrite EC. apply E2, F.
  Qed.
  Lemma final_blocks_defined : forall pre labels bs lhc, same_all lh0 lhc -> Inv lh0 lhc bs -> NoDup (block_lines bs ++ block_lines pre) ->
    (forall l, In l (block_lines pre) -> has_words (lh0 l)) ->
    exists r, forall fuel, B <= fuel -> final_blocks ordS ordD absd label_regex h doc fuel pre labels bs lhc = Ok r.
  Proof.
    induction pre as [|b t IH]; intros labels bs lhc SA I ND W; cbn [final_blocks]; [eexists; reflexivity|].
    change (block_lines (b :: t)) with (tb_lines b ++ block_lines t) in *.
    assert (ND1 : NoDup (block_lines bs ++ [] ++ tb_lines b)) by (rewrite app_assoc in ND; apply (NoDup_app_l _ _ ND)).
    destruct (final_lines_defined b (tb_lines b) [] labels bs lhc SA I ND1) as ([[bs1 labels1] lhx] & E1); [intros l Hl; apply W, in_or_app; left; exact Hl|].
    destruct (final_lines_frame ordS ordD absd label_regex h doc HS HD lh0 B b _ _ _ _ _ _ _ _ (E1 B (le_n _)) SA I ND1) as (A & I' & _ & _ & gs & G1 & G2 & _). cbn [app] in G2.
    assert (BL : block_lines bs1 = block_lines bs ++ tb_lines b).
    { unfold block_lines. rewrite G1, concat_app, G2. reflexivity. }
    destruct (IH labels1 bs1 lhx A I') as (r & E2).
    - rewrite BL, <- app_assoc. exact ND.
    - intros l Hl. apply W, in_or_app. right. exact Hl.
    - exists r. intros fuel F. rewrite (E1 fuel F). cbn [obind]. apply E2, F.
  Qed.
  Lemma final_pages_defined : forall pages labels lhc, same_all lh0 lhc -> NoDup (concat (map (fun segs => block_lines (concat segs)) pages)) ->
    (forall l, In l (concat (map (fun segs => block_lines (concat segs)) pages)) -> has_words (lh0 l)) ->
    exists r, forall fuel, B <= fuel -> final_pages ordS ordD absd label_regex h doc fuel pages labels lhc = Ok r.
  Proof.
    induction pages as [|segs t IH]; intros labels lhc SA ND W; cbn [final_pages]; [eexists; reflexivity|]. cbn [map concat] in *.
    destruct (final_blocks_defined (concat segs) labels [] lhc SA (inv_nil _ _ _ _ _)) as ([[bs labels1] lhx] & E1); [exact (NoDup_app_l _ _ ND)|intros l Hl; apply W, in_or_app; left; exact Hl|].
    destruct (final_blocks_frame ordS ordD absd label_regex h doc HS HD lh0 B _ _ _ _ _ _ _ (E1 B (le_n _)) SA (inv_nil _ _ _ _ _)) as (A & _); [exact (NoDup_app_l _ _ ND)|].
    destruct (IH labels1 lhx A (NoDup_app_r _ _ ND)) as ([rest lhy] & E2); [intros l Hl; apply W, in_or_app; right; exact Hl|].
    eexists. intros fuel F. rewrite (E1 fuel F). cbn [obind]. rewrite (E2 fuel F). cbn [obind]. reflexivity.
  Qed.

  Lemma prelim_all_lines (pages : list (list (list nat))) pre (Q : list nat -> list tblock -> Prop) :
    Forall2 (Forall2 (fun ls bs => block_lines bs = ls /\ Q ls bs)) pages pre ->
    concat (map (fun segs => block_lines (concat segs)) pre) = concat (map (@concat nat) pages).
  Proof.
    induction 1 as [|segs bss pages pre F _ IH]; [reflexivity|]. cbn [map concat]. rewrite IH. f_equal. clear IH.
    induction F as [|ls bs segs bss [E _] _ IH]; [reflexivity|]. cbn [concat]. rewrite block_lines_app, E, IH. reflexivity.
  Qed.
  Lemma detect_defined (pages : list (list (list nat))) : NoDup (concat (map (@concat nat) pages)) ->
    (forall l, In l (concat (map (@concat nat) pages)) -> on_page (lh0 l) /\ has_words (lh0 l)) ->
    exists r, forall fuel, B <= fuel -> detectTextBlocks ordS ordD absd label_regex h doc fuel pages lh0 = Ok r.
  Proof.
    intros ND W. destruct (prelim_pages_defined pages lh0 (sa_refl _) ND (fun _ _ => eq_refl) W) as ([pre lh1] & E1).
    destruct (prelim_pages_spec ordS ordD absd h doc HS HD lh0 pages lh0 pre lh1 E1 (sa_refl _) ND (fun _ _ => eq_refl)) as (A & _ & _ & D).
    pose proof (prelim_all_lines _ _ _ D) as AL.
    destruct (final_pages_defined pre [] lh1 A) as ([fin lh2] & E2).
    - rewrite AL. exact ND.
    - rewrite AL. intros l Hl. apply W, Hl.
    - eexists. intros fuel F. unfold detectTextBlocks. rewrite E1. cbn [obind]. rewrite (E2 fuel F). cbn [obind]. reflexivity.
  Qed.
End P.
