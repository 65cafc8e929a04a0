(** PropsWords.v - property theorems C21-C24 (diacritical marks, words, stacked math symbols). *)
From Coq Require Import ZArith NArith.
From Verif Require Import Base Double DoubleFacts MathUtils Elements Counter UtilsSpec Document Diacritics GeometrySpec GridProofs
  DiacriticsSpec DiacriticsProofs Words Grouping WordsSpec WordsProofs StackedProofs.

From Verif Require ParsingSpec.
From Flocq Require Import Core IEEE754.BinarySingleNaN.
From Coq Require Import Reals Lra.
Local Open Scope nat_scope. Local Open Scope list_scope.

(** ** C21 Diacritical marks *)

(** If all coordinates are those of a parsed page, merging never dereferences a null pointer, and the resulting
    coordinates are again of that kind. *)
Theorem C21_defined : forall (compose : list N -> str) cs, (forall c, In c cs -> parsed_coordinates (c_pos c)) ->
  exists cs', merge_marks compose cs = Ok cs' /\ forall c, In c cs' -> parsed_coordinates (c_pos c).
Proof. exact merge_defined. Qed.
Print Assumptions C21_defined.

(** For any page in which nothing has been merged yet: the list keeps its length, no character changes anything but its
    box and its mark fields; only marks become attached, each to a neighbour, which then counts as a base; every base
    refers to a mark that is attached to it and shows the text composed of its own code points and that mark; and a
    character that is no base keeps its box and text. *)
Theorem C21_frame : forall (compose : list N -> str) cs cs', unmerged cs -> merge_marks compose cs = Ok cs' ->
  length cs' = length cs /\
  forall i c c', nth_error cs i = Some c -> nth_error cs' i = Some c' ->
    same_glyph c c' /\
    (forall j, c_markOf c' = Some j -> (exists u, is_mark c u) /\ (i = S j \/ j = S i) /\
       exists b', nth_error cs' j = Some b' /\ c_hasMark b' <> None) /\
    (forall m, c_hasMark c' = Some m -> exists cm cm' u, nth_error cs m = Some cm /\ nth_error cs' m = Some cm' /\
       is_mark cm u /\ c_markOf cm' = Some i /\ c_textWithMark c' = compose (c_unicodes c ++ [u])) /\
    (c_hasMark c' = None -> c_pos c' = c_pos c /\ c_textWithMark c' = c_textWithMark c).
Proof.
  intros compose cs cs' U H. pose proof (merge_inv _ _ _ U H) as I. split; [apply (inv_len _ _ _ _ I)|].
  intros i c c' Hc Hc'. split; [exact (inv_same _ _ _ _ I i c c' Hc Hc')|]. split; [|split].
  - intros j M. destruct (inv_mark _ _ _ _ I i c' j Hc' M) as ((c0 & u & E0 & IM) & AD & B). rewrite Hc in E0. injection E0 as <-.
    split; [exists u; exact IM|]. split; [exact AD|exact B].
  - intros m M. destruct (inv_base _ _ _ _ I i c' m Hc' M) as (cm & cm' & u & H1 & H2 & H3 & H4 & H5).
    exists cm, cm', u. repeat (split; [assumption|]). rewrite H5.
    destruct (inv_same _ _ _ _ I i c c' Hc Hc') as (_ & _ & _ & _ & _ & -> & _). reflexivity.
  - apply (inv_free _ _ _ _ I i c c' Hc Hc').
Qed.
Print Assumptions C21_frame.

(** The box of a character covers its own old box and the old boxes of all marks attached to it. *)
Theorem C21_boxes : forall (compose : list N -> str) cs cs', unmerged cs -> (forall c, In c cs -> nn_pos (c_pos c)) ->
  merge_marks compose cs = Ok cs' ->
  forall i c c', nth_error cs i = Some c -> nth_error cs' i = Some c' ->
    covers (c_pos c') (c_pos c) /\
    forall m cm cm', nth_error cs m = Some cm -> nth_error cs' m = Some cm' -> c_markOf cm' = Some i -> covers (c_pos c') (c_pos cm).
Proof.
  intros compose cs cs' U NN H i c c' Hc Hc'. destruct (inv_box _ _ _ _ (merge_inv _ _ _ U H) NN i c c' Hc Hc') as (_ & A & B).
  split; assumption.
Qed.
Print Assumptions C21_boxes.

(** If marks are isolated (no two within distance two), the outcome is completely determined by the input positions:
    exactly the marks that overlap a neighbour are attached, each to the neighbour it overlaps more; that neighbour
    shows the composed text and its box grows by the mark's box; everything else is untouched. *)
Theorem C21_isolated_marks : forall (compose : list N -> str) cs cs', isolated_marks cs -> merge_marks compose cs = Ok cs' ->
  length cs' = length cs /\
  (forall i u j c b, attaches cs i u j -> nth_error cs i = Some c -> nth_error cs j = Some b ->
     exists c' b', nth_error cs' i = Some c' /\ nth_error cs' j = Some b' /\ becomes_mark c c' j /\ becomes_base compose b b' c i u) /\
  (forall i, (forall u j, ~ attaches cs i u j) -> (forall m u, ~ attaches cs m u i) -> nth_error cs' i = nth_error cs i).
Proof.
  intros compose cs cs' IM H. destruct (isolated_merge _ _ _ IM H) as (L & A & F). split; [exact L|]. split.
  - intros i u j c b AT Ec Eb. destruct (A i u j c b) as [A1 A2]; auto; [apply (attaches_len _ _ _ _ AT)|].
    eexists _, _. split; [exact A1|]. split; [exact A2|]. split; repeat split.
  - intros i H1 H2. apply F; [intros u j _; apply H1|intros m u _; apply H2].
Qed.
Print Assumptions C21_isolated_marks.

(** Without isolation text is lost: of two marks around one base both are attached (hence skipped by the word
    detection), but the text shown for the base contains only the second one. *)
Definition ch (uid : nat) (x0 x1 : Z) (us : list N) (t : string) : character :=
  mkChar uid (S_ "i") 0 (mkPos 1 (dZ x0) (dZ 0) (dZ x1) (dZ 10) 0 0) (S_ t) (S_ "n") us (S_ "f") (dZ 10) (dzero, dzero, dzero) done dzero
         false false None None [].
Theorem C21_all_marks_kept_refuted : exists cs, map c_unicodes cs = [[776]; [97]; [818]]%N /\ forall compose, exists cs',
  merge_marks compose cs = Ok cs' /\ map c_markOf cs' = [Some 1; None; Some 1]%nat /\
  map c_textWithMark cs' = [[]; compose [97; 818]%N; []].
Proof.
  exists [ch 0 0 10 [776%N] "1"; ch 1 0 10 [97%N] "a"; ch 2 0 10 [818%N] "2"]. split; [reflexivity|]. intros compose.
  assert (P : match merge_marks compose [ch 0 0 10 [776%N] "1"; ch 1 0 10 [97%N] "a"; ch 2 0 10 [818%N] "2"] with
              | Ok cs' => Some (map c_markOf cs', map c_textWithMark cs') | _ => None end
              = Some ([Some 1; None; Some 1]%nat, [[]; compose [97; 818]%N; []])) by (vm_compute; reflexivity).
  destruct (merge_marks compose _) as [cs'| |]; try discriminate. exists cs'. split; [reflexivity|].
  injection P as P1 P2. split; assumption.
Qed.
Print Assumptions C21_all_marks_kept_refuted.

(** With coordinates whose difference overflows, merging is undefined (null pointer dereference). *)
Theorem C21_always_defined_refuted : exists cs, forall compose, merge_marks compose cs = UB "null pointer dereference".
Proof.
  pose (p := mkPos 1 (dopp DBL_MAX) dzero DBL_MAX dzero 0 0).
  pose (c := fun us => mkChar 0 (S_ "i") 0 p (S_ "t") (S_ "n") us (S_ "f") (dZ 10) (dzero, dzero, dzero) done dzero false false None None []).
  exists [c [97%N]; c [776%N]]. intros compose. vm_compute. reflexivity.
Qed.
Print Assumptions C21_always_defined_refuted.

Example C21_nonvacuous : let cs := [ch 0 0 10 [111%N] "o"; ch 1 2 8 [168%N] "x"; ch 2 12 20 [98%N] "b"] in
  unmerged cs /\ (forall c, In c cs -> parsed_coordinates (c_pos c)) /\ isolated_marks cs /\
  (forall compose, exists cs', merge_marks compose cs = Ok cs' /\ map c_textWithMark cs' = [compose [111; 776]%N; []; []]) /\
  attaches cs 1 776 0.
Proof.
  set (cs := [ch 0 0 10 [111%N] "o"; ch 1 2 8 [168%N] "x"; ch 2 12 20 [98%N] "b"]). cbv zeta.
  assert (NM : forall i c u, nth_error cs i = Some c -> is_mark c u -> i = 1%nat).
  { intros i c u H M. apply mark_unicode_spec in M. destruct i as [|[|[|i]]]; [| reflexivity | |].
    - injection H as <-. vm_compute in M. discriminate.
    - injection H as <-. vm_compute in M. discriminate.
    - destruct i; discriminate. }
  split; [|split; [|split; [|split]]].
  - intros c [<-|[<-|[<-|[]]]]; split; reflexivity.
  - intros c Hc. apply parsed_check.
    assert (F : forallb (fun c => parsed_b (c_pos c)) cs = true) by (vm_compute; reflexivity). rewrite forallb_forall in F. apply F, Hc.
  - intros i j c d u v Hi Hj Mi Mj L. pose proof (NM _ _ _ Hi Mi). pose proof (NM _ _ _ Hj Mj). lia.
  - intros compose.
    assert (P : match merge_marks compose cs with Ok cs' => Some (map c_textWithMark cs') | _ => None end
                = Some [compose [111; 776]%N; []; []]) by (vm_compute; reflexivity).
    destruct (merge_marks compose cs) as [cs'| |]; try discriminate. exists cs'. split; [reflexivity|]. injection P as P. exact P.
  - exists (ch 1 2 8 [168%N] "x"). split; [reflexivity|]. split; [apply mark_unicode_spec; vm_compute; reflexivity|].
    split; [left; vm_compute; reflexivity|]. split; [left; split; [vm_compute; reflexivity|reflexivity]|cbn; lia].
Qed.

(** ** C22 Words partition the characters *)

(** For every page, and whatever the iteration orders of the font counters: word detection succeeds and appends to the
    page's words a list [ws] of words made from consecutive groups of characters; together the groups are exactly the
    characters that are not merged into another one, in extraction order; the ranks continue the numbering. *)
Theorem C22_words_partition : forall ordS ordD new_id cfg pn words cs,
  (forall m, Permutation m (ordS m)) -> (forall m, Permutation m (ordD m)) ->
  exists ws, detectWords ordS ordD new_id cfg pn words cs = Ok (words ++ ws) /\
    concat (map w_chars ws) = filter (fun c => match c_markOf c with None => true | Some _ => false end) cs /\
    (forall w, In w ws -> w_chars w <> [] /\ word_of (w_chars w) w) /\
    (forall k w, nth_error ws k = Some w -> w_rank w = Z.of_nat (length words + k)).
Proof.
  intros ordS ordD new_id cfg pn words cs HS HD.
  destruct (detectWords_ok ordS ordD new_id cfg HS HD pn words cs) as (ws & gs & E & (C & NE & _ & _) & W & R).
  exists ws. split; [exact E|].
  assert (EG : gs = map w_chars ws).
  { clear -W. induction W as [|g w gs ws H W IH]; [reflexivity|]. cbn. destruct H as [-> _]. f_equal. exact IH. }
  split; [|split; [|exact R]].
  - rewrite <- EG, C. unfold kept. apply filter_ext. intros c. destruct (c_markOf c); reflexivity.
  - intros w Hw. split; [apply NE; rewrite EG; apply in_map, Hw|].
    clear -W Hw. induction W as [|g x gs ws H W IH]; [destruct Hw|]. destruct Hw as [<-|Hw]; [|apply IH, Hw].
    destruct H as [EQ H]. rewrite EQ. split; assumption.
Qed.
Print Assumptions C22_words_partition.

(** In particular the text of the page's words is the text of its unmerged characters. *)
Theorem C22_text_preserved : forall ordS ordD new_id cfg pn cs,
  (forall m, Permutation m (ordS m)) -> (forall m, Permutation m (ordD m)) ->
  exists ws, detectWords ordS ordD new_id cfg pn [] cs = Ok ws /\
    concat (map w_text ws) = concat (map shown_text (filter (fun c => match c_markOf c with None => true | Some _ => false end) cs)).
Proof.
  intros ordS ordD new_id cfg pn cs HS HD.
  destruct (C22_words_partition ordS ordD new_id cfg pn [] cs HS HD) as (ws & E & C & W & _).
  exists ws. split; [exact E|]. rewrite <- C. clear -W. induction ws as [|w ws IH]; [reflexivity|]. cbn [map concat].
  rewrite map_app, concat_app, <- IH by (intros x Hx; apply W; right; exact Hx).
  destruct (W w (or_introl eq_refl)) as (_ & _ & -> & _). reflexivity.
Qed.
Print Assumptions C22_text_preserved.

(** ** C23 Word boundaries *)

(** The configuration that the program ships with: half overlaps, font sizes equal up to one, and the signs that start a stacked symbol. *)
Theorem C23_configuration : let cfg := default_words_config in
  B2R (minYOverlapRatio cfg) = (1 / 2)%R /\ B2R (minStackedXOverlap cfg) = (1 / 2)%R /\ B2R (wFsEqualTolerance cfg) = 1%R /\
  is_finite (minYOverlapRatio cfg) = true /\ is_finite (minStackedXOverlap cfg) = true /\ is_finite (wFsEqualTolerance cfg) = true /\
  map (map N_of_ascii) (stackedCharTexts cfg) = map ParsingSpec.utf8 [0x2211; 0x220F; 0x222B; 0x2297]%N /\
  stackedCharNames cfg = [S_ "summationdisplay"; S_ "productdisplay"; S_ "integraldisplay"; S_ "circlemultiplydisplay"] /\
  stackedWords cfg = [S_ "sup"; S_ "lim"].
Proof.
  cbv zeta. do 3 (split; [rewrite <- SF2R_B2SF; match goal with |- SF2R _ ?x = _ => let y := eval vm_compute in x in change x with y end; unfold SF2R, Defs.F2R; cbn; lra|]).
  repeat (split; [vm_compute; reflexivity|]). vm_compute; reflexivity.
Qed.
Print Assumptions C23_configuration.

(** The words are exactly the greedy grouping of the unmerged characters under the word-break rules of [word_break]
    (which determines them uniquely), and all characters of a word have the word's rotation and writing mode. *)
Theorem C23_word_breaks : forall ordS ordD new_id cfg pn words cs,
  (forall m, Permutation m (ordS m)) -> (forall m, Permutation m (ordD m)) ->
  exists ws, detectWords ordS ordD new_id cfg pn words cs = Ok (words ++ ws) /\
    is_grouping (word_break cfg) (filter (fun c => match c_markOf c with None => true | Some _ => false end) cs) (map w_chars ws) /\
    (forall gs, is_grouping (word_break cfg) (filter (fun c => match c_markOf c with None => true | Some _ => false end) cs) gs -> gs = map w_chars ws) /\
    (forall w c, In w ws -> In c (w_chars w) -> rotation (c_pos c) = rotation (w_pos w) /\ wMode (c_pos c) = wMode (w_pos w)).
Proof.
  intros ordS ordD new_id cfg pn words cs HS HD.
  destruct (detectWords_ok ordS ordD new_id cfg HS HD pn words cs) as (ws & gs & E & IG & W & R).
  exists ws. split; [exact E|].
  assert (EG : gs = map w_chars ws).
  { clear -W. induction W as [|g w gs ws H W IH]; [reflexivity|]. cbn. destruct H as [-> _]. f_equal. exact IH. }
  assert (EK : kept cs = filter (fun c => match c_markOf c with None => true | Some _ => false end) cs).
  { unfold kept. apply filter_ext. intros c. destruct (c_markOf c); reflexivity. }
  rewrite EK, EG in IG. split; [exact IG|]. split; [intros gs' H; eapply grouping_unique; eassumption|].
  intros w c Hw Hc.
  assert (WO : word_of (w_chars w) w).
  { clear -W Hw. induction W as [|g x gs ws H W IH]; [destruct Hw|]. destruct Hw as [<-|Hw]; [|apply IH, Hw].
    destruct H as [EQ H]. rewrite EQ. split; assumption. }
  destruct WO as (_ & _ & (c0 & t & EC & _ & -> & ->) & _).
  apply (homogeneous cfg (w_chars w)); [|exact Hc|rewrite EC; left; reflexivity].
  intros pre d post EQ P. destruct IG as (_ & _ & IN & _). apply (IN pre d post); [|exact P]. rewrite <- EQ. apply in_map, Hw.
Qed.
Print Assumptions C23_word_breaks.

Example C23_nonvacuous : exists ws, detectWords (fun m => m) (fun m => m) (fun _ => []) default_words_config 1 []
    [ch 0 0 10 [] "a"; ch 1 11 20 [] "b"; ch 2 30 40 [] "c"] = Ok ws /\ map w_text ws = [S_ "ab"; S_ "c"].
Proof.
  assert (P : match detectWords (fun m => m) (fun m => m) (fun _ => []) default_words_config 1 []
                 [ch 0 0 10 [] "a"; ch 1 11 20 [] "b"; ch 2 30 40 [] "c"] with Ok ws => Some (map w_text ws) | _ => None end
              = Some [S_ "ab"; S_ "c"]) by (vm_compute; reflexivity).
  destruct (detectWords _ _ _ _ _ _ _) as [ws| |]; try discriminate. exists ws. split; [reflexivity|]. injection P as P. exact P.
Qed.

(** ** C24 Stacked math symbols *)

(** For every page whose words are not related yet: nothing but the relation changes; the parts of a word are exactly
    the words that belong to it (it is a symbol, and they and all words in between fit), first those before it, from
    right to left, then those after it, from left to right; and a word is part of the last word it belongs to. *)
Theorem C24_relation : forall cfg ws, (forall w, In w ws -> w_parts w = [] /\ w_partOf w = None) ->
  length (mergeStackedMathSymbols cfg ws) = length ws /\
  forall i w, nth_error ws i = Some w -> exists w', nth_error (mergeStackedMathSymbols cfg ws) i = Some w' /\ same_word w w' /\
    (forall j, In j (w_parts w') <-> belongs cfg ws i j) /\
    (w_parts w' = [] \/ exists a n, (a <= i)%nat /\ (i + n < length ws)%nat /\ w_parts w' = rev (seq a (i - a)) ++ seq (S i) n) /\
    (forall b, w_partOf w' = Some b <-> belongs cfg ws b i /\ forall b', belongs cfg ws b' i -> (b' <= b)%nat) /\
    (w_partOf w' = None <-> forall b, ~ belongs cfg ws b i).
Proof.
  intros cfg ws H0. destruct (merge_spec cfg ws (length ws) (le_n _)) as [L M]. split; [exact L|].
  intros i w Hw. destruct (M i w Hw) as (w' & H1 & H2 & H3 & H4). exists w'. split; [exact H1|]. split; [exact H2|].
  destruct (H0 w (nth_error_In _ _ Hw)) as [P0 Q0]. rewrite P0 in H3. cbn [app] in H3.
  assert (Hi : (i < length ws)%nat) by (apply nth_error_Some; congruence).
  destruct (Nat.ltb_spec i (length ws)) as [_|X] in H3; [|lia].
  assert (BL : forall b j, belongs cfg ws b j -> (b < length ws)%nat).
  { intros b j (x & Ex & _). apply nth_error_Some. congruence. }
  split; [intros j; rewrite H3; apply parts_belongs|]. split; [rewrite H3; apply parts_shape|].
  destruct H4 as [[H4 N]|(b & B1 & B2 & B3 & B4)].
  - rewrite H4, Q0.
    assert (NB : forall b, ~ belongs cfg ws b i).
    { intros b B. apply (N b); [eapply BL, B|]. apply parts_belongs, B. }
    split; [|split; [intros _; exact NB|reflexivity]]. intros b. split; [discriminate|]. intros [B _]. destruct (NB b B).
  - rewrite B3. apply parts_belongs in B2.
    assert (MX : forall b', belongs cfg ws b' i -> (b' <= b)%nat).
    { intros b' B. apply B4; [eapply BL, B|]. apply parts_belongs, B. }
    split.
    + intros b'. split; [intros E; injection E as <-; split; assumption|]. intros [B' MX']. f_equal.
      pose proof (MX b' B'). pose proof (MX' b B2). lia.
    + split; [discriminate|]. intros N. destruct (N b B2).
Qed.
Print Assumptions C24_relation.

(** A part has a strictly smaller font size than its base (with a non-negative tolerance), so the relation has no cycles. *)
Theorem C24_acyclic : forall cfg ws i j wi wj, dle dzero (wFsEqualTolerance cfg) = true -> belongs cfg ws i j ->
  nth_error ws i = Some wi -> nth_error ws j = Some wj -> dlt (w_fontSize wj) (w_fontSize wi) = true.
Proof.
  intros cfg ws i j wi wj T (b & Eb & _ & NE & Hj & F) Ei Ej. rewrite Ei in Eb. injection Eb as <-.
  assert (K : (j <= j < i \/ i < j <= j)%nat) by lia. destruct (F j wj K Ej) as [_ S].
  eapply MathUtilsProofs.smaller_lt; eassumption.
Qed.
Print Assumptions C24_acyclic.

(** A word can be a part of two symbols (it then occurs in the parts of both), and a symbol can itself be a part. *)
Definition wd (x0 x1 fs : Z) (t : string) : word :=
  mkWord (S_ "w") 0 (mkPos 1 (dZ x0) (dZ 0) (dZ x1) (dZ 10) 0 0) (S_ t) (S_ "f") (dZ fs) [] None [] None None.
Theorem C24_parts_disjoint_refuted : exists ws,
  map w_parts (mergeStackedMathSymbols default_words_config ws) = [[1]; []; [1]]%nat /\
  map w_partOf (mergeStackedMathSymbols default_words_config ws) = [None; Some 2; None]%nat.
Proof. exists [wd 0 10 12 "sup"; wd 0 10 8 "n"; wd 0 10 12 "lim"]. split; vm_compute; reflexivity. Qed.
Print Assumptions C24_parts_disjoint_refuted.
Theorem C24_bases_are_not_parts_refuted : exists ws,
  map w_parts (mergeStackedMathSymbols default_words_config ws) = [[1; 2]; [2]; []]%nat /\
  map w_partOf (mergeStackedMathSymbols default_words_config ws) = [None; Some 0; Some 1]%nat.
Proof. exists [wd 0 10 16 "sup"; wd 0 10 12 "lim"; wd 0 10 8 "n"]. split; vm_compute; reflexivity. Qed.
Print Assumptions C24_bases_are_not_parts_refuted.

Example C24_nonvacuous : dle dzero (wFsEqualTolerance default_words_config) = true /\
  belongs default_words_config [wd 0 10 12 "sup"; wd 0 10 8 "n"] 0 1.
Proof.
  split; [vm_compute; reflexivity|]. exists (wd 0 10 12 "sup"). split; [reflexivity|]. split; [right; cbn; left; reflexivity|].
  split; [lia|]. split; [cbn; lia|]. intros k w [K|K] Hk; [lia|]. assert (k = 1%nat) by lia. subst k. injection Hk as <-.
  split; vm_compute; reflexivity.
Qed.
