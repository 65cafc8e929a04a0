(** PropsItemLabels.v - C84: which lines begin with an enumeration item label. *)
From Coq Require Import ZArith NArith Lia.
From Verif Require Import Base Double MathUtils Elements UtilsSpec TextUtils Document LinesSpec Blocks BlocksSpec BlocksRules ItemLabels ItemLabelsSpec ItemLabelsProofs.

Ltac piece := rewrite ?den_word_i, ?den_word in *.
Lemma one_i (c : ascii) s x : s = [c] -> ~ lower c -> ~ upper c -> (any_case s x <-> x = [c]).
Proof.
  intros -> NL NU. split.
  - intros H. inversion H as [|? d ? t S F]; subst. inversion F; subst. destruct S as [->|[(U & _)|(U & E)]]; [reflexivity|destruct (NU U)|].
    destruct NL. unfold lower, upper, code in *. lia.
  - intros ->. constructor; [left; reflexivity|constructor].
Qed.
Ltac not_letter := unfold lower, upper, code; vm_compute; lia.
Lemma dot_i x : den (Li ".") x <-> x = S_ ".".
Proof. unfold Li. rewrite den_word_i. apply (one_i "."); [reflexivity|not_letter|not_letter]. Qed.
Lemma open_i x : den (Li "(") x <-> x = S_ "(".
Proof. unfold Li. rewrite den_word_i. apply (one_i "("); [reflexivity|not_letter|not_letter]. Qed.
Lemma close_i x : den (Li ")") x <-> x = S_ ")".
Proof. unfold Li. rewrite den_word_i. apply (one_i ")"); [reflexivity|not_letter|not_letter]. Qed.
Lemma sopen_i x : den (Li "[") x <-> x = S_ "[".
Proof. unfold Li. rewrite den_word_i. apply (one_i "["); [reflexivity|not_letter|not_letter]. Qed.
Lemma sclose_i x : den (Li "]") x <-> x = S_ "]".
Proof. unfold Li. rewrite den_word_i. apply (one_i "]"); [reflexivity|not_letter|not_letter]. Qed.
Lemma lit_E s x : den (L s) x <-> x = S_ s.
Proof. apply den_word. Qed.
Lemma az09_spec x : den az09_i x <-> exists c, x = [c] /\ alnum c.
Proof.
  assert (H : forall c, range true "a" "z" c || range true "0" "9" c = true <-> alnum c).
  { intros c. rewrite range_alpha_i, range_digit_i, !orb_true_iff, range_lower, range_upper, range_digit. unfold alnum. tauto. }
  cbn [den az09_i]. split; intros (c & -> & P); exists c; (split; [reflexivity|apply H, P]).
Qed.
Lemma digits_i n x : den (upto n digit_i) x <-> Forall digit x /\ length x <= n.
Proof. apply den_byte_seq. intros c. rewrite range_digit_i. apply range_digit. Qed.

(** The nine patterns. *)
Lemma p1 x : den (cat [alts (word false (map ascii_of_nat [226; 128; 162])) [L "-"; word false (map ascii_of_nat [226; 128; 147]); L "+"]]) x -> label x.
Proof.
  rewrite den_cat1. cbn [alts den]. unfold L. intros [H|[H|[H|H]]]; apply den_word in H; subst x; constructor.
Qed.
Lemma p2 x : den (cat [roman; Li "."]) x <-> exists n t, x = t ++ S_ "." /\ In n ROMAN /\ any_case n t.
Proof.
  rewrite (den_Cat_E _ _ _ _ _ den_roman (fun y => iff_trans (den_cat1 _ y) (dot_i y))). split.
  - intros (y & z & -> & (n & N & C) & ->). exists n, y. auto.
  - intros (n & t & -> & N & C). exists t, (S_ "."). split; [reflexivity|]. split; [exists n; auto|reflexivity].
Qed.
Lemma p3 x : den (cat [Li "("; roman; Li ")"]) x <-> exists n t, x = S_ "(" ++ t ++ S_ ")" /\ In n ROMAN /\ any_case n t.
Proof.
  rewrite den_cat_cons. split.
  - intros (y & z & -> & O & H). apply open_i in O. subst y. rewrite (den_Cat_E _ _ _ _ _ den_roman (fun y => iff_trans (den_cat1 _ y) (close_i y))) in H.
    destruct H as (t & w & -> & (n & N & C) & ->). exists n, t. auto.
  - intros (n & t & -> & N & C). exists (S_ "("), (t ++ S_ ")"). split; [reflexivity|]. split; [apply open_i; reflexivity|].
    rewrite (den_Cat_E _ _ _ _ _ den_roman (fun y => iff_trans (den_cat1 _ y) (close_i y))). exists t, (S_ ")"). split; [reflexivity|].
    split; [exists n; auto|reflexivity].
Qed.
Lemma p4 x : den (cat [Byte (range false "a" "z"); L "."]) x <-> exists c, x = c :: S_ "." /\ lower c.
Proof.
  rewrite den_cat_cons. split.
  - intros (y & z & -> & (c & -> & P) & H). rewrite den_cat1, lit_E in H. subst z. exists c. split; [reflexivity|apply range_lower, P].
  - intros (c & -> & P). exists [c], (S_ "."). split; [reflexivity|]. split; [exists c; split; [reflexivity|apply range_lower, P]|].
    rewrite den_cat1, lit_E. reflexivity.
Qed.
Lemma p5 x : den (cat [Plus (range false "0" "9"); L "."]) x <-> exists ds, x = ds ++ S_ "." /\ ds <> [] /\ Forall digit ds.
Proof.
  rewrite den_cat_cons. split.
  - intros (y & z & -> & (N & F) & H). rewrite den_cat1, lit_E in H. subst z. exists y. split; [reflexivity|]. split; [exact N|].
    eapply Forall_impl; [|exact F]. intros c. apply range_digit.
  - intros (ds & -> & N & F). exists ds, (S_ "."). split; [reflexivity|]. split; [split; [exact N|]|rewrite den_cat1, lit_E; reflexivity].
    eapply Forall_impl; [|exact F]. intros c. apply range_digit.
Qed.
Lemma p6 x : den (cat [alts (Li "(") [Li "["]; az09_i; upto 2 digit_i; alts (Li ")") [Li "]"]]) x <->
  exists o c ds e, x = o :: c :: ds ++ [e] /\ In o (S_ "([") /\ alnum c /\ Forall digit ds /\ length ds <= 2 /\ In e (S_ ")]").
Proof.
  rewrite den_cat_cons. split.
  - intros (y1 & z1 & -> & O & H). rewrite den_cat_cons in H. destruct H as (y2 & z2 & -> & A & H). rewrite den_cat_cons in H. destruct H as (ds & z3 & -> & D & E).
    rewrite den_cat1 in E. apply az09_spec in A. destruct A as (c & -> & A). apply digits_i in D. cbn [alts den] in O, E.
    destruct O as [O|O]; [apply open_i in O|apply sopen_i in O]; (destruct E as [E|E]; [apply close_i in E|apply sclose_i in E]); subst y1 z3;
      [exists "("%char, c, ds, ")"%char|exists "("%char, c, ds, "]"%char|exists "["%char, c, ds, ")"%char|exists "["%char, c, ds, "]"%char];
      cbn [In S_ list_ascii_of_string app]; tauto.
  - intros (o & c & ds & e & -> & O & A & D & LE & E). exists [o], (c :: ds ++ [e]). split; [reflexivity|]. split.
    + cbn [alts den]. destruct O as [<-|[<-|[]]]; [left; apply open_i; reflexivity|right; apply sopen_i; reflexivity].
    + rewrite den_cat_cons. exists [c], (ds ++ [e]). split; [reflexivity|]. split; [apply az09_spec; exists c; auto|].
      rewrite den_cat_cons. exists ds, [e]. split; [reflexivity|]. split; [apply digits_i; auto|]. rewrite den_cat1. cbn [alts den].
      destruct E as [<-|[<-|[]]]; [left; apply close_i; reflexivity|right; apply sclose_i; reflexivity].
Qed.
Lemma p7 x : den (cat [L "["; Byte (range false "A" "Z"); upto 5 (Byte (fun c => range false "a" "z" c || range false "A" "Z" c || range false "0" "9" c)); L "]"]) x <->
  exists c cs, x = "["%char :: c :: cs ++ S_ "]" /\ upper c /\ Forall alnum cs /\ length cs <= 5.
Proof.
  assert (H : forall c, range false "a" "z" c || range false "A" "Z" c || range false "0" "9" c = true <-> alnum c).
  { intros c. rewrite !orb_true_iff, range_lower, range_upper, range_digit. unfold alnum. tauto. }
  rewrite den_cat_cons. split.
  - intros (y1 & z1 & -> & O & R). apply lit_E in O. subst y1. rewrite den_cat_cons in R. destruct R as (y2 & z2 & -> & (c & -> & C) & R).
    rewrite den_cat_cons in R. destruct R as (cs & z3 & -> & D & E). rewrite den_cat1, lit_E in E. subst z3. apply (den_byte_seq _ _ H) in D.
    exists c, cs. split; [reflexivity|]. split; [apply range_upper, C|exact D].
  - intros (c & cs & -> & C & F & LE). exists (S_ "["), (c :: cs ++ S_ "]"). split; [reflexivity|]. split; [apply lit_E; reflexivity|].
    rewrite den_cat_cons. exists [c], (cs ++ S_ "]"). split; [reflexivity|]. split; [exists c; split; [reflexivity|apply range_upper, C]|].
    rewrite den_cat_cons. exists cs, (S_ "]"). split; [reflexivity|]. split; [apply (den_byte_seq _ _ H); auto|]. rewrite den_cat1, lit_E. reflexivity.
Qed.
Lemma p8 x : den (cat [az09_i; upto 1 digit_i; Li ")"]) x <-> exists c ds, x = c :: ds ++ S_ ")" /\ alnum c /\ Forall digit ds /\ length ds <= 1.
Proof.
  rewrite den_cat_cons. split.
  - intros (y1 & z1 & -> & A & R). apply az09_spec in A. destruct A as (c & -> & A). rewrite den_cat_cons in R. destruct R as (ds & z2 & -> & D & E).
    rewrite den_cat1, close_i in E. subst z2. apply digits_i in D. exists c, ds. auto.
  - intros (c & ds & -> & A & F & LE). exists [c], (ds ++ S_ ")"). split; [reflexivity|]. split; [apply az09_spec; exists c; auto|].
    rewrite den_cat_cons. exists ds, (S_ ")"). split; [reflexivity|]. split; [apply digits_i; auto|]. rewrite den_cat1, close_i. reflexivity.
Qed.

(** C84. One of the regular expressions is found in a text exactly if the text begins with a label, followed by white space. *)
Theorem C84_patterns : forall t, matches_item_label t = true <-> labelled t.
Proof.
  intros t. unfold matches_item_label. rewrite existsb_exists. split.
  - intros (r & Hr & H). cbn [itemLabelRegexes In] in Hr.
    assert (K : forall l, nobol (cat (l ++ [blanks])) = true -> nobol (cat l) = true -> (forall x, den (cat l) x -> label x) -> regex_search (cat (Bol :: l ++ [blanks])) t = true -> labelled t).
    { intros l N1 N2 P S. apply (search_label l t N1 N2) in S. destruct S as (x & b & rest & E & D & B). exists x, b, rest. auto. }
    destruct Hr as [<-|[<-|[<-|[<-|[<-|[<-|[<-|[<-|[<-|[]]]]]]]]]].
    + refine (K [_] _ _ _ H); [reflexivity|reflexivity|]. exact p1.
    + refine (K [_; _] _ _ _ H); [reflexivity|reflexivity|]. intros x D. apply p2 in D. destruct D as (n & u & -> & N & C). apply (l_roman n); assumption.
    + refine (K [_; _; _] _ _ _ H); [reflexivity|reflexivity|]. intros x D. apply p3 in D. destruct D as (n & u & -> & N & C). apply (l_roman_paren n); assumption.
    + refine (K [_; _] _ _ _ H); [reflexivity|reflexivity|]. intros x D. apply p4 in D. destruct D as (c & -> & C). apply l_letter, C.
    + refine (K [_; _] _ _ _ H); [reflexivity|reflexivity|]. intros x D. apply p5 in D. destruct D as (ds & -> & N & F). apply l_number; assumption.
    + refine (K [_; _; _; _] _ _ _ H); [reflexivity|reflexivity|]. intros x D. apply p6 in D. destruct D as (o & c & ds & e & -> & A & B & C & E & F). apply l_bracket; assumption.
    + refine (K [_; _; _; _] _ _ _ H); [reflexivity|reflexivity|]. intros x D. apply p7 in D. destruct D as (c & cs & -> & A & B & C). apply l_key; assumption.
    + refine (K [_; _; _] _ _ _ H); [reflexivity|reflexivity|]. intros x D. apply p8 in D. destruct D as (c & ds & -> & A & B & C). apply l_paren; assumption.
    + refine (K [_] _ _ _ H); [reflexivity|reflexivity|]. intros x D. rewrite den_cat1 in D. apply l_pacs, den_word_i, D.
  - intros (x & b & rest & E & LX & B).
    assert (K : forall l, In (cat (Bol :: l ++ [blanks])) itemLabelRegexes -> nobol (cat (l ++ [blanks])) = true -> nobol (cat l) = true -> den (cat l) x ->
              exists r, In r itemLabelRegexes /\ regex_search r t = true).
    { intros l I N1 N2 D. exists (cat (Bol :: l ++ [blanks])). split; [exact I|]. apply (search_label l t N1 N2). exists x, b, rest. auto. }
    destruct LX.
    1-4: (refine (K [_] ltac:(left; reflexivity) _ _ _); [reflexivity|reflexivity|rewrite den_cat1; cbn [alts den]; unfold L; rewrite !den_word; auto]).
    + refine (K [_; _] ltac:(do 1 right; left; reflexivity) _ _ _); [reflexivity|reflexivity|]. apply p2. exists n, t0. auto.
    + refine (K [_; _; _] ltac:(do 2 right; left; reflexivity) _ _ _); [reflexivity|reflexivity|]. apply p3. exists n, t0. auto.
    + refine (K [_; _] ltac:(do 3 right; left; reflexivity) _ _ _); [reflexivity|reflexivity|]. apply p4. exists c. auto.
    + refine (K [_; _] ltac:(do 4 right; left; reflexivity) _ _ _); [reflexivity|reflexivity|]. apply p5. exists ds. auto.
    + refine (K [_; _; _; _] ltac:(do 5 right; left; reflexivity) _ _ _); [reflexivity|reflexivity|]. apply p6. exists o, c, ds, e. auto 10.
    + refine (K [_; _; _; _] ltac:(do 6 right; left; reflexivity) _ _ _); [reflexivity|reflexivity|]. apply p7. exists c, cs. auto.
    + refine (K [_; _; _] ltac:(do 7 right; left; reflexivity) _ _ _); [reflexivity|reflexivity|]. apply p8. exists c, ds. auto.
    + refine (K [_] ltac:(do 8 right; left; reflexivity) _ _ _); [reflexivity|reflexivity|]. rewrite den_cat1. apply den_word_i. assumption.
Qed.
Print Assumptions C84_patterns.

(** A line is taken for one with an item label exactly if its first word has a character, and this is a superscript whose text is
    part of the alphabet, or the text of the line begins with a label and white space. *)
Theorem C84_item_label : forall h l, computeIsPrefixedByItemLabel matches_item_label h l = true <->
  exists w ws c cs, bl_words l = w :: ws /\ w_chars (h w) = c :: cs /\
    ((c_isSuper c = true /\ exists p x y, up_to_nul (c_text c) p /\ ITEM_ALPHABET = x ++ p ++ y) \/ labelled (bl_text l)).
Proof.
  intros h l. rewrite item_label_spec. unfold item_label. split.
  - destruct (bl_words l) as [|w ws]; [intros []|]. destruct (w_chars (h w)) as [|c cs] eqn:EC; [intros []|]. intros H.
    exists w, ws, c, cs. split; [reflexivity|]. split; [exact EC|]. rewrite <- C84_patterns. exact H.
  - intros (w & ws & c & cs & -> & -> & H). rewrite C84_patterns. exact H.
Qed.
Print Assumptions C84_item_label.

(** The claim that every label identifies an item (a symbol, a letter or a number) is false: a stray period or a pair of
    parentheses without anything in between is a "Roman numeral". And a superscript without any text is an item label. *)
Theorem C84_nonempty_refuted : labelled (S_ ". the") /\ labelled (S_ "() x") /\ up_to_nul [] [] /\ ITEM_ALPHABET = [] ++ [] ++ ITEM_ALPHABET.
Proof.
  split; [apply C84_patterns; vm_compute; reflexivity|]. split; [apply C84_patterns; vm_compute; reflexivity|].
  split; [split; [intros []|left; reflexivity]|reflexivity].
Qed.
Print Assumptions C84_nonempty_refuted.

Example C84_example : labelled (S_ "xvii. Proof") /\ labelled (S_ "[Bu2] A. Author") /\ labelled (S_ "(C1) x") /\ labelled (S_ "pacs 1") /\
  ~ labelled (S_ "XX. a") /\ ~ labelled (S_ "1.5 a") /\ ~ labelled (S_ "A. Smith") /\ ~ labelled (S_ " 1. a") /\ labelled (S_ "I. Newton").
Proof. rewrite <- !C84_patterns. repeat split; try (vm_compute; reflexivity); vm_compute; discriminate. Qed.
