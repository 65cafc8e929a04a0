(** WordsSpec.v - vocabulary for the statements about words (C22-C24). *)
From Coq Require Import ZArith NArith.
From Verif Require Import Base Double MathUtils Elements Counter UtilsSpec Document Words Grouping.

(** The box and the (maximal) font size of a group of characters; the rotation and the writing mode are those of its
    last character. *)
Definition group_box (g : list character) : position :=
  let b := bbox (map c_pos g) in
  match rev g with
  | [] => b
  | c :: _ => mkPos (pageNum b) (leftX b) (upperY b) (rightX b) (lowerY b) (rotation (c_pos c)) (wMode (c_pos c))
  end.
Definition group_size (g : list character) : double := fold_left maximum (map c_fontSize g) dzero.

(** A character does not belong to the word made of the characters [g] before it: it has another rotation or writing
    mode, or its y-overlap with the word is too small, or the horizontal gap on one side exceeds 0.15 font sizes. *)
Definition word_break (cfg : words_config) (g : list character) (c : character) : bool :=
  negb (rotation (group_box g) =? rotation (c_pos c))%Z ||
  negb (wMode (group_box g) =? wMode (c_pos c))%Z ||
  smaller (computeMaxYOverlapRatio (c_pos c) (group_box g)) (minYOverlapRatio cfg) TOL ||
  larger (computeHorizontalGap (c_pos c) (group_box g)) (dmul (dec 15 2) (group_size g)) TOL ||
  larger (computeHorizontalGap (group_box g) (c_pos c)) (dmul (dec 15 2) (group_size g)) TOL.

(** The text a character contributes: a base character's text includes its mark. *)
Definition shown_text (c : character) : str :=
  match c_hasMark c with Some _ => c_textWithMark c | None => c_text c end.

(** [w] is the word made from the characters [g]. *)
Definition word_of (g : list character) (w : word) : Prop :=
  w_chars w = g /\ w_text w = concat (map shown_text g) /\
  (exists c t, g = c :: t /\ pageNum (w_pos w) = pageNum (c_pos c) /\ rotation (w_pos w) = rotation (c_pos c) /\
     wMode (w_pos w) = wMode (c_pos c)) /\
  leftX (w_pos w) = leftX (bbox (map c_pos g)) /\ upperY (w_pos w) = upperY (bbox (map c_pos g)) /\
  rightX (w_pos w) = rightX (bbox (map c_pos g)) /\ lowerY (w_pos w) = lowerY (bbox (map c_pos g)) /\
  ((N.of_nat (length g) < 2 ^ 32)%N ->
     In (w_fontName w) (map c_fontName g) /\
     (forall f, In f (map c_fontName g) -> occ str_eqb f (map c_fontName g) <= occ str_eqb (w_fontName w) (map c_fontName g)) /\
     ((forall c, In c g -> is_nan_d (c_fontSize c) = false) ->
      In (w_fontSize w) (map c_fontSize g) /\
      forall f, In f (map c_fontSize g) -> occ deq f (map c_fontSize g) <= occ deq (w_fontSize w) (map c_fontSize g))) /\
  w_partOf w = None /\ w_parts w = [] /\ w_first w = None /\ w_second w = None.

(** ** Stacked math symbols *)
(** A word that contains one of the characters of the configuration, or is one of its words. *)
Definition is_symbol (cfg : words_config) (w : word) : Prop :=
  (exists c, In c (w_chars w) /\ (In (c_text c) (stackedCharTexts cfg) \/ In (c_name c) (stackedCharNames cfg))) \/
  In (w_text w) (stackedWords cfg).
(** A word that is above, below, ... a symbol: it overlaps it horizontally and has a smaller font. *)
Definition fits (cfg : words_config) (base w : word) : Prop :=
  smaller (computeMaxXOverlapRatio (w_pos base) (w_pos w)) (minStackedXOverlap cfg) TOL = false /\
  smaller (w_fontSize w) (w_fontSize base) (wFsEqualTolerance cfg) = true.
(** The word at [j] belongs to the symbol at [i]: it and all words in between fit. *)
Definition belongs (cfg : words_config) (ws : list word) (i j : nat) : Prop :=
  exists b, nth_error ws i = Some b /\ is_symbol cfg b /\ i <> j /\ j < length ws /\
    forall k w, (j <= k < i \/ i < k <= j) -> nth_error ws k = Some w -> fits cfg b w.
(** Everything but the two fields of the relation agrees. *)
Definition same_word (w w' : word) : Prop :=
  w_id w' = w_id w /\ w_rank w' = w_rank w /\ w_pos w' = w_pos w /\ w_text w' = w_text w /\ w_fontName w' = w_fontName w /\
  w_fontSize w' = w_fontSize w /\ w_chars w' = w_chars w /\ w_first w' = w_first w /\ w_second w' = w_second w.
