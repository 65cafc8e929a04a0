(** LinesSpec.v - vocabulary for the statements about text lines (C25) and their hierarchy (C26). *)
From Coq Require Import ZArith NArith.
From Verif Require Import Base Double MathUtils Sort Elements Counter UtilsSpec GeometrySpec Document Lines.

(** A least / greatest value of a list. *)
Definition is_least (x : double) (l : list double) : Prop :=
  (forall v, In v l -> dle x v = true) /\ exists v, In v l /\ deq x v = true.
Definition is_greatest (x : double) (l : list double) : Prop :=
  (forall v, In v l -> dle v x = true) /\ exists v, In v l /\ deq x v = true.
(** The x- resp. y-coordinates of a list of boxes. *)
Definition xs (ps : list position) : list double := flat_map (fun p => [leftX p; rightX p]) ps.
Definition ys (ps : list position) : list double := flat_map (fun p => [upperY p; lowerY p]) ps.
(** [b] is the smallest box around [ps] (except that its right and lower sides are at least DBL_MIN, the smallest positive
    normal double, with which the code starts). *)
Definition smallest_box (b : position) (ps : list position) : Prop :=
  is_least (leftX b) (xs ps) /\ is_least (upperY b) (ys ps) /\
  is_greatest (rightX b) (DBL_MIN :: xs ps) /\ is_greatest (lowerY b) (DBL_MIN :: ys ps).

(** Texts separated by single blanks. *)
Fixpoint blank_separated (ts : list str) : str :=
  match ts with [] => [] | [t] => t | t :: r => t ++ [" "%char] ++ blank_separated r end.

(** [x] is a most frequent value of [l]. *)
Definition most_frequent {K} (eqb : K -> K -> bool) (x : K) (l : list K) : Prop :=
  In x l /\ forall y, In y l -> occ eqb y l <= occ eqb x l.

(** [a] is read before [b] in a line with rotation [rot]: left to right (0), top to bottom (1), right to left (2), bottom to
    top (3); coordinates that differ by at most the tolerance do not count. *)
Definition read_before (rot : Z) (a b : position) : bool :=
  if (rot =? 0)%Z || (rot =? 1)%Z then smaller (getRotLeftX a) (getRotLeftX b) TOL else larger (getRotLeftX a) (getRotLeftX b) TOL.
(** The line [a] is above the line [b] (seen in the direction of the rotation). *)
Definition line_above (rot : Z) (a b : position) : bool :=
  if (rot =? 0)%Z || (rot =? 1)%Z then smaller (getRotLowerY a) (getRotLowerY b) TOL else larger (getRotLowerY a) (getRotLowerY b) TOL.

Section Spec.
  Context (h : heap).
  Definition pos_of (i : nat) : position := w_pos (h i).
  Definition all_chars (ws : list nat) : list character := flat_map (fun i => w_chars (h i)) ws.

  (** [l] is the text line made from the words [ws]. *)
  Definition line_of (ws : list nat) (l : tline) : Prop :=
    ws <> [] /\ Permutation ws (l_words l) /\
    (forall l1 a l2 b l3, l_words l = l1 ++ a :: l2 ++ b :: l3 -> read_before (rotation (l_pos l)) (pos_of b) (pos_of a) = false) /\
    l_text l = blank_separated (map (fun i => w_text (h i)) (l_words l)) /\
    (exists w t, ws = w :: t /\ pageNum (l_pos l) = pageNum (pos_of w) /\ rotation (l_pos l) = rotation (pos_of w) /\ wMode (l_pos l) = wMode (pos_of w)) /\
    smallest_box (l_pos l) (map pos_of ws) /\
    (all_chars ws = [] -> l_fontName l = [] /\ l_fontSize l = dopp done /\ l_maxFontSize l = dzero /\ l_base l = dzero) /\
    (all_chars ws <> [] -> (N.of_nat (length (all_chars ws)) < 2 ^ 32)%N ->
       (forall c, In c (all_chars ws) -> is_nan_d (c_fontSize c) = false /\ is_nan_d (c_base c) = false) ->
       most_frequent str_eqb (l_fontName l) (map c_fontName (all_chars ws)) /\
       most_frequent deq (l_fontSize l) (map c_fontSize (all_chars ws)) /\
       most_frequent deq (l_base l) (map c_base (all_chars ws)) /\
       In (l_maxFontSize l) (map c_fontSize (all_chars ws)) /\
       (forall c, In c (all_chars ws) -> larger (c_fontSize c) (l_maxFontSize l) TOL = false)).

  (** The words that [w] stands for: none if it is part of a stacked math symbol, else itself and the parts of its symbol. *)
  Definition with_parts (w : nat) : list nat :=
    match w_partOf (h w) with Some _ => [] | None => w :: w_parts (h w) end.
  (** The words with the rotation [r] and the baseline [y] (with the parts of stacked symbols). *)
  Definition on_baseline (ws : list nat) (r : Z) (y : double) : list nat :=
    flat_map with_parts (filter (fun w => (rotation (pos_of w) =? r)%Z && deq (getRotLowerY (pos_of w)) y) ws).

  (** The condition under which the line [q] is merged into the line [p] above it: the vertical overlap is at least 40 percent
      of the height of one of them, resp. 80 percent if the horizontal gap is three average character widths or more. *)
  Definition same_line (acw : double) (p q : position) : bool :=
    equalOrLarger (computeMaxYOverlapRatio p q)
      (if dlt (computeHorizontalGap p q) (dmul (dZ 3) acw) then dec 4 1 else dec 8 1) TOL.
  (** [ls'] results from [ls] by merging consecutive lines that meet the condition. *)
  Inductive merged_from (acw : double) : list tline -> list tline -> Prop :=
  | mf_done ls : merged_from acw ls ls
  | mf_step l1 p q l2 pq ls' : same_line acw (l_pos p) (l_pos q) = true -> line_of (l_words p ++ l_words q) pq ->
      merged_from acw (l1 ++ pq :: l2) ls' -> merged_from acw (l1 ++ p :: q :: l2) ls'.

  (** Everything but the rank and the references to the neighbours. *)
  Definition content (l : tline) : tline :=
    mkLine (-1) (l_pos l) (l_text l) (l_fontName l) (l_fontSize l) (l_maxFontSize l) (l_base l) (l_words l) None None.

  (** The lines with rotation [r] of a segment with the words [ws]: the words are grouped by their baselines, the lines made
      from the groups are sorted from top to bottom, and then lines are merged until no two consecutive lines can be. *)
  Definition lines_with_rotation (acw : double) (ws : list nat) (r : Z) (out : list tline) : Prop :=
    exists bs start,
      (forall y, In y bs -> exists w, In w ws /\ w_partOf (h w) = None /\ rotation (pos_of w) = r /\ getRotLowerY (pos_of w) = y) /\
      (forall w, In w ws -> w_partOf (h w) = None -> rotation (pos_of w) = r -> exists y, In y bs /\ deq (getRotLowerY (pos_of w)) y = true) /\
      ForallOrdPairs (fun y y' => deq y y' = false) bs /\
      Forall2 (fun y l => line_of (on_baseline ws r y) l) bs start /\
      (forall l1 a l2 b l3, start = l1 ++ a :: l2 ++ b :: l3 -> line_above r (l_pos b) (l_pos a) = false) /\
      merged_from acw start (map content out) /\
      (forall l1 a b l2, out = l1 ++ a :: b :: l2 -> same_line acw (l_pos a) (l_pos b) = false).
End Spec.

(** The lines of a rotation are numbered consecutively from [n] on, and each refers to its neighbours. *)
Definition numbered (n : Z) (ls : list tline) : Prop :=
  forall i l, nth_error ls i = Some l -> l_rank l = (n + Z.of_nat i)%Z /\
    l_prev l = (match i with O => None | S _ => Some (l_rank l - 1)%Z end) /\
    l_next l = (if S i =? length ls then None else Some (l_rank l + 1)%Z).

(** The groups of lines of a segment, one per rotation in [rs]; [n] is the rank of the first line. *)
Inductive grouped_lines (h : heap) (acw : double) (ws : list nat) : Z -> list Z -> list (list tline) -> Prop :=
| gl_nil n : grouped_lines h acw ws n [] []
| gl_cons n r rs g gs : lines_with_rotation h acw ws r g -> numbered n g ->
    grouped_lines h acw ws (n + Z.of_nat (length g)) rs gs -> grouped_lines h acw ws n (r :: rs) (g :: gs).

(** All coordinates of the words are finite numbers. *)
Definition finite_words (h : heap) (ws : list nat) : Prop := forall w, In w ws ->
  is_fin (leftX (w_pos (h w))) = true /\ is_fin (upperY (w_pos (h w))) = true /\
  is_fin (rightX (w_pos (h w))) = true /\ is_fin (lowerY (w_pos (h w))) = true.

(** Within the words [ws], the stacked math symbols do not overlap: the parts of a symbol are among the words and refer back
    to it, and every part refers to a symbol among the words that is not itself a part. *)
Definition separate_symbols (h : heap) (ws : list nat) : Prop :=
  NoDup ws /\
  (forall w p, In w ws -> w_partOf (h w) = None -> In p (w_parts (h w)) -> In p ws /\ w_partOf (h p) = Some w) /\
  (forall w, In w ws -> NoDup (w_parts (h w))) /\
  (forall p b, In p ws -> w_partOf (h p) = Some b -> In b ws /\ w_partOf (h b) = None /\ In p (w_parts (h b))).

(** All lines of a result of the detection, page by page and segment by segment. *)
Definition page_lines (r : list (list (list tline) * option (double * double * double * double))) : list tline :=
  flat_map (fun s => concat (fst s)) r.

(** What the theorems assume about a word: coordinates as the parser stores them, and font sizes of at least 0.1. *)
Definition regular_word (w : word) : Prop :=
  parsed_coordinates (w_pos w) /\ forall c, In c (w_chars w) -> dle (dec 1 1) (c_fontSize c) = true.
