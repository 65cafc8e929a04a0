(** DiacriticsSpec.v - vocabulary for the statements about diacritical marks (C21). *)
From Coq Require Import ZArith NArith.
From Verif Require Import Base Double DoubleFacts MathUtils Elements Document Diacritics GeometrySpec.

(** The combining marks (first component) and the spacing code points a PDF may use in their place. *)
Definition SPACING_FORMS : list (N * list N) := [
   (768, [96; 715]); (* grave accent *)
   (769, [39; 180; 697; 714; 900]); (* acute accent *)
   (770, [94; 710]); (* circumflex accent *)
   (771, [126; 732]); (* tilde *)
   (772, [175; 713]); (* macron *)
   (776, [168]); (* diaeresis *)
   (778, [176; 730]); (* ring above *)
   (779, [34; 698; 733]); (* double acute accent *)
   (780, [711]); (* caron *)
   (781, [712]); (* vertical line above *)
   (786, [699]); (* turned comma above *)
   (787, [700; 1158; 1370]); (* comma above *)
   (788, [701; 1157; 1369]); (* reversed comma above *)
   (797, [724]); (* up tack below *)
   (798, [725]); (* down tack below *)
   (799, [726]); (* plus sign below *)
   (800, [727]); (* minus sign below *)
   (801, [690]); (* palatalized hook below *)
   (807, [184]); (* cedilla *)
   (809, [716]); (* vertical line below *)
   (811, [695]); (* inverted double arch below *)
   (817, [717]); (* macron below *)
   (818, [95]); (* low line *)
   (857, [8270]) (* asterisk below *)
  ]%N.
Definition spacing_form (u0 u : N) : Prop := exists us, In (u, us) SPACING_FORMS /\ In u0 us.

(** [c] stands for the single code point [u0], and [u], the combining variant of [u0] if the table lists one and [u0]
    otherwise, is in the Unicode blocks "Spacing Modifier Letters" (U+02B0-U+02FF) or "Combining Diacritical Marks"
    (U+0300-U+036F). *)
Definition is_mark (c : character) (u : N) : Prop :=
  exists u0, c_unicodes c = [u0] /\
    (spacing_form u0 u \/ (forall v, ~ spacing_form u0 v) /\ u = u0) /\ (688 <= u <= 879)%N.

(** x-overlap of the characters at indices [i] and [j]: 0 if one of them does not exist. *)
Definition x_overlap (cs : list character) (i j : nat) : double :=
  match nth_error cs i, nth_error cs j with
  | Some a, Some b => computeMaxXOverlapRatio (c_pos a) (c_pos b)
  | _, _ => dzero
  end.
Definition overlap_before (cs : list character) (i : nat) : double := match i with 0 => dzero | S j => x_overlap cs j i end.
Definition overlap_after (cs : list character) (i : nat) : double := x_overlap cs i (S i).

(** The character at [i] is a mark (with code point [u]) that belongs to its neighbour [j]: it overlaps one of its
    neighbours, and [j] is the one it overlaps more (the next one unless the previous one is clearly ahead). *)
Definition attaches (cs : list character) (i : nat) (u : N) (j : nat) : Prop :=
  exists c, nth_error cs i = Some c /\ is_mark c u /\
    (equal (overlap_before cs i) dzero TOL = false \/ equal (overlap_after cs i) dzero TOL = false) /\
    (larger (overlap_before cs i) (overlap_after cs i) TOL = true /\ i = S j \/
     larger (overlap_before cs i) (overlap_after cs i) TOL = false /\ j = S i) /\ j < length cs.

(** Everything but the box and the three mark fields agrees. *)
Definition same_glyph (c c' : character) : Prop :=
  c_uid c' = c_uid c /\ c_id c' = c_id c /\ c_rank c' = c_rank c /\ c_text c' = c_text c /\ c_name c' = c_name c /\
  c_unicodes c' = c_unicodes c /\ c_fontName c' = c_fontName c /\ c_fontSize c' = c_fontSize c /\ c_color c' = c_color c /\
  c_opacity c' = c_opacity c /\ c_base c' = c_base c /\ c_isSub c' = c_isSub c /\ c_isSuper c' = c_isSuper c /\
  rotation (c_pos c') = rotation (c_pos c) /\ wMode (c_pos c') = wMode (c_pos c) /\ pageNum (c_pos c') = pageNum (c_pos c).

(** Two marks are never within distance two of each other. *)
Definition isolated_marks (cs : list character) : Prop :=
  forall i j c d u v, nth_error cs i = Some c -> nth_error cs j = Some d -> is_mark c u -> is_mark d v ->
    i < j -> S (S i) < j.

(** No character takes part in a merge yet (the state after parsing). *)
Definition unmerged (cs : list character) : Prop := forall c, In c cs -> c_markOf c = None /\ c_hasMark c = None.

(** What happens to a mark with base [j], and to the base [b] of the mark [c] at index [i] (code point [u]). *)
Definition becomes_mark (c c' : character) (j : nat) : Prop :=
  same_glyph c c' /\ c_pos c' = c_pos c /\ c_markOf c' = Some j /\ c_hasMark c' = c_hasMark c /\ c_textWithMark c' = c_textWithMark c.
Definition becomes_base (compose : list N -> str) (b b' c : character) (i : nat) (u : N) : Prop :=
  same_glyph b b' /\ c_markOf b' = c_markOf b /\ c_hasMark b' = Some i /\
  c_textWithMark b' = compose (c_unicodes b ++ [u]) /\ c_pos b' = bbox_add (c_pos b) (c_pos c).
