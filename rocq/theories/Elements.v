(** Elements.v - positions and geometry: src/Types.h (PdfPosition), src/Types.cpp,
    src/utils/PdfElementsUtils.cpp, src/utils/Comparators.h. *)
From Coq Require Import ZArith.
From Verif Require Import Base Double MathUtils.

(** src/Types.h:224-246 PdfPosition. [pageNum] is declared double but only ever holds ints. *)
Record position := mkPos {
  pageNum : Z; leftX : double; upperY : double; rightX : double; lowerY : double;
  rotation : Z; wMode : Z }.

(** Default member initialisers, src/Types.h:233-246. *)
Definition pos_default : position :=
  mkPos (-1) DBL_MAX DBL_MAX DBL_MIN DBL_MIN 0 0.

(** src/Types.cpp:35-37 *)
Definition getWidth (p : position) : double := dsub (rightX p) (leftX p).
(** src/Types.cpp:40-42 *)
Definition getHeight (p : position) : double := dsub (lowerY p) (upperY p).
(** src/Types.cpp:45-57 *)
Definition getRotLeftX (p : position) : double :=
  match rotation p with 1 => upperY p | 2 => rightX p | 3 => lowerY p | _ => leftX p end%Z.
(** src/Types.cpp:60-72 *)
Definition getRotUpperY (p : position) : double :=
  match rotation p with 1 => rightX p | 2 => lowerY p | 3 => leftX p | _ => upperY p end%Z.
(** src/Types.cpp:75-87 *)
Definition getRotRightX (p : position) : double :=
  match rotation p with 1 => lowerY p | 2 => leftX p | 3 => upperY p | _ => rightX p end%Z.
(** src/Types.cpp:90-102 *)
Definition getRotLowerY (p : position) : double :=
  match rotation p with 1 => leftX p | 2 => upperY p | 3 => rightX p | _ => lowerY p end%Z.
(** src/Types.cpp:105-115 *)
Definition getRotWidth (p : position) : double :=
  match rotation p with
  | 2 | 3 => dsub (getRotLeftX p) (getRotRightX p)
  | _ => dsub (getRotRightX p) (getRotLeftX p)
  end%Z.
(** src/Types.cpp:118-128 *)
Definition getRotHeight (p : position) : double :=
  match rotation p with
  | 1 | 2 => dsub (getRotUpperY p) (getRotLowerY p)
  | _ => dsub (getRotLowerY p) (getRotUpperY p)
  end%Z.

(** src/utils/PdfElementsUtils.cpp:38-63 *)
Definition computeHorizontalGap (e1 e2 : position) : double :=
  let '(lft, rgt) := if smaller (leftX e1) (leftX e2) TOL then (e1, e2) else (e2, e1) in
  match rotation lft with
  | 2 | 3 => dsub (rightX lft) (leftX rgt)
  | _ => dsub (leftX rgt) (rightX lft)
  end%Z.
(** src/utils/PdfElementsUtils.cpp:66-91 *)
Definition computeVerticalGap (e1 e2 : position) : double :=
  let '(upper, lower) := if smaller (upperY e1) (upperY e2) TOL then (e1, e2) else (e2, e1) in
  match rotation upper with
  | 2 | 3 => dsub (lowerY upper) (upperY lower)
  | _ => dsub (upperY lower) (lowerY upper)
  end%Z.

(** src/utils/PdfElementsUtils.cpp:94-115 *)
Definition computeOverlapRatios (s1 e1 s2 e2 : double) : double * double :=
  let min1 := minimum s1 e1 in
  let max1 := maximum s1 e1 in
  let length1 := dsub max1 min1 in
  let min2 := minimum s2 e2 in
  let max2 := maximum s2 e2 in
  let length2 := dsub max2 min2 in
  let minMax := minimum max1 max2 in
  let maxMin := maximum min1 min2 in
  let overlapLength := maximum dzero (dsub minMax maxMin) in
  let ratio1 := if dgt length1 dzero then ddiv overlapLength length1 else dzero in
  let ratio2 := if dgt length2 dzero then ddiv overlapLength length2 else dzero in
  (ratio1, ratio2).
(** src/utils/PdfElementsUtils.cpp:118-127 *)
Definition computeXOverlapRatios (p q : position) : double * double :=
  computeOverlapRatios (leftX p) (rightX p) (leftX q) (rightX q).
(** src/utils/PdfElementsUtils.cpp:130-139 *)
Definition computeYOverlapRatios (p q : position) : double * double :=
  computeOverlapRatios (upperY p) (lowerY p) (upperY q) (lowerY q).
(** src/utils/PdfElementsUtils.cpp:142-145 *)
Definition computeMaxXOverlapRatio (p q : position) : double :=
  let r := computeXOverlapRatios p q in maximum (fst r) (snd r).
(** src/utils/PdfElementsUtils.cpp:148-151 *)
Definition computeMaxYOverlapRatio (p q : position) : double :=
  let r := computeYOverlapRatios p q in maximum (fst r) (snd r).
(** src/utils/PdfElementsUtils.cpp:154-183 *)
Definition computeHasEqualLeftX (p q : position) (t : double) : bool := equal (leftX p) (leftX q) t.
Definition computeHasEqualUpperY (p q : position) (t : double) : bool := equal (upperY p) (upperY q) t.
Definition computeHasEqualRightX (p q : position) (t : double) : bool := equal (rightX p) (rightX q) t.
Definition computeHasEqualLowerY (p q : position) (t : double) : bool := equal (lowerY p) (lowerY q) t.
(** src/utils/PdfElementsUtils.cpp:186-199 *)
Definition computeLeftXOffset (p q : position) : double := dsub (leftX p) (leftX q).
Definition computeRightXOffset (p q : position) : double := dsub (rightX p) (rightX q).

(** src/utils/Comparators.h:28-128 (the [assert]s on null pointers are not modelled). *)
Definition LeftXAsc (p q : position) : bool := smaller (leftX p) (leftX q) TOL.
Definition RightXDesc (p q : position) : bool := larger (rightX p) (rightX q) TOL.
Definition UpperYAsc (p q : position) : bool := smaller (upperY p) (upperY q) TOL.
Definition RotLeftXAsc (p q : position) : bool := smaller (getRotLeftX p) (getRotLeftX q) TOL.
Definition RotLeftXDesc (p q : position) : bool := larger (getRotLeftX p) (getRotLeftX q) TOL.
Definition RotLowerYAsc (p q : position) : bool := smaller (getRotLowerY p) (getRotLowerY q) TOL.
Definition RotLowerYDesc (p q : position) : bool := larger (getRotLowerY p) (getRotLowerY q) TOL.

(** One step of the running bounding box of a word (src/utils/WordsDetectionUtils.cpp:61-64), a page
    segment (src/utils/PageSegmentationUtils.cpp:51-54) and a figure (src/PdfParsing.cpp:553-556). *)
Definition bbox_add (box e : position) : position :=
  mkPos (pageNum box) (minimum (leftX box) (leftX e)) (minimum (upperY box) (upperY e))
        (maximum (rightX box) (rightX e)) (maximum (lowerY box) (lowerY e)) (rotation box) (wMode box).
(** One step of the running bounding box of a text line (src/TextLinesDetection.cpp:420-428) and a
    text block (src/utils/TextBlocksDetectionUtils.cpp:710-719). (The former computes min/max of the
    y-coordinates with the arguments swapped, which matters only for NaN and the sign of a zero.) *)
Definition bbox_add_norm (box e : position) : position :=
  mkPos (pageNum box) (minimum (leftX box) (minimum (leftX e) (rightX e)))
        (minimum (upperY box) (minimum (upperY e) (lowerY e)))
        (maximum (rightX box) (maximum (leftX e) (rightX e)))
        (maximum (lowerY box) (maximum (upperY e) (lowerY e))) (rotation box) (wMode box).
(** Bounding box of a word/segment/figure resp. a line/block: the steps folded over the members,
    starting from the default position (src/Types.h:233-246). *)
Definition bbox (l : list position) : position := fold_left bbox_add l pos_default.
Definition bbox_norm (l : list position) : position := fold_left bbox_add_norm l pos_default.
