(** VisualizationSpec.v - what the drawings of a visualisation show (C77 to C80). Coordinates of a document are measured from the
    upper left of the page, those of an annotation from the lower left. *)
From Coq Require Import ZArith NArith Reals.
From Flocq Require Import Core BinarySingleNaN.
From Verif Require Import Base Double Elements Document Visualization NumberSpec ImagingSpec.
Local Open Scope R_scope.

(** Up to a millionth of a point. *)
Definition about (d : double) (x : R) : Prop := is_fin d = true /\ Rabs (B2R d - x) <= / 1000000.
(** The box is a box, and its coordinates and the height of the page are not larger than a million points. *)
Definition on_sheet (h : double) (p : position) : Prop :=
  up_to 1000000 h /\ up_to 1000000 (leftX p) /\ up_to 1000000 (upperY p) /\ up_to 1000000 (rightX p) /\ up_to 1000000 (lowerY p) /\
  B2R (leftX p) <= B2R (rightX p) /\ B2R (upperY p) <= B2R (lowerY p).
(** The element is on a page of the PDF, of height [h]. *)
Definition on_page (media : Z -> option double) (p : position) (h : double) : Prop := media (pageNum p) = Some h /\ on_sheet h p.

(** The square around [p]: from its lower left to its upper right corner; a side that is shorter than 1 is extended to at least
    1 (up to the tolerance) and at most by 1. *)
Definition frame (c : color) (h : double) (p : position) (a : annot) : Prop :=
  exists r, a = Square r c None /\ x1 r = leftX p /\ about (y1 r) (B2R h - B2R (lowerY p)) /\
    (1 <= B2R (rightX p) - B2R (leftX p) -> x2 r = rightX p) /\
    (1 <= B2R (lowerY p) - B2R (upperY p) -> about (y2 r) (B2R h - B2R (upperY p))) /\
    (exists e, 0 <= e <= 1 /\ about (x2 r) (B2R (rightX p) + e)) /\ (exists e, 0 <= e <= 1 /\ about (y2 r) (B2R h - B2R (upperY p) + e)) /\
    9998 / 10000 <= B2R (x2 r) - B2R (x1 r) /\ 9998 / 10000 <= B2R (y2 r) - B2R (y1 r).

(** The string [s] is UTF-16 (big endian, with byte order mark) and consists of the ASCII characters [t]. *)
Fixpoint units (s : str) : option (list N) :=
  match s with
  | [] => Some []
  | a :: b :: t => option_map (cons (256 * N_of_ascii a + N_of_ascii b)%N) (units t)
  | [_] => None
  end.
Definition reads (s t : str) : Prop :=
  exists body, s = ascii_of_nat 254 :: ascii_of_nat 255 :: body /\ units body = Some (map N_of_ascii t).
Definition printable (c : ascii) : Prop := (32 <= N_of_ascii c <= 126)%N.
(** PDFDocEncoding maps the printable ASCII characters to themselves. *)
Definition standard_encoding (enc : N -> N) : Prop := forall n, (32 <= n <= 126)%N -> enc n = n.

(** The label of a block: the name of its role, above its upper left corner. *)
Definition role_label (h : double) (b : vblock) (a : annot) : Prop :=
  exists r look s name, a = FreeText r look s false /\ nth_error SEMANTIC_ROLE_NAMES (vb_role b) = Some name /\ reads s name /\
    x1 r = leftX (vb_pos b) /\ about (y1 r) (B2R h - B2R (upperY (vb_pos b))) /\
    about (x2 r) (B2R (leftX (vb_pos b)) + 100) /\ about (y2 r) (B2R h - B2R (upperY (vb_pos b)) + 7).

(** The midpoint of a box. *)
Definition midX (p : position) : R := (B2R (leftX p) + B2R (rightX p)) / 2.
Definition midY (h : double) (p : position) : R := B2R h - (B2R (upperY p) + B2R (lowerY p)) / 2.
(** A line from the midpoint of [p] to the midpoint of [q]. *)
Definition joins (c : color) (h : double) (p q : position) (a : annot) : Prop :=
  exists v w, a = Line v v w c /\ about (x1 v) (midX p) /\ about (y1 v) (midY h p) /\ about (x2 v) (midX q) /\ about (y2 v) (midY h q).
(** A filled circle (of radius 5) around the midpoint of [p], and the number [i] in it. *)
Definition circled (c : color) (h : double) (p : position) (a : annot) : Prop :=
  exists r, a = Circle r c c /\ about (x1 r) (midX p - 5) /\ about (y1 r) (midY h p - 5) /\ about (x2 r) (midX p + 5) /\ about (y2 r) (midY h p + 5).
Definition shows_number (i : nat) (s : str) : Prop := exists t, reads s t /\ NumberSpec.decimal t (IZR (Z.of_nat i)).
Definition index (h : double) (p : position) (i : nat) (a : annot) : Prop :=
  exists r look s, a = FreeText r look s true /\ shows_number i s /\
    about (x1 r) (midX p - 5) /\ about (y1 r) (midY h p - 5) /\ about (x2 r) (midX p + 5) /\ about (y2 r) (midY h p + 3).

(** The annotations of a kind. *)
Definition is_square (a : placed) : bool := match snd a with Square _ _ _ => true | _ => false end.
Definition is_line (a : placed) : bool := match snd a with Line _ _ _ _ => true | _ => false end.
Definition is_circle (a : placed) : bool := match snd a with Circle _ _ _ => true | _ => false end.
Definition is_text (centered : bool) (a : placed) : bool := match snd a with FreeText _ _ _ c => Bool.eqb c centered | _ => false end.

(** The boxes that are drawn, in the order of the document. *)
Definition boxes (x : what) (doc : list vpage) : list position :=
  match x with
  | Chars => flat_map vp_chars doc | Figures => flat_map vp_figures doc | Shapes => flat_map vp_shapes doc
  | Graphics => flat_map vp_graphics doc | WordsW => flat_map vp_words doc
  | TextLines => flat_map vs_lines (flat_map vp_segments doc)
  | TextBlocks | ReadingOrderW => map vb_pos (flat_map vp_blocks doc)
  | Segments => map vs_pos (flat_map vp_segments doc)
  | SegmentCuts | ReadingOrderCuts => []
  end.
Definition simple (x : what) : Prop := In x [Chars; Figures; Shapes; Graphics; WordsW; TextLines].

(** Consecutive elements of a list. *)
Definition pairs {A} (l : list A) : list (A * A) := combine l (tl l).

(** The drawing of a cut: a line at its place (gray if it was not chosen), its id next to its end, and if it was chosen, a square
    with its number among the chosen cuts at its start. *)
Definition cut_line (s : scheme) (h : double) (c : vcut) (a : annot) : Prop :=
  exists v w, a = Line v v w (if vc_chosen c then s else Gray, Primary) /\
    x1 v = vc_x1 c /\ about (y1 v) (B2R h - B2R (vc_y1 c)) /\ x2 v = vc_x2 c /\ about (y2 v) (B2R h - B2R (vc_y2 c)).
Definition cut_square (s : scheme) (h : double) (c : vcut) (a : annot) : Prop :=
  exists r, a = Square r (s, Secondary) (Some (s, Secondary)) /\ about (x1 r) (B2R (vc_x1 c) - 5) /\ about (y1 r) (B2R h - B2R (vc_y1 c) - 5) /\
    about (x2 r) (B2R (vc_x1 c) + 5) /\ about (y2 r) (B2R h - B2R (vc_y1 c) + 5).
Definition cut_number (h : double) (c : vcut) (i : nat) (a : annot) : Prop :=
  exists r look s, a = FreeText r look s true /\ shows_number i s /\ about (x1 r) (B2R (vc_x1 c) - 5) /\ about (y1 r) (B2R h - B2R (vc_y1 c) - 5) /\
    about (x2 r) (B2R (vc_x1 c) + 5) /\ about (y2 r) (B2R h - B2R (vc_y1 c) + 3).
Definition cut_id (h : double) (c : vcut) (a : annot) : Prop :=
  exists r look s, a = FreeText r look s true /\ reads s (vc_id c) /\
    about (x1 r) (B2R (vc_x2 c) - (if vc_x c then 10 else 20)) /\ about (y1 r) (B2R h - B2R (vc_y2 c) - (if vc_x c then 10 else 0)) /\
    about (x2 r) (B2R (vc_x2 c) + (if vc_x c then 10 else 0)) /\ about (y2 r) (B2R h - B2R (vc_y2 c) + (if vc_x c then 0 else 10)).
(** Cut number [i] of the chosen ones (counted from 1), if it is chosen. *)
Definition drawn_cut (media : Z -> option double) (s : scheme) (c : vcut) (i : nat) (l : list placed) : Prop :=
  exists h, media (vc_page c) = Some h /\ Forall (fun a => fst a = vc_page c) l /\
    if vc_chosen c then exists a b n d, map snd l = [a; b; n; d] /\ cut_line s h c a /\ cut_square s h c b /\ cut_number h c i n /\ cut_id h c d
    else exists a d, map snd l = [a; d] /\ cut_line s h c a /\ cut_id h c d.
Definition cut_fine (media : Z -> option double) (c : vcut) : Prop :=
  (exists h, media (vc_page c) = Some h /\ up_to 1000000 h) /\ up_to 1000000 (vc_x1 c) /\ up_to 1000000 (vc_y1 c) /\ up_to 1000000 (vc_x2 c) /\ up_to 1000000 (vc_y2 c) /\
  Forall printable (vc_id c).

(** The blocks of a page are on one page of the PDF, of height [h], and have roles. *)
Definition blocks_fine (media : Z -> option double) (p : vpage) (n : Z) (h : double) : Prop :=
  forall b, In b (vp_blocks p) -> pageNum (vb_pos b) = n /\ on_page media (vb_pos b) h /\ (vb_role b < 14)%nat.
(** The boxes and the roles of the blocks, all of them on page [n]. *)
Definition blocks_drawn (s : scheme) (p : vpage) (n : Z) (h : double) (l : list placed) : Prop :=
  Forall (fun a => fst a = n) l /\
  Forall2 (fun b a => frame (s, Primary) h (vb_pos b) (snd a)) (vp_blocks p) (filter is_square l) /\
  Forall2 (fun b a => role_label h b (snd a)) (vp_blocks p) (filter (is_text false) l).
(** The reading order: a line from each block to the next one, and the blocks numbered from 1 - if there are at least two. *)
Definition order_drawn (s : scheme) (p : vpage) (h : double) (l : list placed) : Prop :=
  let bs := map vb_pos (vp_blocks p) in
  Forall2 (fun pq a => joins (s, Secondary) h (fst pq) (snd pq) (snd a)) (pairs bs) (filter is_line l) /\
  ((2 <= length bs)%nat ->
     Forall2 (fun b a => circled (s, Primary) h b (snd a)) bs (filter is_circle l) /\
     Forall2 (fun ib a => index h (snd ib) (fst ib) (snd a)) (combine (seq 1 (length bs)) bs) (filter (is_text true) l)) /\
  ((length bs < 2)%nat -> filter is_circle l = [] /\ filter (is_text true) l = []).

(** All elements are on pages of the PDF, and all roles exist. *)
Definition drawable (media : Z -> option double) (doc : list vpage) : Prop :=
  let page n := media n <> None in
  forall p, In p doc ->
    (forall q, In q (vp_chars p ++ vp_figures p ++ vp_shapes p ++ vp_graphics p ++ vp_words p) -> page (pageNum q)) /\
    (forall g, In g (vp_segments p) -> page (pageNum (vs_pos g)) /\ forall q, In q (vs_lines g) -> page (pageNum q)) /\
    (forall b, In b (vp_blocks p) -> page (pageNum (vb_pos b)) /\ (vb_role b < 14)%nat) /\
    (forall c, In c (vp_segmentCuts p ++ vp_readingOrderCuts p) -> page (vc_page c)).
