(** ImagingSpec.v - the imaging model of PDF (ISO 32000-1, 8.3 and 9.4.4) with exact real numbers, and what it means for the
    box of a character to be the one that the model prescribes. *)
From Coq Require Import ZArith NArith Reals.
From Flocq Require Import IEEE754.BinarySingleNaN.
From Verif Require Import Base Double Elements Fonts Parsing.
Local Open Scope R_scope.

Definition point := (R * R)%type.
(** [x y 1] multiplied by the matrix [a b 0; c d 0; e f 1]. *)
Definition through (a b c d e f : R) (p : point) : point := (fst p * a + snd p * c + e, fst p * b + snd p * d + f).
Definition real_matrix (m : matrix) : point -> point :=
  through (B2R (mt0 m)) (B2R (mt1 m)) (B2R (mt2 m)) (B2R (mt3 m)) (B2R (mt4 m)) (B2R (mt5 m)).
(** A point of the text line: through the text matrix, which is moved to the current point, and the current transformation matrix. *)
Definition on_line (s : gstate) (p : point) : point :=
  let t := s_textMat s in
  real_matrix (s_ctm s)
    (through (B2R (mt0 t)) (B2R (mt1 t)) (B2R (mt2 t)) (B2R (mt3 t)) (B2R (s_curX s)) (B2R (s_curY s)) p).
(** A point of glyph space (1 unit = 1 em): scaled by the font size and the horizontal scaling, and raised. *)
Definition on_page (s : gstate) (p : point) : point :=
  on_line s (fst p * (B2R (s_fontSize s) * B2R (s_horiz s)), snd p * B2R (s_fontSize s) + B2R (s_rise s)).
Definition origin (s : gstate) : point := on_page s (0, 0).
(** Where the next character would start if the text was not raised. *)
Definition next_origin (s : gstate) (w : double) : point := on_line s (B2R w * B2R (s_fontSize s) * B2R (s_horiz s), 0).

(** ** The box of a character *)
Record rect := mkRect { rl : R; ru : R; rr : R; rb : R; rbase : R }.
(** From the font: the extent of the font above ([asc]) and below ([desc], negative) the base line, the size of the font, the
    origin and the next origin. [turn] counts quarter turns clockwise. *)
Definition font_rect (vertical : bool) (turn : Z) (o n : point) (size asc desc : R) : rect :=
  let x0 := fst o in let y0 := snd o in let x1 := fst n in let y1 := snd n in
  if vertical then
    match turn with
    | 1%Z => mkRect x0 (y0 - size) (x0 + size) y0 0
    | 2%Z => mkRect x0 y0 (x0 + size) (y0 + size) 0
    | 3%Z => mkRect (x0 - size) y0 x0 (y0 + size) 0
    | _ => mkRect (x0 - size) (y0 - size) x0 y0 0
    end
  else
    match turn with
    | 1%Z => mkRect (x0 + desc) y0 (x0 + asc) y1 x0
    | 2%Z => mkRect x0 (y0 + desc) x1 (y0 + asc) y0
    | 3%Z => mkRect (x0 - asc) y1 (x0 - desc) y0 x0
    | _ => mkRect x0 (y0 - asc) x1 (y0 - desc) y0
    end.
(** From the glyph: two opposite corners of its box, through the font matrix and onto the page. *)
Definition glyph_rect (s : gstate) (fm : point -> point) (b : box) : rect :=
  let '(x0, y0, x1, y1) := b in
  let p := on_page s (fm (IZR x0, IZR y0)) in
  let q := on_page s (fm (IZR x1, IZR y1)) in
  mkRect (Rmin (fst p) (fst q)) (Rmin (snd p) (snd q)) (Rmax (fst p) (fst q)) (Rmax (snd p) (snd q)) (Rmax (snd p) (snd q)).

(** Numbers of moderate size *)
Definition up_to (m : R) (d : double) : Prop := is_fin d = true /\ Rabs (B2R d) <= m.
Definition modest_matrix (a t : R) (m : matrix) : Prop :=
  up_to a (mt0 m) /\ up_to a (mt1 m) /\ up_to a (mt2 m) /\ up_to a (mt3 m) /\ up_to t (mt4 m) /\ up_to t (mt5 m).
Definition modest_text (s : gstate) (w : double) : Prop :=
  up_to 1000 (s_fontSize s) /\ up_to 10 (s_horiz s) /\ up_to 10000 (s_rise s) /\
  up_to 100 (mt0 (s_textMat s)) /\ up_to 100 (mt1 (s_textMat s)) /\ up_to 100 (mt2 (s_textMat s)) /\ up_to 100 (mt3 (s_textMat s)) /\
  up_to 1000000 (s_curX s) /\ up_to 1000000 (s_curY s) /\ modest_matrix 100 1000000 (s_ctm s) /\
  up_to 100 w /\ up_to 1000000 (s_tfs s).
Definition modest_font (i : font) : Prop := up_to 100 (f_ascent i) /\ up_to 100 (f_descent i).
Definition modest_rect (r : rect) : Prop :=
  Rabs (rl r) <= 10000000 /\ Rabs (ru r) <= 10000000 /\ Rabs (rr r) <= 10000000 /\ Rabs (rb r) <= 10000000 /\ Rabs (rbase r) <= 10000000.
Definition modest_box (b : box) : Prop :=
  let '(x0, y0, x1, y1) := b in (Z.abs x0 <= 10000 /\ Z.abs y0 <= 10000 /\ Z.abs x1 <= 10000 /\ Z.abs y1 <= 10000)%Z.
Definition font_space (i : font) (fm : point -> point) : Prop :=
  exists a b c d e f, f_matrix i = [a; b; c; d; e; f] /\ fm = through (B2R a) (B2R b) (B2R c) (B2R d) (B2R e) (B2R f) /\
    up_to (/ 100) a /\ up_to (/ 100) b /\ up_to (/ 100) c /\ up_to (/ 100) d /\ up_to 100 e /\ up_to 100 f.

(** The box and the base line lie within a tenth of the exact ones. *)
Definition tenth_near (d : double) (x : R) : Prop := is_fin d = true /\ Rabs (B2R d - x) <= / 10.
Definition fits (p : position) (base : double) (r : rect) : Prop :=
  tenth_near (leftX p) (rl r) /\ tenth_near (upperY p) (ru r) /\ tenth_near (rightX p) (rr r) /\ tenth_near (lowerY p) (rb r) /\
  tenth_near base (rbase r).
(** The box of the glyph that the font has for the name of the character *)
Definition boxed (i : font) (name : str) (b : box) : Prop :=
  exists l l', f_boxes i = l ++ (name, b) :: l' /\ ~ In name (map fst l).
Definition char_box (s : gstate) (i : font) (wmode : Z) (name : str) (w : double) (p : position) (base : double) : Prop :=
  modest_text s w -> modest_font i ->
  let t := font_rect (negb (wmode =? 0)%Z) (rotation p) (origin s) (next_origin s w) (B2R (s_tfs s))
             (B2R (f_ascent i) * B2R (s_tfs s)) (B2R (f_descent i) * B2R (s_tfs s)) in
  modest_rect t ->
  ((forall b, ~ boxed i name b) -> fits p base t) /\
  (forall b fm, boxed i name b -> modest_box b -> font_space i fm -> modest_rect (glyph_rect s fm b) ->
     let g := glyph_rect s fm b in
     (fits p base t \/ fits p base g) /\
     (* the box of the glyph lies above or below the one of the font *)
     (ru g < ru t - / 5 \/ rb g > rb t + / 5 -> fits p base g) /\
     (ru g >= ru t -> rb g <= rb t -> fits p base t)).

(** The width of the character: from a simple font by its code; from a composite font by the bytes of its code, most
    significant first. *)
Definition bytes_of (code : Z) (n : nat) (bs : list Z) : Prop :=
  length bs = n /\ Forall (fun b => (0 <= b < 256)%Z) bs /\ fold_left (fun v b => (256 * v + b)%Z) bs 0%Z = (code mod 256 ^ Z.of_nat n)%Z.
Definition width_of (f : pfont) (code nBytes : Z) (w : double) : Prop :=
  match pf_kind f with
  | Font8Bit _ width => w = width code
  | FontCID width => ((0 < nBytes)%Z -> exists bs, bytes_of code (Z.to_nat nBytes) bs /\ w = width bs) /\ ((nBytes <= 0)%Z -> w = dzero)
  | FontOther => w = dzero
  end.

(** ** The direction of the text *)
(** The transformation of the font: of a Type-3 font through its font matrix. *)
Definition font_axes (s : gstate) (f : pfont) (m0 m1 m2 m3 : R) : Prop :=
  let '(t0, t1, t2, t3) := s_trans s in
  up_to 10000 t0 /\ up_to 10000 t1 /\ up_to 10000 t2 /\ up_to 10000 t3 /\
  if g_type3 (pf_info f) then
    exists a b c d rest, g_matrix (pf_info f) = a :: b :: c :: d :: rest /\ up_to 1 a /\ up_to 1 b /\ up_to 1 c /\ up_to 1 d /\
      m0 = B2R a * B2R t0 + B2R b * B2R t2 /\ m1 = B2R a * B2R t1 + B2R b * B2R t3 /\
      m2 = B2R c * B2R t0 + B2R d * B2R t2 /\ m3 = B2R c * B2R t1 + B2R d * B2R t3
  else m0 = B2R t0 /\ m1 = B2R t1 /\ m2 = B2R t2 /\ m3 = B2R t3.
(** The text runs in direction (m0, m1), the glyphs stand in direction (m2, m3); y grows downwards. 0: the text runs to the
    right and stands up, 1: it runs downwards and stands to the right, 2: it runs to the left and stands on its head, 3: it runs
    upwards and stands to the left. *)
Definition faces (m0 m1 m2 m3 : R) (turn : Z) : Prop :=
  match turn with
  | 0%Z => m0 > / 100 /\ m3 < - / 100 /\ Rabs (m0 * m3) >= Rabs (m1 * m2) + / 1000
  | 1%Z => m1 > / 100 /\ m2 > / 100 /\ Rabs (m1 * m2) >= Rabs (m0 * m3) + / 1000
  | 2%Z => m0 < - / 100 /\ m3 > / 100 /\ Rabs (m0 * m3) >= Rabs (m1 * m2) + / 1000
  | 3%Z => m1 < - / 100 /\ m2 < - / 100 /\ Rabs (m1 * m2) >= Rabs (m0 * m3) + / 1000
  | _ => False
  end.
Definition turned (s : gstate) (f : pfont) (rot : Z) : Prop :=
  (0 <= rot <= 3)%Z /\
  forall m0 m1 m2 m3 turn, font_axes s f m0 m1 m2 m3 -> faces m0 m1 m2 m3 turn ->
    rot = if (pf_wMode f =? 0)%Z then turn else ((turn + 1) mod 4)%Z.
