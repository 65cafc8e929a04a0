(** Visualization.v - src/PdfDocumentVisualization.cpp: the annotations that are added to the pages of a copy of the PDF.
    Not modelled: how Poppler renders and stores an annotation (AnnotGeometry, AnnotLine, AnnotFreeText, draw, saveAs). *)
From Coq Require Import ZArith NArith.
From Verif Require Import Base Double MathUtils Elements Document Serialization.
Local Open Scope list_scope.

(** src/PdfDocumentVisualization.h:60-116: the color schemes, and the three colors of a scheme. *)
Inductive scheme := Red | Green | Blue | Gray.
Inductive level := Primary | Secondary | Tertiary.
Definition color : Type := scheme * level.
(** Poppler's PDFRectangle: x1, y1, x2, y2; the y-axis of a PDF points upwards. *)
Record rect := mkRect { x1 : double; y1 : double; x2 : double; y2 : double }.
(** The annotations: AnnotGeometry (typeSquare, typeCircle) with its colors, AnnotLine with its vertices, width and color,
    AnnotFreeText with its appearance string, contents and whether it is centered (its border has width 0). *)
Inductive annot :=
| Square (r : rect) (stroke : color) (fill : option color)
| Circle (r : rect) (stroke fill : color)
| Line (r : rect) (vertices : rect) (width : double) (c : color)
| FreeText (r : rect) (appearance : string) (contents : str) (centered : bool).
(** An annotation and the number of the page it was added to. *)
Definition placed : Type := Z * annot.

(** src/Types.h:1178-1238: what is drawn of a cut; [vc_x]: its direction is CutDir::X. *)
Record vcut := mkVCut { vc_id : str; vc_x : bool; vc_page : Z; vc_x1 : double; vc_y1 : double; vc_x2 : double; vc_y2 : double; vc_chosen : bool }.
(** What is drawn of a segment (its lines, its preliminary blocks), of a block and of a page (src/Types.h:744-1090). *)
Record vseg := mkVSeg { vs_pos : position; vs_lines : list position; vs_blocks : list position }.
Record vblock := mkVBlock { vb_pos : position; vb_role : nat }.
Record vpage := mkVPage {
  vp_chars : list position; vp_figures : list position; vp_shapes : list position; vp_graphics : list position; vp_words : list position;
  vp_segments : list vseg; vp_blocks : list vblock; vp_segmentCuts : list vcut; vp_readingOrderCuts : list vcut }.

(** src/Config.h:747-772 *)
Definition ROLE_APPEARANCE : string := "/Helv 7 Tf 0 0 1 rg".
Definition LINE_WIDTH : double := dZ 4.
Definition RADIUS : double := dZ 5.
Definition INDEX_APPEARANCE : string := "/Helv 7 Tf 1 1 1 rg".
Definition CUT_WIDTH : double := dZ 2.
Definition CUT_INDEX_APPEARANCE : string := "/Helv 7 Tf 1 1 1 rg".
Definition CUT_RADIUS : double := dZ 5.
Definition CUT_ID_APPEARANCE : string := "/Helv 6 Tf .7 .7 .7 rg".

Section Visualization.
  (** [media n]: the result of _pdfDoc->getPage(n)->getMediaHeight(); None: there is no page n (a null pointer is used, and _gfxs
      is read out of bounds). [enc]: Poppler's table pdfDocEncoding. *)
  Context (media : Z -> option double) (enc : N -> N).

  Definition get_page (n : Z) : outcome double := match media n with Some h => Ok h | None => UB "no such page" end.

  (** 668-685. The length is an int (the strings are short). *)
  Definition convertToUtf16 (s : str) : str :=
    ascii_of_N 254 :: ascii_of_N 255 ::
    flat_map (fun c => let u := N.land (enc (N_of_ascii c)) 65535 in
                       [ascii_of_N (N.land (N.shiftr u 8) 255); ascii_of_N (N.land u 255)]) s.

  (** Runs a drawing function on all elements of a list. *)
  Fixpoint each {A} (f : A -> outcome (list placed)) (l : list A) : outcome (list placed) :=
    match l with [] => Ok [] | x :: t => do a <- f x; do b <- each f t; Ok (a ++ b) end.

  (** 378-406: drawBoundingBox. [on]: the page whose height and Gfx are used: that of the element itself. *)
  Definition bounding_box (on : Z) (p : position) (c : color) : outcome (list placed) :=
    do h <- get_page on;
    let leftX := leftX p in
    let upperY := dsub h (lowerY p) in
    let rightX := rightX p in
    let lowerY := dsub h (Elements.upperY p) in
    let rightX := if smaller (dabs (dsub leftX rightX)) (dZ 1) TOL then dadd rightX (dZ 1) else rightX in
    let lowerY := if smaller (dabs (dsub upperY lowerY)) (dZ 1) TOL then dadd lowerY (dZ 1) else lowerY in
    Ok [(on, Square (mkRect leftX upperY rightX lowerY) c None)].
  Definition drawBoundingBox (s : scheme) (p : position) : outcome (list placed) := bounding_box (pageNum p) p (s, Primary).

  (** 262-375: draws the segment, then its preliminary blocks, in red, with the page of the segment. *)
  Definition drawPageSegment (s : scheme) (g : vseg) : outcome (list placed) :=
    do a <- drawBoundingBox s (vs_pos g);
    do b <- each (fun p => bounding_box (pageNum (vs_pos g)) p (Red, Primary)) (vs_blocks g);
    Ok (a ++ b).

  (** 409-442 *)
  Definition drawSemanticRole (b : vblock) : outcome (list placed) :=
    do h <- get_page (pageNum (vb_pos b));
    let leftX := leftX (vb_pos b) in
    let lowerY := dsub h (upperY (vb_pos b)) in
    do name <- getSemanticRoleName (vb_role b);
    Ok [(pageNum (vb_pos b), FreeText (mkRect leftX lowerY (dadd leftX (dZ 100)) (dadd lowerY (dZ 7))) ROLE_APPEARANCE (convertToUtf16 name) false)].

  (** 500-544 *)
  Definition drawIndexCircle (on : Z) (s : scheme) (x y : double) (i : nat) : list placed :=
    [(on, Circle (mkRect (dsub x RADIUS) (dsub y RADIUS) (dadd x RADIUS) (dadd y RADIUS)) (s, Primary) (s, Primary));
     (on, FreeText (mkRect (dsub x RADIUS) (dsub y RADIUS) (dadd x RADIUS) (dadd y (dmul RADIUS (dec 6 1)))) INDEX_APPEARANCE
                   (convertToUtf16 (print_Z (Z.of_nat i))) true)].
  (** 456-467: the midpoint of a block, on a page of height h *)
  Definition midpoint (h : double) (p : position) : double * double :=
    let minY := dsub h (lowerY p) in let maxY := dsub h (upperY p) in
    (dadd (leftX p) (ddiv (dsub (rightX p) (leftX p)) (dZ 2)), dadd minY (ddiv (dsub maxY minY) (dZ 2))).
  (** 445-497; [i]: the index of the current block, [prev]: the block before *)
  Fixpoint readingOrder_from (s : scheme) (i : nat) (prev : vblock) (l : list vblock) : outcome (list placed) :=
    match l with
    | [] => Ok []
    | curr :: t =>
        let on := pageNum (vb_pos curr) in
        do h <- get_page on;
        let '(px, py) := midpoint h (vb_pos prev) in
        let '(cx, cy) := midpoint h (vb_pos curr) in
        do rest <- readingOrder_from s (S i) curr t;
        Ok ((on, Line (mkRect px py cx cy) (mkRect px py cx cy) LINE_WIDTH (s, Secondary)) :: drawIndexCircle on s px py i ++
            match t with [] => drawIndexCircle on s cx cy (i + 1) | _ => [] end ++ rest)
    end.
  Definition drawReadingOrder (s : scheme) (l : list vblock) : outcome (list placed) :=
    match l with [] => Ok [] | b :: t => readingOrder_from s 1 b t end.

  (** 547-665; [k]: the number of chosen cuts before *)
  Definition drawCut (s : scheme) (k : nat) (c : vcut) : outcome (list placed) :=
    let cos := if vc_chosen c then s else Gray in
    let on := vc_page c in
    do h <- get_page on;
    let x1 := vc_x1 c in let y1 := dsub h (vc_y1 c) in let x2 := vc_x2 c in let y2 := dsub h (vc_y2 c) in
    let r := CUT_RADIUS in
    let index := if vc_chosen c then
        [(on, Square (mkRect (dsub x1 r) (dsub y1 r) (dadd x1 r) (dadd y1 r)) (cos, Secondary) (Some (cos, Secondary)));
         (on, FreeText (mkRect (dsub x1 r) (dsub y1 r) (dadd x1 r) (dadd y1 (dmul r (dec 6 1)))) CUT_INDEX_APPEARANCE
                       (convertToUtf16 (print_Z (Z.of_nat (S k)))) true)]
      else [] in
    let minX := if vc_x c then dsub x2 (ddiv (dZ 20) (dZ 2)) else dsub x2 (dZ 20) in
    let minY := if vc_x c then dsub y2 (dZ 10) else y2 in
    Ok ((on, Line (mkRect x1 y1 x2 y2) (mkRect x1 y1 x2 y2) CUT_WIDTH (cos, Primary)) :: index ++
        [(on, FreeText (mkRect minX minY (dadd minX (dZ 20)) (dadd minY (dZ 10))) CUT_ID_APPEARANCE (convertToUtf16 (vc_id c)) true)]).
  Fixpoint cuts_from (s : scheme) (k : nat) (l : list vcut) : outcome (list placed) :=
    match l with
    | [] => Ok []
    | c :: t => do a <- drawCut s k c; do b <- cuts_from s (if vc_chosen c then S k else k) t; Ok (a ++ b)
    end.
  Definition drawCuts (s : scheme) (l : list vcut) : outcome (list placed) := cuts_from s 0 l.

  (** 93-245: the visualisations of a document. *)
  Inductive what := Chars | Figures | Shapes | Graphics | WordsW | TextLines | TextBlocks | Segments | ReadingOrderW | SegmentCuts | ReadingOrderCuts.
  Definition visualize (s : scheme) (x : what) (doc : list vpage) : outcome (list placed) :=
    each (fun p =>
      match x with
      | Chars => each (drawBoundingBox s) (vp_chars p)                                             (* 93-98 *)
      | Figures => each (drawBoundingBox s) (vp_figures p)                                         (* 107-112 *)
      | Shapes => each (drawBoundingBox s) (vp_shapes p)                                           (* 121-126 *)
      | Graphics => each (drawBoundingBox s) (vp_graphics p)                                       (* 135-140 *)
      | WordsW => each (drawBoundingBox s) (vp_words p)                                            (* 149-153 *)
      | TextLines => each (fun g => each (drawBoundingBox s) (vs_lines g)) (vp_segments p)         (* 162-169 *)
      | TextBlocks => do a <- each (fun b => drawBoundingBox s (vb_pos b)) (vp_blocks p);          (* 178-184 *)
                      do b <- each drawSemanticRole (vp_blocks p); Ok (a ++ b)
      | Segments => each (drawPageSegment s) (vp_segments p)                                       (* 194-199 *)
      | ReadingOrderW => do a <- each (fun b => drawBoundingBox s (vb_pos b)) (vp_blocks p);       (* 208-215 *)
                        do b <- each drawSemanticRole (vp_blocks p);
                        do c <- drawReadingOrder s (vp_blocks p); Ok (a ++ b ++ c)
      | SegmentCuts => drawCuts s (vp_segmentCuts p)                                               (* 226-231 *)
      | ReadingOrderCuts => drawCuts s (vp_readingOrderCuts p)                                     (* 240-245 *)
      end) doc.

  (** src/pdftotext++.cpp:725-757: the requested visualisations, in this order and with these colors. *)
  Definition ALL_WHAT : list what :=
    [Chars; Figures; Shapes; Graphics; WordsW; TextLines; TextBlocks; Segments; ReadingOrderW; SegmentCuts; ReadingOrderCuts].
  Definition scheme_of (x : what) : scheme := match x with TextBlocks => Red | _ => Blue end.
  Definition visualize_all (requested : what -> bool) (doc : list vpage) : outcome (list placed) :=
    each (fun x => visualize (scheme_of x) x doc) (filter requested ALL_WHAT).
End Visualization.
