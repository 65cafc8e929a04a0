(** Parsing.v - src/PdfParsing.cpp: the handlers Poppler calls while it interprets the content streams of the pages.
    Poppler is the environment: every event carries what the handlers ask it for ([gstate]). Library functions that depend on
    tables or on the locale are parameters: [mapUnicode] (UnicodeMap::mapUnicode of the text encoding), [from_bytes]
    (wstring_convert::from_bytes; [None]: it throws std::range_error), [iswspace]; [parseFont] is PdfFontInfoParser::parse
    (modelled in Fonts.v); [ids] are the random ids. Logging is left out. *)
From Coq Require Import ZArith NArith.
From Verif Require Import Base Double MathUtils Elements Document Fonts CharMap.
Open Scope Z_scope.

(** src/Config.h:73, 85, 89 *)
Definition coordsEqualTolerance : double := dec 1 1.
Definition coordinatePrecision : Z := 1.
Definition fontSizePrecision : Z := 1.
Definition rnd (d : double) : double := dround d coordinatePrecision.

(** A clip box (GfxState::getClipBBox): clipLeftX, clipUpperY, clipRightX, clipLowerY. *)
Record clip := mkClip { k_left : double; k_upper : double; k_right : double; k_lower : double }.
(** A transformation matrix (double[6]). *)
Record matrix := mkMat { mt0 : double; mt1 : double; mt2 : double; mt3 : double; mt4 : double; mt5 : double }.

(** A font as Poppler delivers it: Gfx8BitFont (with getCharName and getWidth), GfxCIDFont (with getWidth on bytes), or neither. *)
Inductive font_kind :=
| Font8Bit (name : Z -> option str) (width : Z -> double)
| FontCID (width : list Z -> double)
| FontOther.
Record pfont := mkPFont { pf_info : gfx_font; pf_kind : font_kind; pf_wMode : Z }.

(** What the handlers ask of a GfxState: getClipBBox, getCTM, getFont, getFontTransMat, getFontSize, getHorizScaling, getRise,
    getTextMat (its first four entries are read), getCurX, getCurY, getTransformedFontSize, getStrokeOpacity, getStrokeRGB (as
    doubles), getPath (the points of its subpaths, after GfxState::transform). *)
Record gstate := mkGState {
  s_clip : clip; s_ctm : matrix; s_font : option pfont; s_trans : double * double * double * double;
  s_fontSize : double; s_horiz : double; s_rise : double; s_textMat : matrix; s_curX : double; s_curY : double;
  s_tfs : double; s_opacity : double; s_rgb : double * double * double; s_path : list (list (double * double)) }.

Inductive event :=
| StartPage (num : Z) (s : gstate)
| EndPage
| UpdateFont (s : gstate)
| DrawChar (s : gstate) (code : Z) (nBytes : Z) (u : option (list N)) (uLen : Z)
| Stroke (s : gstate)
| Fill (s : gstate)
| DrawImage (s : gstate).     (* drawImageMask, drawImage, drawMaskedImage, drawSoftMaskedImage: 740-763 *)

(** src/Types.h:817-1090: figures and pages, as far as the parser sets them. *)
Record figure := mkFigure {
  fg_pos : position; fg_clip : clip; fg_chars : list character; fg_shapes : list elem; fg_graphics : list elem }.
Record ppage := mkPPage {
  pp_num : Z; pp_clip : clip; pp_chars : list character; pp_shapes : list elem; pp_graphics : list elem; pp_figures : list figure }.

(** The state: doc->pages without the last one, and _page (the last page); doc->fontInfos; _fontInfo; _numElements
    (src/PdfParsing.h:250-275). *)
Record parser := mkParser {
  pr_done : list ppage; pr_page : option ppage; pr_fonts : list (str * font); pr_font : option font; pr_num : Z }.
Definition parser_init : parser := mkParser [] None [] None 0.
Definition pages (p : parser) : list ppage := pr_done p ++ match pr_page p with Some q => [q] | None => [] end.

(** src/PdfParsing.cpp:92-98, 527-530, 605-608, 776-779 *)
Definition round_clip (k : clip) : clip := mkClip (rnd (k_left k)) (rnd (k_upper k)) (rnd (k_right k)) (rnd (k_lower k)).
(** src/PdfParsing.cpp:536-539, 548-551, 677-680, 689-692, 831-834, 843-846 *)
Definition same_clip (k f : clip) : bool :=
  equal (k_left k) (k_left f) coordsEqualTolerance && equal (k_upper k) (k_upper f) coordsEqualTolerance &&
  equal (k_right k) (k_right f) coordsEqualTolerance && equal (k_lower k) (k_lower f) coordsEqualTolerance.

(** An element to store; the code of the three handlers that stores it is the same. *)
Inductive item := IChar (c : character) | IShape (e : elem) | IGraphic (e : elem).
Definition item_pos (i : item) : position := match i with IChar c => c_pos c | IShape e | IGraphic e => e_pos e end.
Definition item_rank (i : item) : Z := match i with IChar c => c_rank c | IShape e | IGraphic e => e_rank e end.
Definition opt_char (i : item) : list character := match i with IChar c => [c] | _ => [] end.
Definition opt_shape (i : item) : list elem := match i with IShape e => [e] | _ => [] end.
Definition opt_graphic (i : item) : list elem := match i with IGraphic e => [e] | _ => [] end.
(** src/PdfParsing.cpp:540, 681, 835 *)
Definition add_page (i : item) (p : ppage) : ppage :=
  mkPPage (pp_num p) (pp_clip p) (pp_chars p ++ opt_char i) (pp_shapes p ++ opt_shape i) (pp_graphics p ++ opt_graphic i) (pp_figures p).
(** src/PdfParsing.cpp:553-557, 694-698, 848-852 *)
Definition add_figure (i : item) (f : figure) : figure :=
  let b := fg_pos f in let e := item_pos i in
  mkFigure
    (mkPos (pageNum b) (minimum (leftX b) (leftX e)) (minimum (upperY b) (upperY e)) (maximum (rightX b) (rightX e))
           (maximum (lowerY b) (lowerY e)) (rotation b) (wMode b))
    (fg_clip f) (fg_chars f ++ opt_char i) (fg_shapes f ++ opt_shape i) (fg_graphics f ++ opt_graphic i).
(** src/PdfParsing.cpp:547-561, 688-702, 842-856 *)
Fixpoint add_figures (k : clip) (i : item) (fs : list figure) : option (list figure) :=
  match fs with
  | [] => None
  | f :: r => if same_clip k (fg_clip f) then Some (add_figure i f :: r)
              else match add_figures k i r with Some r' => Some (f :: r') | None => None end
  end.
(** src/PdfParsing.cpp:564-576, 705-717, 859-871 *)
Definition new_figure (num : Z) (k : clip) (i : item) : figure :=
  let e := item_pos i in
  mkFigure (mkPos num (leftX e) (upperY e) (rightX e) (lowerY e) 0 0) k (opt_char i) (opt_shape i) (opt_graphic i).
Definition set_figures (fs : list figure) (p : ppage) : ppage :=
  mkPPage (pp_num p) (pp_clip p) (pp_chars p) (pp_shapes p) (pp_graphics p) fs.
(** src/PdfParsing.cpp:535-578, 676-719, 830-873 *)
Definition place (k : clip) (i : item) (p : ppage) : ppage :=
  if same_clip k (pp_clip p) then add_page i p
  else match add_figures k i (pp_figures p) with
       | Some fs => set_figures fs p
       | None => set_figures (pp_figures p ++ [new_figure (pp_num p) k i]) p
       end.

(** src/PdfParsing.cpp:889-896 *)
Definition concat_mat (a b : matrix) : matrix :=
  mkMat (dadd (dmul (mt0 a) (mt0 b)) (dmul (mt1 a) (mt2 b)))
        (dadd (dmul (mt0 a) (mt1 b)) (dmul (mt1 a) (mt3 b)))
        (dadd (dmul (mt2 a) (mt0 b)) (dmul (mt3 a) (mt2 b)))
        (dadd (dmul (mt2 a) (mt1 b)) (dmul (mt3 a) (mt3 b)))
        (dadd (dadd (dmul (mt4 a) (mt0 b)) (dmul (mt5 a) (mt2 b))) (mt4 b))
        (dadd (dadd (dmul (mt4 a) (mt1 b)) (dmul (mt5 a) (mt3 b))) (mt5 b)).

(** src/PdfParsing.cpp:256-266: the four numbers, for a Type-3 font multiplied by the font matrix. *)
Definition at_ (l : list double) (i : nat) : double := nth i l dzero.
Definition font_trans (s : gstate) : double * double * double * double :=
  let '(m0, m1, m2, m3) := s_trans s in
  match s_font s with
  | Some f =>
      if g_type3 (pf_info f) then
        let fm := g_matrix (pf_info f) in
        (dadd (dmul (at_ fm 0) m0) (dmul (at_ fm 1) m2), dadd (dmul (at_ fm 0) m1) (dmul (at_ fm 1) m3),
         dadd (dmul (at_ fm 2) m0) (dmul (at_ fm 3) m2), dadd (dmul (at_ fm 2) m1) (dmul (at_ fm 3) m3))
      else (m0, m1, m2, m3)
  | None => (m0, m1, m2, m3)
  end.
(** src/PdfParsing.cpp:267-271 *)
Definition matrix_rotation (m : double * double * double * double) : Z :=
  let '(m0, m1, m2, m3) := m in
  if larger (dabs (dmul m0 m3)) (dabs (dmul m1 m2)) TOL
  then if larger m0 dzero TOL || smaller m3 dzero TOL then 0 else 2
  else if larger m2 dzero TOL then 1 else 3.
(** src/PdfParsing.cpp:272-275 *)
Definition char_rotation (s : gstate) : Z :=
  let r := matrix_rotation (font_trans s) in
  match s_font s with
  | Some f => if pf_wMode f =? 0 then r else Z.land (r + 1) 3
  | None => r
  end.

(** src/PdfParsing.cpp:312-323: the text rendering matrix *)
Definition text_matrix (s : gstate) : matrix :=
  let t := s_textMat s in mkMat (mt0 t) (mt1 t) (mt2 t) (mt3 t) (s_curX s) (s_curY s).
Definition rendering_matrix (s : gstate) : matrix :=
  concat_mat (concat_mat (mkMat (dmul (s_fontSize s) (s_horiz s)) dzero dzero (s_fontSize s) dzero (s_rise s)) (text_matrix s)) (s_ctm s).
(** src/PdfParsing.cpp:333-336: the bytes of the character code (an unsigned int; shifting it by 32 or more is undefined). *)
Definition code_bytes (code nBytes : Z) : outcome (list Z) :=
  if 4 <? nBytes then UB "shift count >= width of type"
  else Ok (map (fun k => Z.land (Z.shiftr code (8 * (nBytes - Z.of_nat k - 1))) 255) (seq 0 (Z.to_nat nBytes))).
(** src/PdfParsing.cpp:326-340 *)
Definition char_width (f : option pfont) (code nBytes : Z) : outcome double :=
  match f with
  | Some f =>
      match pf_kind f with
      | Font8Bit _ width => Ok (width code)
      | FontCID width => if 0 <? nBytes then do bs <- code_bytes code nBytes; Ok (width bs) else Ok dzero
      | FontOther => Ok dzero
      end
  | None => Ok dzero
  end.
(** src/PdfParsing.cpp:342-346: the matrix of the next character *)
Definition next_matrix (s : gstate) (width : double) : matrix :=
  concat_mat (concat_mat (mkMat done dzero dzero done (dmul (dmul width (s_fontSize s)) (s_horiz s)) dzero) (text_matrix s)) (s_ctm s).

(** A bounding box and the base line: posLeftX, posUpperY, posRightX, posLowerY, base. *)
Record cbox := mkCBox { cb_left : double; cb_upper : double; cb_right : double; cb_lower : double; cb_base : double }.
(** src/PdfParsing.cpp:360-421 *)
Definition text_box (wmode rot : Z) (x0 y0 x1 y1 tfs ascent descent : double) : cbox :=
  if negb (wmode =? 0) then
    match rot with
    | 1 => mkCBox x0 (dsub y0 tfs) (dadd x0 tfs) y0 dzero
    | 2 => mkCBox x0 y0 (dadd x0 tfs) (dadd y0 tfs) dzero
    | 3 => mkCBox (dsub x0 tfs) y0 x0 (dadd y0 tfs) dzero
    | _ => mkCBox (dsub x0 tfs) (dsub y0 tfs) x0 y0 dzero
    end
  else
    match rot with
    | 0 => mkCBox x0 (dsub y0 ascent) (dadd x0 (dsub x1 x0)) (dsub y0 descent) y0
    | 1 => mkCBox (dadd x0 descent) y0 (dadd x0 ascent) (dadd y0 (dsub y1 y0)) x0
    | 2 => mkCBox x0 (dadd y0 descent) (dadd x0 (dsub x1 x0)) (dadd y0 ascent) y0
    | 3 => mkCBox (dsub x0 ascent) (dadd y0 (dsub y1 y0)) (dsub x0 descent) y0 x0
    | _ => mkCBox (dsub x0 tfs) (dsub y0 tfs) x0 y0 dzero
    end.
(** src/PdfParsing.cpp:425-441: the box of the glyph through the font matrix and the text rendering matrix *)
Definition glyph_box (b : box) (fm : list double) (trm : matrix) : cbox :=
  let '(l, u, r, d) := b in
  let l := dZ l in let u := dZ u in let r := dZ r in let d := dZ d in
  let l2 := dadd (dadd (dmul l (at_ fm 0)) (dmul u (at_ fm 2))) (at_ fm 4) in
  let u2 := dadd (dadd (dmul l (at_ fm 1)) (dmul u (at_ fm 3))) (at_ fm 5) in
  let r2 := dadd (dadd (dmul r (at_ fm 0)) (dmul d (at_ fm 2))) (at_ fm 4) in
  let d2 := dadd (dadd (dmul r (at_ fm 1)) (dmul d (at_ fm 3))) (at_ fm 5) in
  let l3 := dadd (dadd (dmul l2 (mt0 trm)) (dmul u2 (mt2 trm))) (mt4 trm) in
  let u3 := dadd (dadd (dmul l2 (mt1 trm)) (dmul u2 (mt3 trm))) (mt5 trm) in
  let r3 := dadd (dadd (dmul r2 (mt0 trm)) (dmul d2 (mt2 trm))) (mt4 trm) in
  let d3 := dadd (dadd (dmul r2 (mt1 trm)) (dmul d2 (mt3 trm))) (mt5 trm) in
  mkCBox (minimum l3 r3) (minimum u3 d3) (maximum l3 r3) (maximum u3 d3) (maximum u3 d3).
(** src/PdfParsing.cpp:424-456 *)
Definition choose_box (b : cbox) (g : option cbox) : cbox :=
  match g with
  | Some g => if smaller (cb_upper g) (cb_upper b) coordsEqualTolerance || larger (cb_lower g) (cb_lower b) coordsEqualTolerance
              then g else b
  | None => b
  end.
(** unordered_map::count / operator[] on a present key *)
Definition find_box (name : str) (l : list (str * box)) : option box :=
  option_map snd (find (fun e => str_eqb (fst e) name) l).

Section Parsing.
  Context (parseFont : gfx_font -> outcome font) (mapUnicode : option (N -> str)) (from_bytes : str -> option (list N))
          (iswspace : N -> bool) (ids : Z -> str).

  (** src/PdfParsing.cpp:190-197 *)
  Definition char_name (f : option pfont) (code : Z) : str :=
    match f with
    | Some f => match pf_kind f with
                | Font8Bit name _ => match name code with Some n => n | None => [] end
                | _ => []
                end
    | None => []
    end.
  (** src/PdfParsing.cpp:205-226 *)
  Definition char_text (name : str) (u : option (list N)) (uLen : Z) : outcome (str * list N) :=
    match (if uLen =? 1 then find_name name else None) with
    | Some (code, text) => Ok (text, [code])
    | None =>
        match u with
        | None => Ok ([], [])
        | Some l =>
            if Z.of_nat (length l) <? uLen then UB "read beyond the end of u"
            else let l := firstn (Z.to_nat uLen) l in
                 Ok (match mapUnicode with Some m => concat (map m l) | None => [] end, l)
        end
    end.
  (** src/PdfParsing.cpp:233-240 *)
  Definition is_blank (text : str) : outcome bool :=
    match from_bytes text with
    | None => Throw "range_error"
    | Some w => Ok (negb (Nat.eqb (length w) 0) && forallb (fun c => iswspace c || (c =? 160)%N) w)
    end.

  (** src/PdfParsing.cpp:85-112 *)
  Definition start_page (num : Z) (s : gstate) (p : parser) : parser :=
    mkParser (pages p) (Some (mkPPage num (round_clip (s_clip s)) [] [] [] [])) (pr_fonts p) (pr_font p) (pr_num p).

  (** src/PdfParsing.cpp:135-142 *)
  Definition font_key (f : pfont) : str := match g_name (pf_info f) with Some n => n | None => g_address (pf_info f) end.
  Definition find_font (name : str) (l : list (str * font)) : option font :=
    option_map snd (find (fun e => str_eqb (fst e) name) l).
  (** src/PdfParsing.cpp:120-163 *)
  Definition update_font (s : gstate) (p : parser) : outcome parser :=
    match s_font s with
    | None => Ok (mkParser (pr_done p) (pr_page p) (pr_fonts p) None (pr_num p))
    | Some f =>
        match find_font (font_key f) (pr_fonts p) with
        | Some i => Ok (mkParser (pr_done p) (pr_page p) (pr_fonts p) (Some i) (pr_num p))
        | None => do i <- parseFont (pf_info f);
                  Ok (mkParser (pr_done p) (pr_page p) (pr_fonts p ++ [(font_key f, i)]) (Some i) (pr_num p))
        end
    end.

  (** [_numElements++] (an int), and storing the element in the current page *)
  Definition store (k : clip) (mk : Z -> Z -> item) (p : parser) : outcome parser :=
    match pr_page p with
    | None => UB "_page is not initialised"
    | Some q =>
        if pr_num p =? 2 ^ 31 - 1 then UB "signed integer overflow"
        else Ok (mkParser (pr_done p) (Some (place k (mk (pp_num q) (pr_num p)) q)) (pr_fonts p) (pr_font p) (pr_num p + 1))
    end.

  (** src/PdfParsing.cpp:166-591. [i]: _fontInfo. *)
  Definition char_position (s : gstate) (i : font) (pf : pfont) (name : str) (width : double) (num : Z) : position * double :=
    let trm := rendering_matrix s in
    let next := next_matrix s width in
    let tfs := s_tfs s in
    let b := text_box (pf_wMode pf) (char_rotation s) (mt4 trm) (mt5 trm) (mt4 next) (mt5 next) tfs
               (dmul (f_ascent i) tfs) (dmul (f_descent i) tfs) in
    let b := choose_box b (option_map (fun g => glyph_box g (f_matrix i) trm) (find_box name (f_boxes i))) in
    (mkPos num (rnd (cb_left b)) (rnd (cb_upper b)) (rnd (cb_right b)) (rnd (cb_lower b)) (char_rotation s) (pf_wMode pf),
     rnd (cb_base b)).
  Definition draw_char (s : gstate) (code nBytes : Z) (u : option (list N)) (uLen : Z) (p : parser) : outcome parser :=
    match pr_font p with
    | None => Ok p
    | Some i =>
        let name := char_name (s_font s) code in
        do '(text, us) <- char_text name u uLen;
        do blank <- is_blank text;
        if blank then Ok p else
        match s_font s with
        | None => UB "gfxFont is a null pointer"
        | Some pf =>
            do width <- char_width (s_font s) code nBytes;
            store (round_clip (s_clip s))
              (fun num rank =>
                 let '(pos, base) := char_position s i pf name width num in
                 IChar (mkChar (Z.to_nat rank) (ids rank) rank pos text name us (f_name i) (dround (s_tfs s) fontSizePrecision)
                          (s_rgb s) (s_opacity s) base false false None None [])) p
        end
    end.

  (** src/PdfParsing.cpp:632-637: the point lies outside the clip box *)
  Definition outside (k : clip) (l u r d : double) : bool :=
    equalOrSmaller l (k_left k) coordsEqualTolerance || equalOrSmaller u (k_upper k) coordsEqualTolerance ||
    equalOrLarger r (k_right k) coordsEqualTolerance || equalOrLarger d (k_lower k) coordsEqualTolerance.
  (** src/PdfParsing.cpp:622-645 *)
  Definition see_point (k : clip) (b : double * double * double * double) (pt : double * double) : double * double * double * double :=
    let '(l, u, r, d) := b in
    let x := rnd (fst pt) in let y := rnd (snd pt) in
    if outside k x y x y then b
    else (maximum (minimum l x) (k_left k), maximum (minimum u y) (k_upper k),
          minimum (maximum r x) (k_right k), minimum (maximum d y) (k_lower k)).
  (** src/PdfParsing.cpp:594-658, 735-737 *)
  Definition stroke (s : gstate) (p : parser) : outcome parser :=
    let k := round_clip (s_clip s) in
    let '(l, u, r, d) := fold_left (see_point k) (concat (s_path s)) (DBL_MAX, DBL_MAX, DBL_MIN, DBL_MIN) in
    store k (fun num rank => IShape (mkElem (ids rank) rank (mkPos num (rnd l) (rnd u) (rnd r) (rnd d) 0 0))) p.

  (** src/PdfParsing.cpp:766-811 *)
  Definition draw_graphic (s : gstate) (p : parser) : outcome parser :=
    let k := round_clip (s_clip s) in
    let l := rnd (mt4 (s_ctm s)) in
    let u := rnd (mt5 (s_ctm s)) in
    let r := rnd (dadd l (mt0 (s_ctm s))) in
    let d := rnd (dadd u (mt3 (s_ctm s))) in
    if outside k l u r d then Ok p
    else store k (fun num rank => IGraphic (mkElem (ids rank) rank
           (mkPos num (maximum (minimum l r) (k_left k)) (maximum (minimum u d) (k_upper k))
                      (minimum (maximum l r) (k_right k)) (minimum (maximum u d) (k_lower k)) 0 0))) p.

  Definition handle (p : parser) (e : event) : outcome parser :=
    match e with
    | StartPage num s => Ok (start_page num s p)
    | EndPage => Ok p
    | UpdateFont s => update_font s p
    | DrawChar s code nBytes u uLen => draw_char s code nBytes u uLen p
    | Stroke s | Fill s => stroke s p
    | DrawImage s => draw_graphic s p
    end.
  Fixpoint handle_all (es : list event) (p : parser) : outcome parser :=
    match es with [] => Ok p | e :: r => do p' <- handle p e; handle_all r p' end.
  (** The whole parse (src/PdfToTextPlusPlus.cpp:94-105). *)
  Definition parse_events (es : list event) : outcome parser := handle_all es parser_init.
End Parsing.
