(** JsonSpec.v - the JSON values that the JSONL records are documented to denote (src/serializers/JsonlSerializer.h).
    Numbers are the lexemes printed by [print_Z] / [print_double]; strings are the decoded strings. *)
From Coq Require Import ZArith NArith.
From Verif Require Import Base Double Elements Document Serialization SerializationSpec.

Definition fld (k : string) (v : jval) : str * jval := (S_ k, v).
Definition vint (z : Z) : jval := VNum (print_Z z).
Definition vdbl (d : double) : jval := VNum (print_double d).
Definition origin_field := fld "origin" (VStr (S_ "pdftotext++")).
Definition box_json (q : position) : list (str * jval) :=
  [fld "page" (vint (pageNum q)); fld "minX" (vdbl (leftX q)); fld "minY" (vdbl (upperY q));
   fld "maxX" (vdbl (rightX q)); fld "maxY" (vdbl (lowerY q))].

Definition page_json (p : page) : jval :=
  VObj [fld "type" (VStr (S_ "page")); fld "num" (vint (p_num p)); fld "width" (vdbl (p_width p)); fld "height" (vdbl (p_height p)); origin_field].
Definition elem_json (ty : string) (e : elem) : jval :=
  VObj ([fld "type" (VStr (S_ ty)); fld "rank" (vint (e_rank e)); fld "id" (VStr (e_id e))] ++ box_json (e_pos e) ++ [origin_field]).
Definition char_json (f : fontInfo) (w : word) (b : block) (c : character) : jval :=
  let '(r, g, bl) := c_color c in
  VObj ([fld "type" (VStr (S_ "char")); fld "id" (VStr (c_id c)); fld "rank" (vint (c_rank c))] ++ box_json (c_pos c) ++
    [fld "wMode" (vint (wMode (c_pos c))); fld "rotation" (vint (rotation (c_pos c)));
     fld "font" (VStr (c_fontName c)); fld "fontSize" (vdbl (c_fontSize c));
     fld "weight" (vint (f_weight f)); fld "italic" (VBool (f_italic f)); fld "type-3" (VBool (f_type3 f));
     fld "color" (VArr [vdbl r; vdbl g; vdbl bl]); fld "opacity" (vdbl (c_opacity c));
     fld "text" (VStr (if is_some (c_hasMark c) then c_textWithMark c else c_text c)); fld "word" (VStr (w_id w)); fld "block" (VStr (b_id b)); origin_field]).
Definition word_json (b : block) (w : word) : jval :=
  VObj ([fld "type" (VStr (S_ "word")); fld "id" (VStr (w_id w)); fld "rank" (vint (w_rank w))] ++ box_json (w_pos w) ++
    [fld "font" (VStr (w_fontName w)); fld "fontSize" (vdbl (w_fontSize w)); fld "text" (VStr (w_text w)); fld "block" (VStr (b_id b)); origin_field]).
Definition block_json (b : block) : jval :=
  VObj ([fld "type" (VStr (S_ "block")); fld "id" (VStr (b_id b)); fld "rank" (vint (b_rank b))] ++ box_json (b_pos b) ++
    [fld "font" (VStr (b_fontName b)); fld "fontSize" (vdbl (b_fontSize b)); fld "text" (VStr (b_text b));
     fld "role" (VStr (nth (b_role b) SEMANTIC_ROLE_NAMES [])); origin_field]).

(** A document whose unescaped strings need no escaping and whose numbers are finite. *)
Definition fin_box (q : position) : Prop :=
  is_fin (leftX q) = true /\ is_fin (upperY q) = true /\ is_fin (rightX q) = true /\ is_fin (lowerY q) = true.
Definition clean_char (c : character) : Prop :=
  plain (c_id c) /\ plain (c_fontName c) /\ fin_box (c_pos c) /\ is_fin (c_fontSize c) = true /\ is_fin (c_opacity c) = true /\
  (let '(r, g, b) := c_color c in is_fin r = true /\ is_fin g = true /\ is_fin b = true).
Definition clean_word (w : word) : Prop :=
  plain (w_id w) /\ plain (w_fontName w) /\ fin_box (w_pos w) /\ is_fin (w_fontSize w) = true /\ Forall clean_char (w_chars w).
Definition clean_block (h : heap) (b : block) : Prop :=
  plain (b_id b) /\ plain (b_fontName b) /\ fin_box (b_pos b) /\ is_fin (b_fontSize b) = true /\
  Forall (fun i => clean_word (h i)) (concat (b_lines b)).
Definition clean_elem (e : elem) : Prop := plain (e_id e) /\ fin_box (e_pos e).
Definition clean_page (h : heap) (p : page) : Prop :=
  is_fin (p_width p) = true /\ is_fin (p_height p) = true /\ Forall clean_elem (p_figures p) /\ Forall clean_elem (p_shapes p) /\
  Forall (clean_block h) (p_blocks p).
Definition clean (d : document) (h : heap) : Prop := Forall (clean_page h) (d_pages d).

(** Which records are written for a unit (numbers as in the enum PdfElementType, src/Types.h:44-52). *)
Definition block_words_of (h : heap) (b : block) : list word := map h (concat (b_lines b)).
Definition chars_of (fonts : list (str * fontInfo)) (h : heap) (b : block) : list jval :=
  flat_map (fun w => flat_map (fun c => match c_markOf c, assoc_font (c_fontName c) fonts with
      | None, Some f => [char_json f w b c] | _, _ => [] end) (w_chars w)) (block_words_of h b).
Definition unit_json (d : document) (h : heap) (roles : list nat) (unit : nat) : list jval :=
  let sel := flat_map (selected roles) (d_pages d) in
  match unit with
  | 0 => map page_json (d_pages d)
  | 1 => map block_json sel
  | 3 => flat_map (fun b => map (word_json b) (block_words_of h b)) sel
  | 4 => flat_map (chars_of (d_fonts d) h) sel
  | 5 => map (elem_json "figure") (flat_map p_figures (d_pages d))
  | 6 => map (elem_json "shape") (flat_map p_shapes (d_pages d))
  | _ => []
  end.

(** All fonts of the characters that are written are known. *)
Definition fonts_known (d : document) (h : heap) (roles : list nat) : Prop :=
  forall p b i c, In p (d_pages d) -> In b (selected roles p) -> In i (concat (b_lines b)) -> In c (w_chars (h i)) ->
    c_markOf c = None -> assoc_font (c_fontName c) (d_fonts d) <> None.
