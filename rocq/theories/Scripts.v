(** Scripts.v - src/SubSuperScriptsDetection.cpp: detection of sub- and superscripts. *)
From Coq Require Import ZArith NArith.
From Verif Require Import Base Double MathUtils Elements Document.

(** src/Types.h:665-668: the base bounding box of a line (leftX, upperY, rightX, lowerY) and its initial value. *)
Record bbox := mkBox { bx_left : double; bx_upper : double; bx_right : double; bx_lower : double }.
Definition bbox_default : bbox := mkBox DBL_MAX DBL_MAX DBL_MIN DBL_MIN.
(** What the module reads and writes of a line (src/Types.h:622-732): its baseline, its words and its base bounding box. *)
Record sline := mkSLine { sl_base : double; sl_words : list nat; sl_box : bbox }.

Definition set_super (c : character) : character :=
  mkChar (c_uid c) (c_id c) (c_rank c) (c_pos c) (c_text c) (c_name c) (c_unicodes c) (c_fontName c) (c_fontSize c) (c_color c)
    (c_opacity c) (c_base c) (c_isSub c) true (c_markOf c) (c_hasMark c) (c_textWithMark c).
Definition set_sub (c : character) : character :=
  mkChar (c_uid c) (c_id c) (c_rank c) (c_pos c) (c_text c) (c_name c) (c_unicodes c) (c_fontName c) (c_fontSize c) (c_color c)
    (c_opacity c) (c_base c) true (c_isSuper c) (c_markOf c) (c_hasMark c) (c_textWithMark c).
Definition set_chars (w : word) (cs : list character) : word :=
  mkWord (w_id w) (w_rank w) (w_pos w) (w_text w) (w_fontName w) (w_fontSize w) cs (w_partOf w) (w_parts w) (w_first w) (w_second w).

Section Scripts.
  (** [mf]: doc->mostFreqFontSize. *)
  Context (mf : double).

  (** src/Config.h:472, 479 *)
  Definition baseEqualTolerance : double := dec 1 1.
  Definition fsEqualTolerance : double := dec 9 1.

  (** src/SubSuperScriptsDetection.cpp:93-96 *)
  Definition box_grow (b : bbox) (p : position) : bbox :=
    mkBox (minimum (bx_left b) (leftX p)) (minimum (bx_upper b) (upperY p)) (maximum (bx_right b) (rightX p)) (maximum (bx_lower b) (lowerY p)).
  (** 78-96: one character of a line with the baseline [base] *)
  Definition script_char (base : double) (c : character) (b : bbox) : character * bbox :=
    if smaller (c_fontSize c) mf fsEqualTolerance then
      if smaller (c_base c) base baseEqualTolerance then (set_super c, b)
      else if larger (c_base c) base baseEqualTolerance then (set_sub c, b)
      else (c, box_grow b (c_pos c))
    else (c, box_grow b (c_pos c)).
  (** 65-97 *)
  Fixpoint script_chars (base : double) (cs : list character) (b : bbox) : list character * bbox :=
    match cs with
    | [] => ([], b)
    | c :: t => let '(c', b1) := script_char base c b in let '(t', b2) := script_chars base t b1 in (c' :: t', b2)
    end.
  (** 64-98 *)
  Fixpoint script_words (base : double) (ws : list nat) (h : heap) (b : bbox) : heap * bbox :=
    match ws with
    | [] => (h, b)
    | w :: t => let '(cs, b1) := script_chars base (w_chars (h w)) b in script_words base t (upd h w (set_chars (h w) cs)) b1
    end.
  (** 55-103: all lines of the document in order (the nested loops over pages and segments are flattened). *)
  Fixpoint detectScripts (ls : list sline) (h : heap) : heap * list sline :=
    match ls with
    | [] => (h, [])
    | l :: t =>
        let '(h1, b) := script_words (sl_base l) (sl_words l) h (sl_box l) in
        let '(h2, t') := detectScripts t h1 in
        (h2, mkSLine (sl_base l) (sl_words l) b :: t')
    end.
End Scripts.
