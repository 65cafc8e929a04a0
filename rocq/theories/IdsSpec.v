(** IdsSpec.v - specification for C83: the same machine with other random strings and other memory contents; a document without
    its identifiers. *)
From Coq Require Import ZArith NArith.
From Verif Require Import Base Double Document Pipeline Program.
From Verif Require Parsing ReadingOrder.

(** The machine [m], except that createRandomString (src/utils/StringUtils.cpp) delivers other strings for the ids of characters,
    shapes and graphics, of words, of figures and of blocks. *)
Definition other_ids (m : machine) (cid : Z -> str) (wid : Z -> Z -> str) (fid : Z -> nat -> str) (bid : Z -> Z -> str) : machine :=
  mkMachine (m_parseFont m) (m_mapUnicode m) (m_fromBytes m) (m_iswspace m) (m_compose m) (m_labelRegex m) (m_absd m)
    cid wid fid bid (m_ordS m) (m_ordD m) (m_ordF m) (m_ordR m) (m_ordY m) (m_sortP m) (m_topP m) (m_sortW m) (m_sortL m)
    (m_sortR m) (m_topR m) (m_bpe m) (m_roles m) (m_fuel m) (m_network m) (m_junk m).
(** The machine [m], except that the memory of new blocks holds other values. *)
Definition other_memory (m : machine) (junk : Z -> Z -> nat) : machine :=
  mkMachine (m_parseFont m) (m_mapUnicode m) (m_fromBytes m) (m_iswspace m) (m_compose m) (m_labelRegex m) (m_absd m)
    (m_charId m) (m_wordId m) (m_figureId m) (m_blockId m) (m_ordS m) (m_ordD m) (m_ordF m) (m_ordR m) (m_ordY m) (m_sortP m) (m_topP m)
    (m_sortW m) (m_sortL m) (m_sortR m) (m_topR m) (m_bpe m) (m_roles m) (m_fuel m) (m_network m) junk.

(** Everything but the ids. *)
Definition anon_char (c : character) : character :=
  mkChar (c_uid c) [] (c_rank c) (c_pos c) (c_text c) (c_name c) (c_unicodes c) (c_fontName c) (c_fontSize c) (c_color c) (c_opacity c)
    (c_base c) (c_isSub c) (c_isSuper c) (c_markOf c) (c_hasMark c) (c_textWithMark c).
Definition anon_elem (e : elem) : elem := mkElem [] (e_rank e) (e_pos e).
Definition anon_word (w : word) : word :=
  mkWord [] (w_rank w) (w_pos w) (w_text w) (w_fontName w) (w_fontSize w) (map anon_char (w_chars w)) (w_partOf w) (w_parts w)
    (w_first w) (w_second w).
Definition anon_block (b : block) : block :=
  mkBlock [] (b_rank b) (b_pos b) (b_text b) (b_fontName b) (b_fontSize b) (b_role b) (b_emph b) (b_lines b).
Definition anon_figure (f : Parsing.figure) : Parsing.figure :=
  Parsing.mkFigure (Parsing.fg_pos f) (Parsing.fg_clip f) (map anon_char (Parsing.fg_chars f)) (map anon_elem (Parsing.fg_shapes f))
    (map anon_elem (Parsing.fg_graphics f)).
Definition anon_page (p : gpage) : gpage :=
  mkGPage (g_num p) (g_clip p) (map anon_char (g_chars p)) (map anon_figure (g_figures p)) (map anon_elem (g_shapes p))
    (map anon_elem (g_graphics p)) (g_words p) (g_segs p) (g_textLines p) (map anon_block (g_blocks p)).
Definition nameless (d : gdoc) : gdoc :=
  mkGDoc (map anon_page (gd_pages d)) (gd_fonts d) (gd_stats d) (map anon_word (gd_words d)) (gd_lines d).

(** The result of a run: a failure, or a status and a document, whose ids are ignored. *)
Definition up_to_ids (o : outcome (Z * gdoc)) : outcome (Z * gdoc) :=
  match o with Ok (status, d) => Ok (status, nameless d) | UB why => UB why | Throw why => Throw why end.

(** std::sort and std::priority_queue see the elements through the comparator only: applying a function to the elements before or
    after sorting them by their images makes no difference. *)
Definition blind_sort {A} (sort : (A -> A -> bool) -> list A -> list A) : Prop :=
  forall (f : A -> A) (lt : A -> A -> bool) l, map f (sort (fun a b => lt (f a) (f b)) l) = sort lt (map f l).
Definition blind_top {A} (top : (A -> A -> bool) -> list A -> nat) : Prop :=
  forall (f : A -> A) (lt : A -> A -> bool) l, top (fun a b => lt (f a) (f b)) l = top lt (map f l).

(** The same world, except for the random strings. *)
Definition world_with (w : world) (m : bool -> machine) : world :=
  mkWorld m (w_words w) (w_open w) (w_logs w) (w_toInt w) (w_sers w) (w_shell w) (w_canOpen w).
