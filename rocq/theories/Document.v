(** Document.v - the document model shared by the module files: src/Types.h:400-1100.
    Objects that the C++ code reaches through pointers are identified by numbers: a line holds the numbers of its
    words and a [heap] maps the numbers to the word objects, so two pointers to one word are one number. Characters
    are stored by value inside words (no later module that is modelled on words changes a character). *)
From Coq Require Import ZArith NArith.
From Verif Require Import Base Double Elements.

(** src/Types.h:406-428 (PdfTextElement), 452-527 (PdfCharacter). [c_uid] is the object's identity; the pointers
    isDiacriticMarkOfBaseChar and isBaseCharOfDiacriticMark are options of identities. *)
Record character := mkChar {
  c_uid : nat; c_id : str; c_rank : Z; c_pos : position; c_text : str; c_name : str; c_unicodes : list N;
  c_fontName : str; c_fontSize : double; c_color : double * double * double; c_opacity : double;
  c_base : double; c_isSub : bool; c_isSuper : bool;
  c_markOf : option nat;      (* isDiacriticMarkOfBaseChar *)
  c_hasMark : option nat;     (* isBaseCharOfDiacriticMark *)
  c_textWithMark : str }.

(** src/Types.h:535-614 (PdfWord). The merged word referred to by isFirst-/isSecondPartOfHyphenatedWord is only
    ever read for its text, which is what is stored here. *)
Record word := mkWord {
  w_id : str; w_rank : Z; w_pos : position; w_text : str; w_fontName : str; w_fontSize : double;
  w_chars : list character;
  w_partOf : option nat;      (* isPartOfStackedMathSymbol *)
  w_parts : list nat;         (* isBaseOfStackedMathSymbol *)
  w_first : option str;       (* isFirstPartOfHyphenatedWord *)
  w_second : option str }.    (* isSecondPartOfHyphenatedWord *)

Definition heap := nat -> word.
Definition upd (h : heap) (i : nat) (w : word) : heap := fun j => if Nat.eqb j i then w else h j.

Definition set_first (w : word) (m : str) : word :=
  mkWord (w_id w) (w_rank w) (w_pos w) (w_text w) (w_fontName w) (w_fontSize w) (w_chars w) (w_partOf w) (w_parts w)
         (Some m) (w_second w).
Definition set_second (w : word) (m : str) : word :=
  mkWord (w_id w) (w_rank w) (w_pos w) (w_text w) (w_fontName w) (w_fontSize w) (w_chars w) (w_partOf w) (w_parts w)
         (w_first w) (Some m).

(** src/Types.h:622-732 (PdfTextLine), restricted to its words: what dehyphenation and serialisation read. *)
Definition line := list nat.

(** src/Types.h:744-805 (PdfTextBlock). [b_role] is the value of the enum SemanticRole (src/Types.h:69-84). *)
Record block := mkBlock {
  b_id : str; b_rank : Z; b_pos : position; b_text : str; b_fontName : str; b_fontSize : double;
  b_role : nat; b_emph : bool; b_lines : list line }.

(** src/Types.h:817-940: the fields of figures and shapes that are serialised. *)
Record elem := mkElem { e_id : str; e_rank : Z; e_pos : position }.

(** src/Types.h:1005-1090 (PdfPage): number, extents, figures, shapes and blocks. *)
Record page := mkPage {
  p_num : Z; p_width : double; p_height : double; p_figures : list elem; p_shapes : list elem; p_blocks : list block }.

(** src/Types.h:138-216 (PdfFontInfo): the fields that are serialised. *)
Record fontInfo := mkFont { f_weight : Z; f_italic : bool; f_type3 : bool }.

(** src/Types.h:1100-1190 (PdfDocument): pages, and fontInfos (an unordered_map, accessed by key only). *)
Record document := mkDoc { d_pages : list page; d_fonts : list (str * fontInfo) }.

(** src/Types.h:87-102, 55-63, 126-130. *)
Definition SEMANTIC_ROLE_NAMES : list str := map S_
  ["paragraph"; "reference"; "marginal"; "footnote"; "heading"; "formula"; "title"; "author-info"; "abstract";
   "date"; "caption"; "table"; "other"; "toc"]%string.
Definition PDF_ELEMENT_TYPE_NAMES : list str := map S_
  ["pages"; "blocks"; "lines"; "words"; "characters"; "figures"; "shapes"]%string.
Definition SERIALIZATION_FORMAT_NAMES : list str := map S_ ["txt"; "txt-extended"; "jsonl"]%string.

(** src/utils/PdfElementsUtils.cpp:243-245, 269-271, 295-297: unchecked [operator[]] on the vector of names. *)
Definition name_of (names : list str) (i : nat) : outcome str :=
  match nth_error names i with Some n => Ok n | None => UB "vector index out of range" end.
Definition getSemanticRoleName : nat -> outcome str := name_of SEMANTIC_ROLE_NAMES.
Definition getPdfElementTypeName : nat -> outcome str := name_of PDF_ELEMENT_TYPE_NAMES.
Definition getSerializationFormatName : nat -> outcome str := name_of SERIALIZATION_FORMAT_NAMES.

(** Control characters used in the output (newline, form feed, ^A). *)
Definition nl : ascii := "010"%char.
Definition ff : ascii := "012"%char.
Definition soh : ascii := "001"%char.
