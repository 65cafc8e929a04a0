(** Destruction.v - which objects the destructor of a document deletes. *)
From Coq Require Import ZArith NArith.
From Verif Require Import Base Double Elements Document Pipeline.
From Verif Require Parsing Fonts.
Local Open Scope list_scope.

(** The objects that a document refers to. Characters, shapes and graphics are given by the number that parsing gives to each of them
    (src/PdfParsing.cpp: _numElements), words and lines by their number in the document, the others by the page (and their number
    there). *)
Inductive object :=
  | OPage (k : nat) | OChar (rank : Z) | OShape (rank : Z) | OGraphic (rank : Z) | OFigure (k i : nat) | OWord (i : nat)
  | OSegment (k i : nat) | OLine (i : nat) | OBlock (k : nat) (rank : Z) | OFont (id : str).
Definition indexed {A} (l : list A) : list (nat * A) := combine (seq 0 (length l)) l.

(** src/Types.cpp:164-166, 205, 416-431: ~PdfFigure (and the figure itself) *)
Definition delete_figure (k i : nat) (f : Parsing.figure) : list object :=
  map (fun c => OChar (c_rank c)) (Parsing.fg_chars f) ++ map (fun e => OShape (e_rank e)) (Parsing.fg_shapes f) ++
  map (fun e => OGraphic (e_rank e)) (Parsing.fg_graphics f) ++ [OFigure k i].
(** src/Types.cpp:341, 500-505: ~PdfPageSegment (and the segment itself); ~PdfTextLine deletes nothing else *)
Definition delete_segment (k i : nat) (s : seg) : list object := map OLine (sg_lines s) ++ [OSegment k i].
(** src/Types.cpp:257-261, 375, 529-566: ~PdfPage (and the page itself); ~PdfWord and ~PdfTextBlock delete nothing else. Left out: the
    positions (each element has its own, 159-166) and the cuts (557-565). *)
Definition delete_page (k : nat) (p : gpage) : list object :=
  map (fun c => OChar (c_rank c)) (g_chars p) ++
  map OWord (g_words p) ++
  map (fun b => OBlock k (b_rank b)) (g_blocks p) ++
  flat_map (fun '(i, s) => delete_segment k i s) (indexed (g_segs p)) ++
  flat_map (fun '(i, f) => delete_figure k i f) (indexed (g_figures p)) ++
  map (fun e => OShape (e_rank e)) (g_shapes p) ++
  map (fun e => OGraphic (e_rank e)) (g_graphics p) ++ [OPage k].
(** src/Types.cpp:590-599: ~PdfDocument *)
Definition delete_document (d : gdoc) : list object :=
  flat_map (fun '(k, p) => delete_page k p) (indexed (gd_pages d)) ++ map (fun e => OFont (fst e)) (gd_fonts d).
