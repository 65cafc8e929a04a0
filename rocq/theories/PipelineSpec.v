(** PipelineSpec.v - vocabulary for the statements about the whole program (C52, C72 ff.). *)
From Coq Require Import ZArith NArith.
From Verif Require Import Base Double Elements Sort XYCut Document Pipeline.
From Verif Require Words WordsSpec DiacriticsSpec Parsing Cli.

(** What is assumed about the C++ library: std::sort sorts (if the comparator is an ordering), the priority queue returns a
    largest element, and a hash map is iterated in some order. *)
Definition sane (m : machine) : Prop :=
  sort_ok (m_sortP m) /\ top_ok (m_topP m) /\ sort_ok (m_sortW m) /\ sort_ok (m_sortL m) /\ sort_ok (m_sortR m) /\ top_ok (m_topR m) /\
  (forall x, Permutation x (m_ordS m x)) /\ (forall x, Permutation x (m_ordD m x)) /\ (forall x, Permutation x (m_ordF m x)) /\
  (forall x, Permutation x (m_ordR m x)) /\ (forall x, Permutation x (m_ordY m x)).

(** A character without the marks "subscript" and "superscript". *)
Definition plain (c : character) : character :=
  mkChar (c_uid c) (c_id c) (c_rank c) (c_pos c) (c_text c) (c_name c) (c_unicodes c) (c_fontName c) (c_fontSize c) (c_color c)
    (c_opacity c) (c_base c) false false (c_markOf c) (c_hasMark c) (c_textWithMark c).
(** The word number [i], the characters of the blocks of a page (block by block, line by line, word by word), and the
    characters of the page that were not merged into another character. *)
Definition the_word (d : gdoc) (i : nat) : word := nth i (gd_words d) no_word.
Definition extracted (d : gdoc) (p : gpage) : list character :=
  flat_map (fun b => flat_map (fun l => flat_map (fun i => w_chars (the_word d i)) l) (b_lines b)) (g_blocks p).
Definition visible_chars (p : gpage) : list character := filter (fun c => match c_markOf c with None => true | Some _ => false end) (g_chars p).

(** The pages of the result are those that were parsed, with the same characters (but for the merging of diacritical marks). *)
Definition page_of (q : Parsing.ppage) (p : gpage) : Prop :=
  g_num p = Parsing.pp_num q /\ g_clip p = Parsing.pp_clip q /\ g_figures p = Parsing.pp_figures q /\ g_shapes p = Parsing.pp_shapes q /\
  g_graphics p = Parsing.pp_graphics q /\ Forall2 DiacriticsSpec.same_glyph (Parsing.pp_chars q) (g_chars p).

(** No word belongs to two stacked math symbols, and no word that belongs to one has words that belong to it. *)
Definition stacks_apart (cfg : Words.words_config) (ws : list word) : Prop :=
  (forall i i' j, WordsSpec.belongs cfg ws i j -> WordsSpec.belongs cfg ws i' j -> i = i') /\
  (forall i j k, WordsSpec.belongs cfg ws i j -> ~ WordsSpec.belongs cfg ws j k).
Definition page_words (d : gdoc) (p : gpage) : list word := map (the_word d) (g_words p).

(** The modules that have to run for text to be extracted. *)
Definition text_enabled (c : Cli.config) : Prop :=
  Cli.disabled c Cli.MWords = false /\ Cli.disabled c Cli.MSegmentation = false /\ Cli.disabled c Cli.MLines = false /\
  Cli.disabled c Cli.MBlocks = false.
