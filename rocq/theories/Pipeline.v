(** Pipeline.v - src/PdfToTextPlusPlus.cpp:72-267: the modules, put together. The state is the document; the modules are those
    of the other files, and [Cli.process] runs them. Conventions: words and lines are stored once in the document and referred
    to by their numbers (words: in the order of the pages; lines: in the order of the pages and segments). *)
From Coq Require Import ZArith NArith.
From Verif Require Import Base Double Elements Document.
From Verif Require Sort Counter XYCut Fonts Parsing Statistics Diacritics Words PageSegmentation Lines Scripts Blocks Bpe Roles
  ReadingOrder Dehyphenation Cli.

(** What the program runs on: the results of Poppler, the library functions that are not modelled, implementations of std::sort
    and of the priority queue, the iteration orders of the hash maps, random strings, the files and the network of the
    prediction of the roles. See the files of the modules. *)
Record machine := mkMachine {
  m_parseFont : Fonts.gfx_font -> outcome Fonts.font; m_mapUnicode : option (N -> str); m_fromBytes : str -> option (list N);
  m_iswspace : N -> bool; m_compose : list N -> str; m_labelRegex : str -> bool; m_absd : double -> double;
  m_charId : Z -> str; m_wordId : Z -> Z -> str; m_figureId : Z -> nat -> str; m_blockId : Z -> Z -> str;
  m_ordS : list (str * N) -> list (str * N); m_ordD : list (double * N) -> list (double * N);
  m_ordF : list (double * list (double * N)) -> list (double * list (double * N));
  m_ordR : list (Z * list (double * list nat)) -> list (Z * list (double * list nat));
  m_ordY : list (double * list nat) -> list (double * list nat);
  m_sortP : (PageSegmentation.pelem -> PageSegmentation.pelem -> bool) -> list PageSegmentation.pelem -> list PageSegmentation.pelem;
  m_topP : (PageSegmentation.pelem -> PageSegmentation.pelem -> bool) -> list PageSegmentation.pelem -> nat;
  m_sortW : (nat -> nat -> bool) -> list nat -> list nat;
  m_sortL : (Lines.tline -> Lines.tline -> bool) -> list Lines.tline -> list Lines.tline;
  m_sortR : (ReadingOrder.relem -> ReadingOrder.relem -> bool) -> list ReadingOrder.relem -> list ReadingOrder.relem;
  m_topR : (ReadingOrder.relem -> ReadingOrder.relem -> bool) -> list ReadingOrder.relem -> nat;
  m_bpe : Roles.file; m_roles : Roles.file; m_fuel : nat;
  m_network : list Float.float * (Z * Z) -> list Z * (Z * Z) -> list Float.float * nat;
  m_junk : Z -> Z -> nat  (* the uninitialised role of a new block, src/Types.h:744-805 *) }.

(** src/Types.h:956-1000: a segment: box, trim box, the words among its elements, its lines *)
Record seg := mkSegm { sg_pos : position; sg_trim : double * double * double * double; sg_words : list nat; sg_lines : list nat }.
(** src/Types.h:1005-1090. A text line of [g_textLines] is given by its words. *)
Record gpage := mkGPage {
  g_num : Z; g_clip : Parsing.clip; g_chars : list character; g_figures : list Parsing.figure; g_shapes : list elem;
  g_graphics : list elem; g_words : list nat; g_segs : list seg; g_textLines : list line; g_blocks : list block }.
(** src/Types.h:622-732: a line with the fields that the modules behind the detection of lines use *)
Record gline := mkGLine {
  gl_line : Lines.tline; gl_seg : nat; gl_parent : option nat; gl_prevSib : option nat; gl_nextSib : option nat;
  gl_box : Scripts.bbox; gl_left : double; gl_right : double }.
(** src/Types.h:1100-1190 *)
Record gdoc := mkGDoc {
  gd_pages : list gpage; gd_fonts : list (str * Fonts.font); gd_stats : Statistics.dstats;
  gd_words : list word; gd_lines : list gline }.
Definition gdoc_init : gdoc := mkGDoc [] [] Statistics.stats_init [] [].

(** The word and the line with a number; the defaults are never used. *)
Definition no_word : word := mkWord [] 0 pos_default [] [] dzero [] None [] None None.
Definition no_line : gline := mkGLine (Lines.new_line []) 0 None None None Scripts.bbox_default dzero dzero.
Definition word_heap (ws : list word) : heap := fun i => nth i ws no_word.
Definition no_trim : double * double * double * double := (DBL_MAX, DBL_MAX, DBL_MIN, DBL_MIN).

Definition set_pages (d : gdoc) (ps : list gpage) : gdoc := mkGDoc ps (gd_fonts d) (gd_stats d) (gd_words d) (gd_lines d).
Definition set_stats (d : gdoc) (st : Statistics.dstats) : gdoc := mkGDoc (gd_pages d) (gd_fonts d) st (gd_words d) (gd_lines d).
Definition set_chars (cs : list character) (p : gpage) : gpage :=
  mkGPage (g_num p) (g_clip p) cs (g_figures p) (g_shapes p) (g_graphics p) (g_words p) (g_segs p) (g_textLines p) (g_blocks p).
Definition set_words (ws : list nat) (p : gpage) : gpage :=
  mkGPage (g_num p) (g_clip p) (g_chars p) (g_figures p) (g_shapes p) (g_graphics p) ws (g_segs p) (g_textLines p) (g_blocks p).
Definition set_segs (ss : list seg) (p : gpage) : gpage :=
  mkGPage (g_num p) (g_clip p) (g_chars p) (g_figures p) (g_shapes p) (g_graphics p) (g_words p) ss (g_textLines p) (g_blocks p).
Definition set_textLines (ls : list line) (p : gpage) : gpage :=
  mkGPage (g_num p) (g_clip p) (g_chars p) (g_figures p) (g_shapes p) (g_graphics p) (g_words p) (g_segs p) ls (g_blocks p).
Definition set_blocks (bs : list block) (p : gpage) : gpage :=
  mkGPage (g_num p) (g_clip p) (g_chars p) (g_figures p) (g_shapes p) (g_graphics p) (g_words p) (g_segs p) (g_textLines p) bs.

Section Pipeline.
  Context (m : machine) (wcfg : Words.words_config).

  (** src/PdfToTextPlusPlus.cpp:93-108 *)
  Definition new_page (p : Parsing.ppage) : gpage :=
    mkGPage (Parsing.pp_num p) (Parsing.pp_clip p) (Parsing.pp_chars p) (Parsing.pp_figures p) (Parsing.pp_shapes p)
      (Parsing.pp_graphics p) [] [] [] [].
  Definition run_parsing (es : list Parsing.event) (d : gdoc) : outcome gdoc :=
    do r <- Parsing.parse_events (m_parseFont m) (m_mapUnicode m) (m_fromBytes m) (m_iswspace m) (m_charId m) es;
    Ok (mkGDoc (map new_page (Parsing.pages r)) (Parsing.pr_fonts r) (gd_stats d) (gd_words d) (gd_lines d)).
  (** 112-121 *)
  Definition run_glyphStats (d : gdoc) : outcome gdoc :=
    do st <- Statistics.glyphStatistics (m_ordS m) (m_ordD m) (map g_chars (gd_pages d)) (gd_stats d); Ok (set_stats d st).
  (** 124-133 *)
  Fixpoint omap {A B} (f : A -> outcome B) (l : list A) : outcome (list B) :=
    match l with [] => Ok [] | x :: t => do y <- f x; do ys <- omap f t; Ok (y :: ys) end.
  Definition run_diacritics (d : gdoc) : outcome gdoc :=
    do ps <- omap (fun p => do cs <- Diacritics.merge_marks (m_compose m) (g_chars p); Ok (set_chars cs p)) (gd_pages d);
    Ok (set_pages d ps).
  (** 136-145, src/WordsDetection.cpp:58-74. References within a page become references within the document. *)
  Definition shift_word (n : nat) (w : word) : word :=
    mkWord (w_id w) (w_rank w) (w_pos w) (w_text w) (w_fontName w) (w_fontSize w) (w_chars w)
      (option_map (Nat.add n) (w_partOf w)) (map (Nat.add n) (w_parts w)) (w_first w) (w_second w).
  Fixpoint place_words (n : nat) (ps : list gpage) (wss : list (list word)) : list gpage * list word :=
    match ps, wss with
    | p :: ps, ws :: wss =>
        let '(ps', rest) := place_words (n + length ws) ps wss in
        (set_words (seq n (length ws)) p :: ps', map (shift_word n) ws ++ rest)
    | _, _ => ([], [])
    end.
  Definition run_words (d : gdoc) : outcome gdoc :=
    do wss <- omap (fun p => Words.detectWords (m_ordS m) (m_ordD m) (m_wordId m (g_num p)) wcfg (g_num p) [] (g_chars p)) (gd_pages d);
    let '(ps, ws) := place_words 0 (gd_pages d) (map (Words.mergeStackedMathSymbols wcfg) wss) in
    Ok (mkGDoc ps (gd_fonts d) (gd_stats d) ws (gd_lines d)).
  (** 148-157 *)
  Definition run_wordStats (d : gdoc) : outcome gdoc :=
    do st <- Statistics.wordStatistics (m_ordD m) (map (fun p => map (word_heap (gd_words d)) (g_words p)) (gd_pages d)) (gd_stats d);
    Ok (set_stats d st).
  (** 160-169. [None]: more recursive calls than elements (impossible, C30_terminates). Elements that are no words are not
      referred to by later modules and get the number 0. *)
  Definition from_run {A} (r : option (outcome A)) : outcome A :=
    match r with Some o => o | None => UB "does not terminate" end.
  Definition page_elems (ws : list word) (p : gpage) : PageSegmentation.ppage :=
    PageSegmentation.mkPP
      (map (fun i => PageSegmentation.mkPE i (w_pos (word_heap ws i)) (Some (w_rank (word_heap ws i)))) (g_words p))
      (map (fun f => PageSegmentation.mkPE 0 (Parsing.fg_pos f) None) (g_figures p))
      (map (fun e => PageSegmentation.mkPE 0 (e_pos e) None) (g_graphics p))
      (map (fun e => PageSegmentation.mkPE 0 (e_pos e) None) (g_shapes p)).
  Definition new_seg (s : PageSegmentation.segment) : seg :=
    mkSegm (PageSegmentation.seg_pos s) no_trim
      (map PageSegmentation.pe_uid (filter (fun e => is_some (PageSegmentation.pe_word e)) (PageSegmentation.seg_elements s))) [].
  Definition run_segmentation (d : gdoc) : outcome gdoc :=
    let st := gd_stats d in
    let cfg := PageSegmentation.default_config
      (PageSegmentation.mkPS (Statistics.st_wordDist st) (Statistics.st_charWidth st) (Statistics.st_charHeight st)) in
    do ps <- omap (fun p =>
        do r <- from_run (PageSegmentation.processPage (m_sortP m) (m_topP m) cfg (page_elems (gd_words d) p));
        Ok (set_segs (g_segs p ++ map new_seg (fst r)) p)) (gd_pages d);
    Ok (set_pages d ps).
  (** 172-180. [n]: the number of the first line of the page, [k]: of its first segment *)
  Fixpoint place_lines (n k : nat) (segs : list seg) (r : list (list (list Lines.tline) * option (double * double * double * double)))
    : list seg * list (Lines.tline * nat) :=
    match segs, r with
    | s :: segs, (gs, tb) :: r =>
        let ls := concat gs in
        let '(segs', rest) := place_lines (n + length ls) (S k) segs r in
        (mkSegm (sg_pos s) (match tb with Some t => t | None => sg_trim s end) (sg_words s) (sg_lines s ++ seq n (length ls)) :: segs',
         map (fun l => (l, k)) ls ++ rest)
    | _, _ => ([], [])
    end.
  Definition page_glines (n : nat) (hs : Lines.hstate) (ls : list (Lines.tline * nat)) : list gline :=
    map (fun '(i, (l, k)) => mkGLine l k (option_map (Nat.add n) (Lines.parent hs i)) (option_map (Nat.add n) (Lines.prevS hs i))
                               (option_map (Nat.add n) (Lines.nextS hs i)) Scripts.bbox_default dzero dzero)
        (combine (seq 0 (length ls)) ls).
  Fixpoint place_pages (n k : nat) (ps : list gpage)
    (r : list (list (list (list Lines.tline) * option (double * double * double * double)) * Lines.hstate)) : list gpage * list gline :=
    match ps, r with
    | p :: ps, (rp, hs) :: r =>
        let '(segs, ls) := place_lines n k (g_segs p) rp in
        let '(ps', rest) := place_pages (n + length ls) (k + length segs) ps r in
        (set_segs segs p :: ps', page_glines n hs ls ++ rest)
    | _, _ => ([], [])
    end.
  Definition run_lines (d : gdoc) : outcome gdoc :=
    do r <- Lines.detectTextLines (m_sortW m) (m_sortL m) (m_ordS m) (m_ordD m) (m_ordR m) (m_ordY m)
              (Statistics.st_charWidth (gd_stats d)) (m_absd m) (word_heap (gd_words d)) 0
              (map (fun p => map (fun s => (sg_pos s, sg_words s)) (g_segs p)) (gd_pages d));
    let '(ps, ls) := place_pages 0 0 (gd_pages d) r in
    Ok (mkGDoc ps (gd_fonts d) (gd_stats d) (gd_words d) ls).
  (** 183-190 and 257-264 *)
  Definition line_words (d : gdoc) (i : nat) : list nat := Lines.l_words (gl_line (nth i (gd_lines d) no_line)).
  Definition fill_lines1 (d : gdoc) : gdoc :=
    set_pages d (map (fun p => set_textLines (flat_map (fun s => map (line_words d) (sg_lines s)) (g_segs p)) p) (gd_pages d)).
  Definition fill_lines2 (d : gdoc) : gdoc :=
    set_pages d (map (fun p => set_textLines (flat_map b_lines (g_blocks p)) p) (gd_pages d)).
  (** 194-203; all lines of all segments, that is all lines *)
  Definition segment_line_ids (d : gdoc) : list nat := flat_map (fun p => flat_map sg_lines (g_segs p)) (gd_pages d).
  Definition set_box (ls : list gline) (ib : nat * Scripts.bbox) : list gline :=
    match nth_error ls (fst ib) with
    | Some l => update (fst ib) (mkGLine (gl_line l) (gl_seg l) (gl_parent l) (gl_prevSib l) (gl_nextSib l) (snd ib) (gl_left l) (gl_right l)) ls
    | None => ls
    end.
  Definition run_scripts (d : gdoc) : outcome gdoc :=
    let ids := segment_line_ids d in
    let slines := map (fun i => let l := nth i (gd_lines d) no_line in
                         Scripts.mkSLine (Lines.l_base (gl_line l)) (Lines.l_words (gl_line l)) (gl_box l)) ids in
    let '(h, sl) := Scripts.detectScripts (Statistics.st_fontSize (gd_stats d)) slines (word_heap (gd_words d)) in
    Ok (mkGDoc (gd_pages d) (gd_fonts d) (gd_stats d) (map h (seq 0 (length (gd_words d))))
          (fold_left set_box (combine ids (map Scripts.sl_box sl)) (gd_lines d))).
  (** 206-215 *)
  Definition stat_line (d : gdoc) (i : nat) : Statistics.stline :=
    let l := nth i (gd_lines d) no_line in
    Statistics.mkStLine (Lines.l_pos (gl_line l)) (Lines.l_fontSize (gl_line l)) (Scripts.bx_upper (gl_box l)) (Scripts.bx_lower (gl_box l)).
  Definition run_lineStats (d : gdoc) : outcome gdoc :=
    do st <- Statistics.lineStatistics (m_ordD m) (m_ordF m)
               (map (fun p => map (fun s => map (stat_line d) (sg_lines s)) (g_segs p)) (gd_pages d)) (gd_stats d);
    Ok (set_stats d st).
  (** 218-227 *)
  Definition block_line (l : gline) : Blocks.bline :=
    let t := gl_line l in
    Blocks.mkBLine (Lines.l_pos t) (Lines.l_text t) (Lines.l_fontName t) (Lines.l_fontSize t) (Lines.l_maxFontSize t) (Lines.l_words t)
      (gl_seg l) (option_map Z.to_nat (Lines.l_prev t)) (option_map Z.to_nat (Lines.l_next t))
      (gl_parent l) (gl_prevSib l) (gl_nextSib l) (gl_left l) (gl_right l).
  Definition font_info (f : Fonts.font) : fontInfo := Document.mkFont (Fonts.f_weight f) (Fonts.f_italic f) (Fonts.f_type3 f).
  Definition all_fonts (d : gdoc) : list (str * fontInfo) := map (fun e => (fst e, font_info (snd e))) (gd_fonts d).
  Definition block_doc (d : gdoc) : Blocks.bdoc :=
    let st := gd_stats d in
    Blocks.mkBDoc (Statistics.st_charWidth st) (Statistics.st_fontName st) (Statistics.st_fontSize st) (Statistics.st_wordHeight st)
      (Statistics.st_lineDist st) (Statistics.st_lineDistPer st) (all_fonts d)
      (fun k => match nth_error (flat_map g_segs (gd_pages d)) k with Some s => (sg_pos s, sg_trim s) | None => (pos_default, no_trim) end)
      (map (fun p => map Parsing.fg_pos (g_figures p)) (gd_pages d)).
  Definition new_block (lh : Blocks.lheap) (num : Z) (b : Blocks.tblock) : block :=
    mkBlock (m_blockId m num (Blocks.tb_rank b)) (Blocks.tb_rank b) (Blocks.tb_pos b) (Blocks.tb_text b) (Blocks.tb_fontName b)
      (Blocks.tb_fontSize b) (m_junk m num (Blocks.tb_rank b)) (Blocks.tb_emph b)
      (map (fun l => Blocks.bl_words (lh l)) (Blocks.tb_lines b)).
  Definition run_blocks (d : gdoc) : outcome gdoc :=
    do r <- Blocks.detectTextBlocks (m_ordS m) (m_ordD m) (m_absd m) (m_labelRegex m) (word_heap (gd_words d)) (block_doc d)
              (S (length (gd_lines d))) (map (fun p => map sg_lines (g_segs p)) (gd_pages d))
              (fun i => block_line (nth i (gd_lines d) no_line));
    let '(_, fin, lh) := r in
    Ok (mkGDoc (map (fun '(p, bs) => set_blocks (g_blocks p ++ map (new_block lh (g_num p)) bs) p) (combine (gd_pages d) fin))
          (gd_fonts d) (gd_stats d) (gd_words d)
          (map (fun '(i, l) => mkGLine (gl_line l) (gl_seg l) (gl_parent l) (gl_prevSib l) (gl_nextSib l) (gl_box l)
                                 (Blocks.bl_left (lh i)) (Blocks.bl_right (lh i)))
               (combine (seq 0 (length (gd_lines d))) (gd_lines d)))).
  (** 230-242: the roles, then the reading order *)
  Definition role_block (h : heap) (b : block) : Roles.rblock :=
    Roles.mkRBlock (b_pos b) (b_text b) (b_fontName b) (b_fontSize b) (map (fun i => w_text (h i)) (concat (b_lines b))).
  Definition role_page (h : heap) (p : gpage) : Roles.rpage :=
    Roles.mkRPage (Parsing.k_left (g_clip p)) (Parsing.k_upper (g_clip p)) (Parsing.k_right (g_clip p)) (Parsing.k_lower (g_clip p))
      (map (role_block h) (g_blocks p)).
  Definition set_role (r : nat) (b : block) : block :=
    mkBlock (b_id b) (b_rank b) (b_pos b) (b_text b) (b_fontName b) (b_fontSize b) r (b_emph b) (b_lines b).
  Fixpoint set_roles (roles : list nat) (ps : list gpage) : list gpage :=
    match ps with
    | [] => []
    | p :: t => set_blocks (map (fun '(b, r) => set_role r b) (combine (g_blocks p) roles)) p :: set_roles (skipn (length (g_blocks p)) roles) t
    end.
  (** src/Types.cpp:569-576, src/Types.h:377: the page as the serialization (and the reading order) sees it *)
  Definition figure_elem (num : Z) (fs : list Parsing.figure) : list elem :=
    map (fun '(i, f) => mkElem (m_figureId m num i) (-1) (Parsing.fg_pos f)) (combine (seq 0 (length fs)) fs).
  Definition doc_page (p : gpage) : page :=
    mkPage (g_num p) (dsub (Parsing.k_right (g_clip p)) (Parsing.k_left (g_clip p))) (dsub (Parsing.k_lower (g_clip p)) (Parsing.k_upper (g_clip p)))
      (figure_elem (g_num p) (g_figures p)) (g_shapes p) (g_blocks p).
  Definition run_readingOrder (d : gdoc) : outcome gdoc :=
    let h := word_heap (gd_words d) in
    let infos n := option_map (fun f => (Fonts.f_weight f, Fonts.f_italic f)) (Parsing.find_font n (gd_fonts d)) in
    do roles <- from_run (option_map fst (Roles.predict (m_fromBytes m) infos (m_network m) (m_fuel m) (m_bpe m) (m_roles m)
                                            Roles.new_predictor (map (role_page h) (gd_pages d))));
    let ps := set_roles roles (gd_pages d) in
    do qs <- from_run (ReadingOrder.order_pages (m_sortR m) (m_topR m) (Statistics.st_charWidth (gd_stats d))
                         (Statistics.st_charHeight (gd_stats d)) (map doc_page ps));
    Ok (set_pages d (map (fun '(p, q) => set_blocks (p_blocks q) p) (combine ps qs))).
  (** 245-254 *)
  Definition the_document (d : gdoc) : document := mkDoc (map doc_page (gd_pages d)) (all_fonts d).
  Definition run_dehyphenation (d : gdoc) : outcome gdoc :=
    let h := Dehyphenation.dehyphenate (the_document d) (word_heap (gd_words d)) in
    Ok (mkGDoc (gd_pages d) (gd_fonts d) (gd_stats d) (map h (seq 0 (length (gd_words d)))) (gd_lines d)).

  Definition run_module (es : list Parsing.event) (x : Cli.modul) : gdoc -> outcome gdoc :=
    match x with
    | Cli.MParsing => run_parsing es
    | Cli.MGlyphStats => run_glyphStats
    | Cli.MDiacritics => run_diacritics
    | Cli.MWords => run_words
    | Cli.MWordStats => run_wordStats
    | Cli.MSegmentation => run_segmentation
    | Cli.MLines => run_lines
    | Cli.MScripts => run_scripts
    | Cli.MLineStats => run_lineStats
    | Cli.MBlocks => run_blocks
    | Cli.MReadingOrder => run_readingOrder
    | Cli.MRoles => fun d => Ok d       (* part of the detection of the reading order *)
    | Cli.MDehyphenation => run_dehyphenation
    end.
  (** PdfToTextPlusPlus::process on a file that Poppler can open; [es]: what Poppler calls *)
  Definition process_pdf (c : Cli.config) (es : list Parsing.event) : outcome (Z * gdoc) :=
    Cli.process c None (run_module es) fill_lines1 fill_lines2 gdoc_init.
End Pipeline.
