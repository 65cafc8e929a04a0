(** WiredSpec.v - vocabulary for C81: what the detection of lines and of blocks gets to see, and where its results are found. *)
From Coq Require Import ZArith NArith.
From Coq Require Export Permutation.
From Verif Require Import Base Double Elements Document LinesSpec Pipeline PipelineSpec WiringSpec.
From Verif Require Fonts Parsing Statistics Lines Scripts Blocks ReadingOrder.

(** A word without the marks of sub- and superscripts and of hyphenation; and without the latter only. *)
Definition unmarked (w : word) : word :=
  mkWord (w_id w) (w_rank w) (w_pos w) (w_text w) (w_fontName w) (w_fontSize w) (map PipelineSpec.plain (w_chars w)) (w_partOf w) (w_parts w) None None.
Definition unhyphenated (w : word) : word :=
  mkWord (w_id w) (w_rank w) (w_pos w) (w_text w) (w_fontName w) (w_fontSize w) (w_chars w) (w_partOf w) (w_parts w) None None.

(** The boxes and the words of the segments of the pages. *)
Definition boxed_words (d : gdoc) : list (list (position * list nat)) := map (fun p => map (fun s => (sg_pos s, sg_words s)) (g_segs p)) (gd_pages d).

(** The lines of a page (given by its segments): [rp], for each segment, the lines found (in groups) and the trim box, [hs] the hierarchy
    of the lines of the page (numbered from 0). On the pages before, there are [n] lines and [k] segments. *)
Definition found_on_page (line : nat -> gline) (n k : nat) (segs : list seg)
    (rp : list (list (list Lines.tline) * option (double * double * double * double))) (hs : Lines.hstate) : Prop :=
  let ids := flat_map sg_lines segs in
  Forall2 (fun s r => map (fun i => gl_line (line i)) (sg_lines s) = concat (fst r) /\
                      sg_trim s = match snd r with Some t => t | None => (DBL_MAX, DBL_MAX, DBL_MIN, DBL_MIN) end) segs rp /\
  ids = seq n (length ids) /\
  (forall q s i, nth_error segs q = Some s -> In i (sg_lines s) -> gl_seg (line i) = k + q) /\
  (forall i, i < length ids ->
     gl_parent (line (n + i)) = option_map (Nat.add n) (Lines.parent hs i) /\
     gl_prevSib (line (n + i)) = option_map (Nat.add n) (Lines.prevS hs i) /\
     gl_nextSib (line (n + i)) = option_map (Nat.add n) (Lines.nextS hs i)).
Fixpoint found_lines (line : nat -> gline) (n k : nat) (pages : list (list seg))
    (r : list (list (list (list Lines.tline) * option (double * double * double * double)) * Lines.hstate)) : Prop :=
  match pages, r with
  | [], [] => True
  | segs :: pages, (rp, hs) :: r =>
      found_on_page line n k segs rp hs /\ found_lines line (n + length (flat_map sg_lines segs)) (k + length segs) pages r
  | _, _ => False
  end.

(** What the detection of blocks gets to see: statistics, fonts, figures, the boxes and the trim boxes of the segments ... *)
Definition seen_by_blocks (d : gdoc) (bd : Blocks.bdoc) : Prop :=
  let st := gd_stats d in
  Blocks.bd_acw bd = Statistics.st_charWidth st /\
  Blocks.bd_fontName bd = Statistics.st_fontName st /\ Blocks.bd_fontSize bd = Statistics.st_fontSize st /\
  Blocks.bd_wordHeight bd = Statistics.st_wordHeight st /\
  Blocks.bd_dist bd = Statistics.st_lineDist st /\ Blocks.bd_distPer bd = Statistics.st_lineDistPer st /\
  Blocks.bd_fonts bd = map (fun e => (fst e, Document.mkFont (Fonts.f_weight (snd e)) (Fonts.f_italic (snd e)) (Fonts.f_type3 (snd e)))) (gd_fonts d) /\
  Blocks.bd_figures bd = map (fun p => map Parsing.fg_pos (g_figures p)) (gd_pages d) /\
  forall p s i, In p (gd_pages d) -> In s (g_segs p) -> In i (sg_lines s) -> Blocks.bd_seg bd (gl_seg (final_line d i)) = (sg_pos s, sg_trim s).
(** ... and the lines (their margins are not known yet). *)
Definition seen_line (d : gdoc) (i : nat) (l : Blocks.bline) : Prop :=
  let g := final_line d i in let t := gl_line g in
  Blocks.bl_pos l = Lines.l_pos t /\ Blocks.bl_text l = Lines.l_text t /\ Blocks.bl_fontName l = Lines.l_fontName t /\
  Blocks.bl_fontSize l = Lines.l_fontSize t /\ Blocks.bl_maxFontSize l = Lines.l_maxFontSize t /\ Blocks.bl_words l = Lines.l_words t /\
  Blocks.bl_seg l = gl_seg g /\
  Blocks.bl_prev l = option_map Z.to_nat (Lines.l_prev t) /\ Blocks.bl_next l = option_map Z.to_nat (Lines.l_next t) /\
  Blocks.bl_parent l = gl_parent g /\ Blocks.bl_prevSib l = gl_prevSib g /\ Blocks.bl_nextSib l = gl_nextSib g /\
  Blocks.bl_left l = dzero /\ Blocks.bl_right l = dzero.
(** A block of the result and the one that was found: the role is not known yet. *)
Definition found_block (m : machine) (lh : Blocks.lheap) (num : Z) (t : Blocks.tblock) (b : block) : Prop :=
  b_id b = m_blockId m num (Blocks.tb_rank t) /\
  b_rank b = Blocks.tb_rank t /\ b_pos b = Blocks.tb_pos t /\ b_text b = Blocks.tb_text t /\ b_fontName b = Blocks.tb_fontName t /\
  b_fontSize b = Blocks.tb_fontSize t /\ b_emph b = Blocks.tb_emph t /\ b_lines b = map (fun i => Blocks.bl_words (lh i)) (Blocks.tb_lines t).
(** The blocks of a page, up to their order. *)
Definition blocks_found (m : machine) (lh : Blocks.lheap) (p : gpage) (ts : list Blocks.tblock) : Prop :=
  exists bs, Permutation bs (g_blocks p) /\ Forall2 (found_block m lh (g_num p)) ts bs.
(** What the detection of the reading order gets to see of a page with the blocks [bs]. *)
Definition page_to_order (m : machine) (p : gpage) (bs : list block) : page :=
  mkPage (g_num p) (dsub (Parsing.k_right (g_clip p)) (Parsing.k_left (g_clip p))) (dsub (Parsing.k_lower (g_clip p)) (Parsing.k_upper (g_clip p)))
    (map (fun e => mkElem (m_figureId m (g_num p) (fst e)) (-1) (Parsing.fg_pos (snd e))) (combine (seq 0 (length (g_figures p))) (g_figures p))) (g_shapes p) bs.
Definition blocks_ordered (m : machine) (st : Statistics.dstats) (lh : Blocks.lheap) (p : gpage) (ts : list Blocks.tblock) : Prop :=
  exists bs q, Forall2 (found_block m lh (g_num p)) ts bs /\
    ReadingOrder.order_page (m_sortR m) (m_topR m) (Statistics.st_charWidth st) (Statistics.st_charHeight st) (page_to_order m p bs) = Some (Ok q) /\ g_blocks p = p_blocks q.
