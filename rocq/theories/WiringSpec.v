(** WiringSpec.v - vocabulary for C81: the statistics and the segments of the resulting document. *)
From Coq Require Import ZArith NArith.
From Verif Require Import Base Double Elements Document LinesSpec Pipeline PipelineSpec StatisticsSpec.
From Verif Require MathUtils Fonts Parsing Statistics Lines Scripts PageSegmentation BlocksSpec.

(** The lines of a document, by page and by segment, with their positions, their font sizes and the upper and lower ends of
    their text without sub- and superscripts. *)
Definition final_line (d : gdoc) (i : nat) : gline := nth i (gd_lines d) no_line.
Definition final_lines (d : gdoc) : list (list Statistics.stline) :=
  flat_map (fun p => map (fun s => map (fun i =>
      Statistics.mkStLine (Lines.l_pos (gl_line (final_line d i))) (Lines.l_fontSize (gl_line (final_line d i)))
        (Scripts.bx_upper (gl_box (final_line d i))) (Scripts.bx_lower (gl_box (final_line d i)))) (sg_lines s)) (g_segs p)) (gd_pages d).

(** What the page segmentation gets to see of a page: the words with their numbers, ranks and positions, the figures, the graphics and
    the shapes with their positions. *)
Definition seen_page (d : gdoc) (p : gpage) (q : PageSegmentation.ppage) : Prop :=
  map PageSegmentation.pe_uid (PageSegmentation.pp_words q) = g_words p /\
  map PageSegmentation.pe_pos (PageSegmentation.pp_words q) = map (fun i => w_pos (the_word d i)) (g_words p) /\
  map PageSegmentation.pe_word (PageSegmentation.pp_words q) = map (fun i => Some (w_rank (the_word d i))) (g_words p) /\
  map PageSegmentation.pe_pos (PageSegmentation.pp_figures q) = map Parsing.fg_pos (g_figures p) /\
  map PageSegmentation.pe_pos (PageSegmentation.pp_graphics q) = map e_pos (g_graphics p) /\
  map PageSegmentation.pe_pos (PageSegmentation.pp_shapes q) = map e_pos (g_shapes p) /\
  forall e, In e (PageSegmentation.pp_figures q ++ PageSegmentation.pp_graphics q ++ PageSegmentation.pp_shapes q) -> PageSegmentation.pe_word e = None.
(** A segment of the result and the one that the page segmentation found: same box, and the words among its elements. *)
Definition found_segment (s : PageSegmentation.segment) (s' : seg) : Prop :=
  sg_pos s' = PageSegmentation.seg_pos s /\
  sg_words s' = map PageSegmentation.pe_uid (filter (fun e => match PageSegmentation.pe_word e with Some _ => true | None => false end) (PageSegmentation.seg_elements s)).

(** A block stands out from the text of the document: both its font and the most frequent font are known, and it is set in a larger
    font (by more than 1), or in one of about the same size or larger that is bolder (by more than 100) or italic, or in capital
    letters only. *)
Definition stands_out (d : gdoc) (b : block) : Prop :=
  let size := Statistics.st_fontSize (gd_stats d) in
  exists df ef, Parsing.find_font (Statistics.st_fontName (gd_stats d)) (gd_fonts d) = Some df /\ Parsing.find_font (b_fontName b) (gd_fonts d) = Some ef /\
    (MathUtils.larger (b_fontSize b) size (dZ 1) = true \/
     (MathUtils.equalOrLarger (b_fontSize b) size (dZ 1) = true /\ MathUtils.larger (dZ (Fonts.f_weight ef)) (dZ (Fonts.f_weight df)) (dZ 100) = true) \/
     (MathUtils.equalOrLarger (b_fontSize b) size (dZ 1) = true /\ Fonts.f_italic ef = true) \/
     ((exists c, In c (b_text b) /\ BlocksSpec.letter c) /\ forall c, In c (b_text b) -> ~ BlocksSpec.lower_letter c)).
