(** PagesSpec.v - vocabulary for C82: the pages that the parts of the result belong to, and what is drawn of the result. *)
From Coq Require Import ZArith NArith.
From Verif Require Import Base Double Elements Document Visualization Pipeline PipelineSpec WiringSpec.
From Verif Require Parsing Statistics Lines PageSegmentation ReadingOrder XYCut Cli.

Definition all_on (n : Z) (ps : list position) : Prop := forall p, In p ps -> pageNum p = n.
(** A cut that was found and the cut that is drawn. *)
Definition drawn_cut {A} (c : XYCut.cut A) (v : vcut) : Prop :=
  vc_page v = XYCut.cut_page c /\ vc_x1 v = XYCut.cut_x1 c /\ vc_y1 v = XYCut.cut_y1 c /\ vc_x2 v = XYCut.cut_x2 c /\ vc_y2 v = XYCut.cut_y2 c /\
  vc_chosen v = XYCut.cut_chosen c.
(** What the visualisation gets to see of a page of the result. The cuts are those of the page segmentation on the words, figures,
    graphics and shapes of the page, and those of the reading order detection on the blocks (in some order), figures and shapes. *)
Definition pictured (m : machine) (d : gdoc) (p : gpage) (v : vpage) : Prop :=
  vp_chars v = map c_pos (g_chars p) /\ vp_figures v = map Parsing.fg_pos (g_figures p) /\ vp_shapes v = map e_pos (g_shapes p) /\
  vp_graphics v = map e_pos (g_graphics p) /\ vp_words v = map (fun i => w_pos (the_word d i)) (g_words p) /\
  Forall2 (fun s g => vs_pos g = sg_pos s /\ vs_lines g = map (fun i => Lines.l_pos (gl_line (final_line d i))) (sg_lines s)) (g_segs p) (vp_segments v) /\
  Forall2 (fun b g => vb_pos g = b_pos b /\ vb_role g = b_role b) (g_blocks p) (vp_blocks v) /\
  (exists q r, seen_page d p q /\
     PageSegmentation.processPage (m_sortP m) (m_topP m)
       (PageSegmentation.default_config (PageSegmentation.mkPS (Statistics.st_wordDist (gd_stats d)) (Statistics.st_charWidth (gd_stats d)) (Statistics.st_charHeight (gd_stats d)))) q = Some (Ok r) /\
     Forall2 drawn_cut (snd r) (vp_segmentCuts v)) /\
  (exists bs r, Permutation (map b_pos bs) (map b_pos (g_blocks p)) /\
     ReadingOrder.ro_groups (m_sortR m) (m_topR m) (Statistics.st_charWidth (gd_stats d)) (Statistics.st_charHeight (gd_stats d))
       (ReadingOrder.ro_elements (doc_page m (set_blocks bs p))) = Some (Ok r) /\
     Forall2 drawn_cut (snd r) (vp_readingOrderCuts v)).
