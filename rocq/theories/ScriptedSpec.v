(** ScriptedSpec.v - vocabulary for the statements about sub- and superscripts of the resulting document (C85). *)
From Coq Require Import ZArith NArith.
From Verif Require Import Base Double Elements Document Pipeline PipelineSpec ContentSpec WiringSpec ScriptsSpec.
From Verif Require Lines Statistics.

(** The text lines of a page (segment by segment), the words and the baseline of a line. *)
Definition lines_on (d : gdoc) (p : gpage) : list gline := map (final_line d) (flat_map sg_lines (g_segs p)).
Definition words_in (L : gline) : list nat := Lines.l_words (gl_line L).
Definition baseline (L : gline) : double := Lines.l_base (gl_line L).
(** The font size of most characters of the document. *)
Definition body_fontSize (d : gdoc) : double := Statistics.st_fontSize (gd_stats d).
(** With respect to the line [L], the character is set smaller than the document's body (by more than 0.9) and above resp. below the
    baseline of [L] (by more than 0.1). *)
Definition above_line (d : gdoc) (L : gline) (ch : character) : Prop :=
  MathUtils.smaller (c_fontSize ch) (body_fontSize d) (dec 9 1) = true /\ MathUtils.smaller (c_base ch) (baseline L) (dec 1 1) = true.
Definition below_line (d : gdoc) (L : gline) (ch : character) : Prop :=
  MathUtils.smaller (c_fontSize ch) (body_fontSize d) (dec 9 1) = true /\ MathUtils.larger (c_base ch) (baseline L) (dec 1 1) = true.
