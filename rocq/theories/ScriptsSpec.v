(** ScriptsSpec.v - vocabulary for the statements about sub- and superscripts (C27). *)
From Coq Require Import ZArith NArith.
From Verif Require Import Base Double MathUtils Elements Document Scripts.

(** The character is small: its font size is below the most frequent one of the document by more than 0.9. *)
Definition small (mf : double) (c : character) : bool := smaller (c_fontSize c) mf (dec 9 1).
(** Its baseline is above resp. below [base] by more than 0.1 (y grows downwards). *)
Definition raised (base : double) (c : character) : bool := smaller (c_base c) base (dec 1 1).
Definition lowered (base : double) (c : character) : bool := larger (c_base c) base (dec 1 1).
(** Superscript resp. subscript with respect to a line with the baseline [base]. *)
Definition is_super (mf base : double) (c : character) : bool := small mf c && raised base c.
Definition is_sub (mf base : double) (c : character) : bool := small mf c && lowered base c.
Definition is_script (mf base : double) (c : character) : bool := is_super mf base c || is_sub mf base c.

(** [c'] is [c] with these flags. *)
Definition flagged (c : character) (sub sup : bool) (c' : character) : Prop :=
  c' = mkChar (c_uid c) (c_id c) (c_rank c) (c_pos c) (c_text c) (c_name c) (c_unicodes c) (c_fontName c) (c_fontSize c) (c_color c)
    (c_opacity c) (c_base c) sub sup (c_markOf c) (c_hasMark c) (c_textWithMark c).
(** The bases of the lines that contain the word [w]. *)
Definition bases_of (ls : list sline) (w : nat) : list double :=
  map sl_base (filter (fun l => existsb (Nat.eqb w) (sl_words l)) ls).

(** A least / greatest value of a list. *)
Definition least_of (x : double) (l : list double) : Prop :=
  (forall v, In v l -> dle x v = true) /\ In x l.
Definition greatest_of (x : double) (l : list double) : Prop :=
  (forall v, In v l -> dle v x = true) /\ In x l.
(** [b] is the box [b0] extended by the boxes [ps] to the smallest box around all of them. *)
Definition extended_box (b0 : bbox) (ps : list position) (b : bbox) : Prop :=
  least_of (bx_left b) (bx_left b0 :: map leftX ps) /\ least_of (bx_upper b) (bx_upper b0 :: map upperY ps) /\
  greatest_of (bx_right b) (bx_right b0 :: map rightX ps) /\ greatest_of (bx_lower b) (bx_lower b0 :: map lowerY ps).
