(** ContentSpec.v - vocabulary for the statements about the content of the resulting document (C73, C74). *)
From Coq Require Import ZArith NArith.
From Verif Require Import Base Double Elements Document LinesSpec Pipeline PipelineSpec.
From Verif Require Fonts Parsing WordsSpec Roles.

(** [b] is the smallest box around the boxes [ps] (except that its right and lower sides are at least DBL_MIN). *)
Definition around (b : position) (ps : list position) : Prop :=
  is_least (leftX b) (map leftX ps) /\ is_least (upperY b) (map upperY ps) /\
  is_greatest (rightX b) (DBL_MIN :: map rightX ps) /\ is_greatest (lowerY b) (DBL_MIN :: map lowerY ps).
Definition finite_box (p : position) : Prop :=
  is_fin (leftX p) = true /\ is_fin (upperY p) = true /\ is_fin (rightX p) = true /\ is_fin (lowerY p) = true.

(** The word is made from its characters: it has some, its text is theirs, and so are its page, its rotation and (if their
    coordinates are numbers) its box. *)
Definition from_chars (n : Z) (w : word) : Prop :=
  w_text w = concat (map WordsSpec.shown_text (w_chars w)) /\
  (exists c t, w_chars w = c :: t /\ pageNum (w_pos w) = n /\ rotation (w_pos w) = rotation (c_pos c) /\ wMode (w_pos w) = wMode (c_pos c)) /\
  ((forall c, In c (w_chars w) -> finite_box (c_pos c)) -> around (w_pos w) (map c_pos (w_chars w))).

(** The block is made from its words: it has lines, all of them have words, its text is theirs, and so are its page and its
    box. In each line, no word stands behind (in the direction of the text) a word that follows it. *)
Definition text_from_words (d : gdoc) (b : block) : Prop :=
  b_text b = blank_separated (map (fun l => blank_separated (map (fun i => w_text (the_word d i)) l)) (b_lines b)).
Definition from_words (d : gdoc) (n : Z) (b : block) : Prop :=
  (forall l, In l (b_lines b) -> l <> [] /\
     exists i, In i l /\ forall l1 x l2 y l3, l = l1 ++ x :: l2 ++ y :: l3 ->
       read_before (rotation (w_pos (the_word d i))) (w_pos (the_word d y)) (w_pos (the_word d x)) = false) /\
  pageNum (b_pos b) = n /\
  smallest_box (b_pos b) (map (fun i => w_pos (the_word d i)) (concat (b_lines b))).

(** The characters of some words (of the words [h]); those of a block. *)
Definition chars_of (h : nat -> word) (ws : list nat) : list character := flat_map (fun i => w_chars (h i)) ws.
(** The font of a block: each line has the font name and the font size that are most frequent among its characters, and the block
    has those that are most frequent among its lines. *)
Definition block_fonts (h : nat -> word) (b : block) : Prop :=
  (N.of_nat (length (chars_of h (concat (b_lines b)))) < 2 ^ 32)%N ->
  (forall c, In c (chars_of h (concat (b_lines b))) -> is_nan_d (c_fontSize c) = false /\ is_nan_d (c_base c) = false) ->
  exists fonts : list (str * double),
    Forall2 (fun l f => most_frequent str_eqb (fst f) (map c_fontName (chars_of h l)) /\ most_frequent deq (snd f) (map c_fontSize (chars_of h l))) (b_lines b) fonts /\
    most_frequent str_eqb (b_fontName b) (map fst fonts) /\ most_frequent deq (b_fontSize b) (map snd fonts).

(** A block with its role. *)
Definition with_role (r : nat) (b : block) : block :=
  mkBlock (b_id b) (b_rank b) (b_pos b) (b_text b) (b_fontName b) (b_fontSize b) r (b_emph b) (b_lines b).
(** What the prediction of the roles gets to see: of each page its (clip) box, of each block its box, its text, its font, its
    font size and the texts of its words. *)
Definition role_input (d : gdoc) : list Roles.rpage :=
  map (fun p => Roles.mkRPage (Parsing.k_left (g_clip p)) (Parsing.k_upper (g_clip p)) (Parsing.k_right (g_clip p)) (Parsing.k_lower (g_clip p))
                  (map (fun b => Roles.mkRBlock (b_pos b) (b_text b) (b_fontName b) (b_fontSize b) (map (fun i => w_text (the_word d i)) (concat (b_lines b)))) (g_blocks p)))
      (gd_pages d).
(** Weight and slope of the font with a name. *)
Definition font_input (d : gdoc) (name : str) : option (Z * bool) :=
  match find (fun e => str_eqb (fst e) name) (gd_fonts d) with Some e => Some (Fonts.f_weight (snd e), Fonts.f_italic (snd e)) | None => None end.
