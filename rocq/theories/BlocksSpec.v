(** BlocksSpec.v - vocabulary for the statements about text blocks (C33, C34, C60). *)
From Coq Require Import ZArith NArith.
From Verif Require Import Base Double MathUtils Elements UtilsSpec TextUtils Document LinesSpec Blocks.

(** Everything of a line but the references to its neighbours and its margins. *)
Definition same_content (l l' : bline) : Prop :=
  bl_pos l' = bl_pos l /\ bl_text l' = bl_text l /\ bl_fontName l' = bl_fontName l /\ bl_fontSize l' = bl_fontSize l /\
  bl_maxFontSize l' = bl_maxFontSize l /\ bl_words l' = bl_words l /\ bl_seg l' = bl_seg l /\
  bl_parent l' = bl_parent l /\ bl_prevSib l' = bl_prevSib l /\ bl_nextSib l' = bl_nextSib l.

(** The element of a list before (after) position [i]. *)
Definition elem_before {A} (l : list A) (i : nat) : option A := match i with O => None | S j => nth_error l j end.
Definition elem_after {A} (l : list A) (i : nat) : option A := nth_error l (S i).
(** [a] and [b] are consecutive in [l]. *)
Definition consecutive {A} (a b : A) (l : list A) : Prop := exists x y, l = x ++ a :: b :: y.
(** The pairs of consecutive elements. *)
Fixpoint pairs_of {A} (l : list A) : list (A * A) :=
  match l with a :: (b :: _) as t => (a, b) :: pairs_of t | _ => [] end.

(** The verdict of the first rule (condition, verdict) whose condition holds; [false] if there is none. *)
Inductive first_rule : list (Prop * bool) -> bool -> Prop :=
| fr_none : first_rule [] false
| fr_here (c : Prop) v rs : c -> first_rule ((c, v) :: rs) v
| fr_next (c : Prop) v rs v' : ~ c -> first_rule rs v' -> first_rule ((c, v) :: rs) v'.

Section Spec.
  Context (absd : double -> double) (label_regex : str -> bool) (h : heap) (doc : bdoc).
  Let acw := bd_acw doc.
  Definition same_fs (x y : double) : Prop := equal x y (dZ 1) = true.
  Definition tight_left (p q : position) : Prop := equal (absd (dsub (leftX p) (leftX q))) dzero acw = true.

  (** ** Blocks *)
  (** Two lines are centered w.r.t. each other: they overlap horizontally almost completely, and the distances between their
      left and right sides are equal. *)
  Definition centered_pair (p q : position) : Prop :=
    smaller (computeMaxXOverlapRatio p q) (dec 99 2) TOL = false /\
    equal (absd (dsub (leftX p) (leftX q))) (absd (dsub (rightX p) (rightX q))) (dmul (dZ 2) acw) = true.
  Definition formula (t : str) : Prop := In "="%char t \/ In "+"%char t.
  (** ... and visibly so: at least one of these distances is large, and none of the lines contains a formula symbol. *)
  Definition visibly_centered (p q : bline) : Prop :=
    ~ formula (bl_text p) /\ ~ formula (bl_text q) /\
    (larger (absd (dsub (leftX (bl_pos p)) (leftX (bl_pos q)))) (dmul (dZ 2) acw) TOL = true \/
     larger (absd (dsub (rightX (bl_pos p)) (rightX (bl_pos q)))) (dmul (dZ 2) acw) TOL = true).
  (** All consecutive lines are centered, some visibly so, and at most five pairs are not. *)
  Definition lines_centered (lh : lheap) (ls : list nat) : Prop :=
    (forall a b, consecutive a b ls -> centered_pair (bl_pos (lh a)) (bl_pos (lh b))) /\
    (exists a b, consecutive a b ls /\ visibly_centered (lh a) (lh b)) /\
    exists sel, Forall2 (fun '(a, b) v => v = true <-> visibly_centered (lh a) (lh b)) (pairs_of ls) sel /\
      length (filter negb sel) <= 5.

  Definition letter (c : ascii) : Prop := (65 <= nat_of_ascii c <= 90) \/ (97 <= nat_of_ascii c <= 122).
  Definition lower_letter (c : ascii) : Prop := 97 <= nat_of_ascii c <= 122.
  (** A larger font, or one of about the same size or larger that is bolder or italic, or text in capital letters. *)
  Definition emphasized (text fontName : str) (fontSize : double) : Prop :=
    exists df ef, font_of doc (bd_fontName doc) = Some df /\ font_of doc fontName = Some ef /\
      (larger fontSize (bd_fontSize doc) (dZ 1) = true \/
       (equalOrLarger fontSize (bd_fontSize doc) (dZ 1) = true /\ larger (dZ (f_weight ef)) (dZ (f_weight df)) (dZ 100) = true) \/
       (equalOrLarger fontSize (bd_fontSize doc) (dZ 1) = true /\ f_italic ef = true) \/
       ((exists c, In c text /\ letter c) /\ forall c, In c text -> ~ lower_letter c)).

  (** The margins of a line in the block [b]; [prev]: the block before [b]. *)
  Definition trim_left (b : tblock) : double := let '(l, _, _, _) := tb_trim b in l.
  Definition trim_right (b : tblock) : double := let '(_, _, r, _) := tb_trim b in r.
  Definition left_margin (b : tblock) (l : bline) : double := dsub (leftX (bl_pos l)) (trim_left b).
  (** A block of two lines that is not in the middle of its segment is as wide as the block before it. *)
  Definition block_border (prev : option tblock) (b : tblock) : double :=
    let seg := fst (bd_seg doc (tb_seg b)) in
    match length (tb_lines b), prev with
    | 2, Some p => if equal (dsub (leftX (tb_pos b)) (leftX seg)) (dsub (rightX seg) (rightX (tb_pos b))) acw
                   then trim_right b else maximum (trim_right b) (trim_right p)
    | _, _ => trim_right b
    end.
  Definition right_margin (prev : option tblock) (b : tblock) (l : bline) : double := dsub (block_border prev b) (rightX (bl_pos l)).

  Definition words_text (l : bline) : str := blank_separated (map (fun w => w_text (h w)) (bl_words l)).
  Definition finite_pos (p : position) : Prop :=
    is_fin (leftX p) = true /\ is_fin (upperY p) = true /\ is_fin (rightX p) = true /\ is_fin (lowerY p) = true.
  (** [b] is the block made from its lines. *)
  Definition block_of (lh : lheap) (b : tblock) : Prop :=
    exists l0 rest, tb_lines b = l0 :: rest /\
      tb_seg b = bl_seg (lh l0) /\ pageNum (tb_pos b) = pageNum (bl_pos (lh l0)) /\
      rotation (tb_pos b) = rotation (bl_pos (lh l0)) /\ wMode (tb_pos b) = wMode (bl_pos (lh l0)) /\
      tb_text b = blank_separated (map (fun l => words_text (lh l)) (tb_lines b)) /\
      ((forall l, In l (tb_lines b) -> finite_pos (bl_pos (lh l))) -> smallest_box (tb_pos b) (map (fun l => bl_pos (lh l)) (tb_lines b))) /\
      (let '(tl, tu, tr, tlo) := snd (bd_seg doc (tb_seg b)) in
       tb_trim b = (maximum (leftX (tb_pos b)) tl, maximum (upperY (tb_pos b)) tu, minimum (rightX (tb_pos b)) tr, minimum (lowerY (tb_pos b)) tlo)) /\
      ((N.of_nat (length (tb_lines b)) < 2 ^ 32)%N -> most_frequent str_eqb (tb_fontName b) (map (fun l => bl_fontName (lh l)) (tb_lines b)) /\
         ((forall l, In l (tb_lines b) -> is_nan_d (bl_fontSize (lh l)) = false) ->
          most_frequent deq (tb_fontSize b) (map (fun l => bl_fontSize (lh l)) (tb_lines b)))) /\
      (tb_emph b = true <-> emphasized (tb_text b) (tb_fontName b) (tb_fontSize b)) /\
      (tb_centered b = true <-> lines_centered lh (tb_lines b)).
  (** The blocks of a list are numbered from 0 on, refer to their neighbours, and are made from their lines. *)
  Definition good_blocks (lh : lheap) (bs : list tblock) : Prop :=
    forall i b, nth_error bs i = Some b ->
      tb_rank b = Z.of_nat i /\
      tb_prev b = match i with O => None | S j => Some j end /\
      tb_next b = (if S i =? length bs then None else Some (S i)) /\
      block_of lh b.
  (** The lines [lh'] refer to their neighbours in the blocks and have the margins w.r.t. these blocks. *)
  Definition lines_placed (lh lh' : lheap) (bs : list tblock) : Prop :=
    forall i b k l, nth_error bs i = Some b -> nth_error (tb_lines b) k = Some l ->
      bl_prev (lh' l) = elem_before (tb_lines b) k /\ bl_next (lh' l) = elem_after (tb_lines b) k /\
      bl_left (lh' l) = left_margin b (lh l) /\ bl_right (lh' l) = right_margin (elem_before bs i) b (lh l).

  (** ** Hanging indent *)
  (** A left margin of at least one average character width. *)
  Definition large_margins (lh : lheap) (ls : list nat) : list double :=
    filter (fun x => equalOrLarger x (dmul (dZ 1) acw) TOL) (map (fun l => bl_left (lh l)) ls).
  (** Lines with at least three bytes of text that are not (indented and) centered. *)
  Definition considered (l : bline) : bool :=
    (3 <=? N.of_nat (length (bl_text l)))%N &&
    negb (equal (bl_left l) (bl_right l) (dmul (dZ 1) acw) && larger (bl_left l) (dmul (dZ 1) acw) TOL).
  Definition at_margin (x : double) (l : bline) : bool := considered l && equal (bl_left l) x (dmul (dZ 1) acw).
  Definition starts_lower (l : bline) : bool := match bl_text l with c :: _ => (97 <=? nat_of_ascii c) && (nat_of_ascii c <=? 122) | [] => false end.
  Definition first_word_in (ts : list str) (l : bline) : bool :=
    match bl_words l with w :: _ => existsb (str_eqb (w_text (h w))) ts | [] => false end.
  Definition second_fits (lh : lheap) (l : bline) : bool :=
    match bl_prev l, bl_words l with
    | Some p, w :: _ => larger (bl_right (lh p)) (getWidth (w_pos (h w))) (dmul (dZ 2) acw)
    | _, _ => false
    end.
  (** The lines [ls] have the hanging indent [x]: more than half of the large margins are equal to [x]; some considered line
      has this margin; no considered line without an indent begins with a lower-case letter (except after "van", "von", "de");
      and (1) the first line has not this margin, the second one does not fit into the first, and all others have it, or (2) ten
      considered lines have no indent, or (3) there are at least four lines with three or more bytes and some line with this
      margin begins with a lower-case letter. *)
  Definition hanging_by (lh : lheap) (ls : list nat) (x : double) : Prop :=
    let bl := map lh ls in
    equalOrSmaller (dZ (Z.of_nat (occ deq x (large_margins lh ls)))) (dmul (dec 5 1) (dZ (Z.of_nat (length (large_margins lh ls))))) TOL = false /\
    existsb (at_margin x) bl = true /\
    existsb (fun l => at_margin dzero l && starts_lower l && negb (first_word_in [S_ "van"; S_ "von"; S_ "de"] l)) bl = false /\
    ((existsb (at_margin x) (firstn 1 bl) = false /\
      existsb (fun l => considered l && second_fits lh l) (firstn 1 (skipn 1 bl)) = false /\
      forallb (fun l => negb (considered l) || at_margin x l) (skipn 1 bl) = true) \/
     10 <= length (filter (at_margin dzero) bl) \/
     (4 <= length (filter (fun l => (3 <=? N.of_nat (length (bl_text l)))%N) bl) /\
      existsb (fun l => at_margin x l && starts_lower l) bl = true)).
  Definition hanging_indent (lh : lheap) (ls : list nat) (d : double) : Prop :=
    (large_margins lh ls = [] /\ d = dzero) \/
    exists x, most_frequent deq x (large_margins lh ls) /\ (hanging_by lh ls x -> d = x) /\ (~ hanging_by lh ls x -> d = dzero).

  (** ** Preliminary blocks *)
  (** [p] is mostly inside the figure [f]. *)
  Definition inside (p f : position) : Prop :=
    equalOrLarger (fst (computeXOverlapRatios p f)) (dec 5 1) TOL = true /\ equalOrLarger (fst (computeYOverlapRatios p f)) (dec 5 1) TOL = true.
  Definition first_figure (p : position) (fs : list position) (i : nat) : Prop :=
    (exists f, nth_error fs i = Some f /\ inside p f) /\ forall j f, j < i -> nth_error fs j = Some f -> ~ inside p f.
  Definition page_figures (n : Z) : list position := if (n <? 1)%Z then [] else nth (Z.to_nat (n - 1)) (bd_figures doc) [].
  Definition same_figure (p l : bline) : Prop :=
    exists i, first_figure (bl_pos p) (page_figures (pageNum (bl_pos l))) i /\ first_figure (bl_pos l) (page_figures (pageNum (bl_pos l))) i.
  (** The distance between two lines, rounded to one decimal, and the distance that lines with this font size usually have. *)
  Definition distance (p l : bline) : double := dround (computeVerticalGap (bl_pos p) (bl_pos l)) 1.
  Definition usual_distance (fs : double) : double :=
    maximum (match find (fun e => deq (fst e) fs) (bd_distPer doc) with Some (_, d) => maximum dzero d | None => dzero end) (bd_dist doc).
  (** Does [l] begin a preliminary block, if [p] is the line before it and [pp] the line before that (if there is one)? *)
  Definition preliminary_rules (pp : option bline) (p l : bline) : list (Prop * bool) :=
    [ (same_figure p l, false);
      (rotation (bl_pos p) <> rotation (bl_pos l), true);
      (wMode (bl_pos p) <> wMode (bl_pos l), true);
      (~ same_fs (bl_fontSize p) (bl_fontSize l) /\ ~ same_fs (bl_maxFontSize p) (bl_maxFontSize l), true);
      (equalOrSmaller (distance p l) dzero TOL = true, false);
      (larger (distance p l) (usual_distance (bl_fontSize l)) (maximum (dZ 1) (dmul (dec 1 1) (usual_distance (bl_fontSize l)))) = true, true);
      (match pp with Some pp => larger (distance p l) (distance pp p) (dmul (dec 5 1) (bd_wordHeight doc)) = true | None => False end, true) ].

  (** ** Blocks *)
  (** The first word of [l] fits into the rest of the line [p]. *)
  Definition fits_into (p l : bline) : Prop :=
    match bl_words l with w :: _ => larger (bl_right p) (getWidth (w_pos (h w))) (dmul (dZ 2) acw) = true | [] => False end.
  (** [p] is the text before the first NUL of [t] (all of [t], if there is none). *)
  Definition up_to_nul (t p : str) : Prop :=
    ~ In "000"%char p /\ (t = p \/ exists r, t = p ++ "000"%char :: r).
  (** "*∗abcdefghijklmnopqrstuvwxyz01234567890()", in UTF-8. *)
  Definition ITEM_ALPHABET : str :=
    map ascii_of_nat [42; 226; 136; 151] ++ S_ "abcdefghijklmnopqrstuvwxyz" ++ S_ "01234567890()".
  (** The line begins with a superscript whose text is a part of this alphabet, or one of the patterns matches. *)
  Definition item_label (l : bline) : Prop :=
    match bl_words l with
    | w :: _ => match w_chars (h w) with
                | c :: _ => (c_isSuper c = true /\ exists p x y, up_to_nul (c_text c) p /\ ITEM_ALPHABET = x ++ p ++ y) \/ label_regex (bl_text l) = true
                | [] => False
                end
    | [] => False
    end.
  (** [p] is the text of the leading superscripts; the leading superscripts of the line are one of the labels seen so far (resp. not empty). *)
  Definition leading_superscripts (cs : list character) (p : str) : Prop :=
    exists pre rest, cs = pre ++ rest /\ (forall c, In c pre -> c_isSuper c = true) /\
      (match rest with c :: _ => c_isSuper c = false | [] => True end) /\ p = concat (map c_text pre).
  Definition footnote_label (labels : option (list str)) (l : bline) : Prop :=
    match bl_words l with
    | w :: _ => exists p, leading_superscripts (w_chars (h w)) p /\ match labels with Some s => In p s | None => p <> [] end
    | [] => False
    end.
  (** [s] begins with an item label in the same font as [l]. *)
  Definition item_sibling (lh : lheap) (s : option nat) (l : bline) : Prop :=
    match s with
    | Some s => item_label (lh s) /\ exists v w r r', bl_words (lh s) = v :: r /\ bl_words l = w :: r' /\
                  w_fontName (h v) = w_fontName (h w) /\ same_fs (w_fontSize (h v)) (w_fontSize (h w))
    | None => False
    end.
  (** [l] runs on the text of the line [p] before it. *)
  Definition runs_on (p l : bline) : Prop :=
    ~ item_label p /\ bl_fontName p = bl_fontName l /\ same_fs (bl_fontSize p) (bl_fontSize l) /\
    equalOrSmaller (computeVerticalGap (bl_pos p) (bl_pos l)) dzero TOL = true /\
    endsWithSentenceDelimiter (bl_text p) SENTENCE_DELIMITERS = false /\ equal (leftX (bl_pos p)) (leftX (bl_pos l)) acw = true.
  Definition begins_item (lh : lheap) (labels : option (list str)) (l : bline) : Prop :=
    (item_label l \/ footnote_label labels l) /\
    ~ (exists p, bl_prev l = Some p /\ runs_on (lh p) l) /\
    (item_sibling lh (bl_prevSib l) l \/ item_sibling lh (bl_nextSib l) l \/ footnote_label labels l).
  (** Some ancestor of the line begins an item. *)
  Inductive continues_item (lh : lheap) (labels : option (list str)) : bline -> Prop :=
  | ci_parent l p : bl_parent l = Some p -> begins_item lh labels (lh p) -> continues_item lh labels l
  | ci_up l p : bl_parent l = Some p -> continues_item lh labels (lh p) -> continues_item lh labels l.
  Definition slightly_indented (p l : bline) : Prop :=
    between (dsub (leftX (bl_pos p)) (leftX (bl_pos l))) (dmul (dZ (-1)) acw) (dmul (dZ 6) acw) TOL = true.
  Definition both_emphasized (p l : bline) : Prop :=
    emphasized (bl_text p) (bl_fontName p) (bl_fontSize p) /\ emphasized (bl_text l) (bl_fontName l) (bl_fontSize l) /\
    bl_fontName p = bl_fontName l /\ same_fs (bl_fontSize p) (bl_fontSize l).
  (** Does [l] begin a block, if [p] is the line before it in the preliminary block [b]? [labels]: the footnote labels seen so
      far. *)
  Definition block_rules (lh : lheap) (labels : list str) (b : tblock) (p l : bline) : list (Prop * bool) :=
    let F := begins_item lh (Some labels) in let C := continues_item lh (Some labels) in
    let hi := tb_hang b in let hanging := equalOrSmaller hi dzero TOL = false in
    [ (tb_centered b = true /\ begins_item lh None l, true);
      (tb_centered b = true, false);
      (F l, true);
      (C l /\ fits_into p l, true);
      (C l /\ F p, false);
      (C l /\ C p /\ slightly_indented p l, false);
      (C l /\ C p, true);
      (C l, false);
      ((F p \/ C p) /\ fits_into p l, true);
      ((F p \/ C p) /\ endsWithSentenceDelimiter (bl_text p) SENTENCE_DELIMITERS = false /\ startsWithUpper (bl_text l) = false, false);
      (both_emphasized p l, false);
      (hanging /\ smaller (bl_left l) hi acw = true, true);
      (hanging /\ equal (bl_left l) hi acw = true /\ larger (bl_left p) hi acw = true /\ slightly_indented p l, false);
      (hanging /\ equal (bl_left l) hi acw = true /\ larger (bl_left p) hi acw = true, true);
      (hanging /\ equal (bl_left l) hi acw = true /\ fits_into p l, true);
      (hanging /\ equal (bl_left l) hi acw = true, false);
      (hanging /\ larger (bl_left l) hi acw = true /\ larger (bl_left p) hi acw = true /\ slightly_indented p l, false);
      (hanging /\ larger (bl_left l) hi acw = true, true);
      (hanging, false);
      (larger (bl_left l) (dmul (dZ 6) acw) TOL = true /\ tight_left (bl_pos p) (bl_pos l), false);
      (larger (bl_left l) (dmul (dZ 6) acw) TOL = true, true);
      (larger (bl_left p) (dmul (dZ 6) acw) TOL = true /\ tight_left (bl_pos p) (bl_pos l), false);
      (larger (bl_left p) (dmul (dZ 6) acw) TOL = true, true);
      (between (bl_left l) (dmul (dZ 1) acw) (dmul (dZ 6) acw) TOL = true, true);
      (fits_into p l, true) ].

  (** The lines while blocks are being split: those in [done] are in their final state, the others in the one before. *)
  Definition mixed (done : list nat) (lh1 lh2 : lheap) : lheap :=
    fun j => if existsb (Nat.eqb j) done then lh2 j else lh1 j.
  (** ** Potential footnote labels *)
  (** A character that can be part of a footnote label: its first byte is a byte of the alphabet, or it is a superscript that
      begins with a letter or a digit. *)
  (** The bytes of "*∗†‡§‖¶?" in UTF-8. *)
  Definition FOOTNOTE_BYTES : list nat := [42; 226; 136; 151; 226; 128; 160; 226; 128; 161; 194; 167; 226; 128; 150; 194; 182; 63].
  Definition label_char (c : character) : Prop :=
    exists b r, c_text c = b :: r /\
      (In (nat_of_ascii b) FOOTNOTE_BYTES \/ (c_isSuper c = true /\ (letter b \/ 48 <= nat_of_ascii b <= 57))).
  Definition with_text (c : character) : bool := match c_text c with [] => false | _ :: _ => true end.
  (** The labels in a word: behind the first character that is no sub- or superscript, the maximal sequences of such characters
      (characters without text do not count). *)
  Definition label_of (cs : list character) (label : str) : Prop :=
    exists scripts c rest pre run post, cs = scripts ++ c :: rest /\
      (forall s, In s scripts -> c_isSub s = true \/ c_isSuper s = true) /\ c_isSub c = false /\ c_isSuper c = false /\
      filter with_text rest = pre ++ run ++ post /\ run <> [] /\ (forall r, In r run -> label_char r) /\
      (pre = [] \/ exists p d, pre = p ++ [d] /\ ~ label_char d) /\ (post = [] \/ exists d p, post = d :: p /\ ~ label_char d) /\
      label = concat (map c_text run).
  (** The footnote labels in the given lines. *)
  Definition labels_in (lh : lheap) (ls : list nat) : list str :=
    flat_map (fun l => flat_map (fun w => word_labels (w_chars (h w)) [] false) (bl_words (lh l))) ls.
End Spec.
