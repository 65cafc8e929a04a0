(** RolesSpec.v - vocabulary for the statements about the prediction of semantic roles (C37, C62, C63). *)
From Coq Require Import ZArith NArith Reals.
From Flocq Require Import Core IEEE754.BinarySingleNaN.
From Verif Require Import Base Double Float UtilsSpec Bpe BpeSpec Elements Roles.

(** ** Arg-max *)
(** [r] is the role number for the probabilities [row]: the first index with the maximal probability, 0 if no probability
    is positive. (Comparisons as in C++: false if a number is not a number.) *)
Definition chosen (row : list float) (r : nat) : Prop :=
  (forall v, In v row -> flt fzero v = false) /\ r = 0 \/
  exists v, nth_error row r = Some v /\ flt fzero v = true /\
    (forall w, In w row -> flt v w = false) /\
    (forall j w, j < r -> nth_error row j = Some w -> flt w v = true \/ is_nan w = true).
(** The row of block [i] in a table with [n] columns. *)
Definition row {A} (data : list A) (n i : nat) : list A := firstn n (skipn (i * n) data).

(** ** Vocabulary files *)
Definition no_char (c : N) (s : wstr) : Prop := ~ In c s.
(** The file consists of the lines [ls], each terminated by a newline, followed by an unterminated rest. *)
Definition has_lines (s : wstr) (ls : list wstr) (rest : wstr) : Prop :=
  s = concat (map (fun l => l ++ [10%N]) ls) ++ rest /\ Forall (no_char 10) ls /\ no_char 10 rest.
(** Decimal value of a sequence of digits, most significant first. *)
Fixpoint decimal (ds : list N) : Z :=
  match ds with [] => 0 | d :: t => (Z.of_N d - 48) * 10 ^ Z.of_nat (length t) + decimal t end%Z.
Definition digit (c : N) : Prop := (48 <= c <= 57)%N.
(** [s] starts with a decimal integer of value [z], possibly after white space and a sign. *)
Definition reads (s : wstr) (z : Z) : Prop :=
  exists sp sg ds rest, s = sp ++ sg ++ ds ++ rest /\ Forall (fun c => In c [9; 10; 11; 12; 13; 32]%N) sp /\
    ds <> [] /\ Forall digit ds /\ (match rest with c :: _ => ~ digit c | [] => True end) /\
    (sg = [] /\ z = decimal ds \/ sg = [43%N] /\ z = decimal ds \/ sg = [45%N] /\ z = (- decimal ds)%Z).
Definition is_int (z : Z) : Prop := (- 2 ^ 31 <= z < 2 ^ 31)%Z.
(** A line: no tab (ignored), or a token, a tab and a number. *)
Inductive line_entry : wstr -> option (wstr * Z) -> Prop :=
| le_skip l : no_char 9 l -> line_entry l None
| le_entry t num z : no_char 9 t -> reads num z -> is_int z -> line_entry (t ++ 9%N :: num) (Some (t, z)).
(** The first (last) entry for a key. *)
Definition first_for {K V} (k : K) (es : list (K * V)) (v : V) : Prop :=
  exists pre post, es = pre ++ (k, v) :: post /\ forall v', ~ In (k, v') pre.
Definition last_for {K V} (k : K) (es : list (K * V)) (v : V) : Prop :=
  exists pre post, es = pre ++ (k, v) :: post /\ forall v', ~ In (k, v') post.
Fixpoint some_list {A} (l : list (option A)) : list A :=
  match l with [] => [] | Some a :: t => a :: some_list t | None :: t => some_list t end.
Fixpoint lookup_role (k : Z) (m : list (Z * wstr)) : option wstr :=
  match m with [] => None | (k', r) :: t => if (k =? k')%Z then Some r else lookup_role k t end.

(** ** Layout features *)
Definition value (v : float) : R := B2R v.
Definition near (eps : R) (v : float) (x : R) : Prop := is_finite v = true /\ (Rabs (value v - x) <= eps)%R.
Definition yes_no (v : float) (P : Prop) : Prop := (value v = 1%R /\ P) \/ (value v = 0%R /\ ~ P).
(** Number of characters satisfying a decidable property, given as the set of code units. *)
Definition holds_n (P : N -> Prop) (s : wstr) (n : nat) : Prop :=
  exists l, (forall i, In i l <-> exists c, nth_error s i = Some c /\ P c) /\ NoDup l /\ length l = n.
Definition upper_letter (c : N) : Prop := (65 <= c <= 90)%N.
Definition white (c : N) : Prop := In c [9; 10; 11; 12; 13; 32]%N.
Definition punctuation (c : N) : Prop := (33 <= c <= 126)%N /\ ~ digit c /\ ~ upper_letter c /\ ~ (97 <= c <= 122)%N.
(** What the code takes for a non-ASCII character: the low byte of the code unit is above 127. *)
Definition low_byte_high (c : N) : Prop := (128 <= c mod 256)%N.
(** [v] is the share of [P]-characters among the characters that are not white space, up to 2^-24. *)
Definition is_share (v : float) (P : N -> Prop) (text : wstr) : Prop :=
  exists n m, holds_n P text n /\ holds_n (fun c => ~ white c) text m /\
    (m = 0 /\ value v = 0%R \/ m <> 0 /\ near (bpow radix2 (-24)) v (INR n / INR m)).
(** [v] is the share of words starting with an upper-case letter, up to 2^-24. *)
Definition is_word_share (v : float) (words : list wstr) : Prop :=
  exists l, (forall i, In i l <-> exists c w, nth_error words i = Some (c :: w) /\ upper_letter c) /\ NoDup l /\
    (words = [] /\ value v = 0%R \/ words <> [] /\ near (bpow radix2 (-24)) v (INR (length l) / INR (length words))).
(** The font size [fs] on the scale from the smallest ([lo]) to the largest ([hi]) font size of the document. *)
Definition is_scaled (v : float) (fs lo hi : R) : Prop :=
  (lo = hi /\ value v = 0%R) \/ (lo <> hi /\ near (1 / 500) v ((fs - lo) / (hi - lo))).
(** [v] is the coordinate [x] on the scale from 0 to the extent [w] of the page, up to 2^-20. *)
Definition is_position (v : float) (x w : R) : Prop := near (bpow radix2 (-20)) v (x / w).

(** The 15 features of a block [b] of page [p] (origin in the lower left corner), for a document with [numPages] pages whose
    font sizes range from [lo] to [hi]; [fs] is the font size of the block, [text] and [words] are its text and words. *)
Definition features (numPages : Z) (lo hi fs : R) (p : rpage) (b : rblock) (weight : Z) (italic : bool)
    (text : wstr) (words : list wstr) (vs : list float) : Prop :=
  let w := (B2R (rp_rightX p) - B2R (rp_leftX p))%R in
  let h := (B2R (rp_lowerY p) - B2R (rp_upperY p))%R in
  match vs with
  | [pn; x1; y1; x2; y2; size; bold; it; at_; d1; pd; pa; pp; pw; pu] =>
      (numPages = 1%Z /\ value pn = 0%R \/
       (1 < numPages)%Z /\ near (bpow radix2 (-24)) pn (IZR (pageNum (rb_pos b) - 1) / IZR (numPages - 1))) /\
      is_position x1 (B2R (leftX (rb_pos b))) w /\ is_position y1 (h - B2R (lowerY (rb_pos b))) h /\
      is_position x2 (B2R (rightX (rb_pos b))) w /\ is_position y2 (h - B2R (upperY (rb_pos b))) h /\
      is_scaled size fs lo hi /\ yes_no bold (500 < weight)%Z /\ yes_no it (italic = true) /\
      yes_no at_ (In 64%N text) /\ yes_no d1 (exists c t, text = c :: t /\ digit c) /\
      is_share pd digit text /\ is_share pa low_byte_high text /\ is_share pp punctuation text /\
      is_word_share pw words /\ is_share pu upper_letter text
  | _ => False
  end.

(** The documents for which the features are meaningful: known fonts, decodable texts of less than 2^24 characters (words),
    words starting with a character below U+0100, pages between 1 and 2^20 units wide and high, blocks near their page. *)
Definition near_page (x w : R) : Prop := (Rabs x <= 4 * w)%R.
Definition finite4 (a b c d : double) : Prop := is_fin a = true /\ is_fin b = true /\ is_fin c = true /\ is_fin d = true.
Definition usual_block (from : str -> option wstr) (fonts : str -> option (Z * bool)) (numPages : Z) (p : rpage) (b : rblock) : Prop :=
  let w := (B2R (rp_rightX p) - B2R (rp_leftX p))%R in
  let h := (B2R (rp_lowerY p) - B2R (rp_upperY p))%R in
  finite4 (rp_leftX p) (rp_upperY p) (rp_rightX p) (rp_lowerY p) /\ (1 <= w <= bpow radix2 20)%R /\ (1 <= h <= bpow radix2 20)%R /\
  finite4 (leftX (rb_pos b)) (upperY (rb_pos b)) (rightX (rb_pos b)) (lowerY (rb_pos b)) /\
  near_page (B2R (leftX (rb_pos b))) w /\ near_page (B2R (rightX (rb_pos b))) w /\
  near_page (B2R (upperY (rb_pos b))) h /\ near_page (B2R (lowerY (rb_pos b))) h /\
  (1 <= pageNum (rb_pos b) <= numPages)%Z /\
  (exists i, fonts (rb_fontName b) = Some i) /\
  (exists t, from (rb_text b) = Some t /\ (N.of_nat (length t) < 2 ^ 24)%N) /\
  (N.of_nat (length (rb_words b)) < 2 ^ 24)%N /\
  (forall s, In s (rb_words b) -> exists t, from s = Some t /\ match t with c :: _ => (c < 256)%N | [] => True end).
(** [k] tenths of a point. *)
Definition size_tenths (d : double) (k : Z) : Prop := (1 <= k <= 2560)%Z /\ is_fin d = true /\ B2R d = Generic_fmt.round radix2 (SpecFloat.fexp 53 1024) ZnearestE (IZR k / 10).
(** The blocks of a document, with their pages, in document order. *)
Definition blocks_of (pages : list rpage) : list (rpage * rblock) := concat (map (fun p => map (fun b => (p, b)) (rp_blocks p)) pages).
(** [lo] and [hi] tenths are the smallest and the largest font size of the document. *)
Definition size_range (pages : list rpage) (lo hi : Z) : Prop :=
  (exists p b, In (p, b) (blocks_of pages) /\ size_tenths (rb_fontSize b) lo) /\
  (exists p b, In (p, b) (blocks_of pages) /\ size_tenths (rb_fontSize b) hi) /\
  forall p b k, In (p, b) (blocks_of pages) -> size_tenths (rb_fontSize b) k -> (lo <= k <= hi)%Z.

(** ** Word ids *)
(** The ids of a text: the byte pair encodings of its words, cut or padded to 100 ids. *)
Definition text_ids (v : vocabulary) (text : wstr) (ids : list Z) : Prop :=
  exists words idss pad, tokenised wdelim text words /\ Forall2 (encodes (new_encoder v)) words idss /\
    lookup PADDING_SYMBOL (new_encoder v) = Some pad /\ ids = firstn 100 (concat idss ++ repeat pad 100).
