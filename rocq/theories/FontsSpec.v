(** FontsSpec.v - what the Adobe Type 1 font format says, as far as the properties of fonts need it. Independent of the model in
    Fonts.v, except for its notion of a byte's value and of the lower case letter of a character. *)
From Coq Require Import ZArith Reals.
From Verif Require Import Base Double Fonts.
Open Scope Z_scope.

(** ** Encryption (Adobe Type 1 Font Format, chapter 7) *)
Fixpoint encrypt (r : Z) (plain : str) : str :=
  match plain with
  | [] => []
  | p :: t => let c := Z.lxor (byte p) (r / 256) in to_char c :: encrypt (((c + r) * 52845 + 22719) mod 65536) t
  end.
(** The sequence of keys while a text is encrypted. *)
Fixpoint keys (r : Z) (plain : str) : list (Z * Z) :=
  match plain with
  | [] => []
  | p :: t => let c := Z.lxor (byte p) (r / 256) in (c, r) :: keys (((c + r) * 52845 + 22719) mod 65536) t
  end.

(** The 32-bit arithmetic of the key schedule doesn't overflow in the state (cipher byte, key). *)
Definition in_key (cr : Z * Z) : Prop := (fst cr + snd cr) * 52845 + 22719 <= 2 ^ 31 - 1.

(** ** Charstrings (chapter 6) *)
Inductive cs_op :=
| Hstem | Vstem | Vmoveto | Rlineto | Hlineto | Vlineto | Rrcurveto | Closepath | Callsubr | Return | Hsbw | Endchar
| Rmoveto | Hmoveto | Vhcurveto | Hvcurveto
| Dotsection | Vstem3 | Hstem3 | Seac | Sbw | Div | Callothersubr | Pop | Setcurrentpoint.
Inductive token := Number (z : Z) | Op (o : cs_op).
(** The bytes of the operators. *)
Definition op_bytes (o : cs_op) : list Z :=
  match o with
  | Hstem => [1] | Vstem => [3] | Vmoveto => [4] | Rlineto => [5] | Hlineto => [6] | Vlineto => [7] | Rrcurveto => [8]
  | Closepath => [9] | Callsubr => [10] | Return => [11] | Hsbw => [13] | Endchar => [14]
  | Rmoveto => [21] | Hmoveto => [22] | Vhcurveto => [30] | Hvcurveto => [31]
  | Dotsection => [12; 0] | Vstem3 => [12; 1] | Hstem3 => [12; 2] | Seac => [12; 6] | Sbw => [12; 7] | Div => [12; 12]
  | Callothersubr => [12; 16] | Pop => [12; 17] | Setcurrentpoint => [12; 33]
  end.
(** The ways to write a number. *)
Inductive number_bytes : Z -> list Z -> Prop :=
| Num_1 z : -107 <= z <= 107 -> number_bytes z [z + 139]
| Num_pos v b : 247 <= v <= 250 -> 0 <= b <= 255 -> number_bytes ((v - 247) * 256 + b + 108) [v; b]
| Num_neg v b : 251 <= v <= 254 -> 0 <= b <= 255 -> number_bytes (- ((v - 251) * 256) - b - 108) [v; b]
| Num_5 z b1 b2 b3 b4 : 0 <= b1 <= 255 -> 0 <= b2 <= 255 -> 0 <= b3 <= 255 -> 0 <= b4 <= 255 -> - 2 ^ 31 <= z < 2 ^ 31 ->
    z mod 2 ^ 32 = b1 * 2 ^ 24 + b2 * 2 ^ 16 + b3 * 2 ^ 8 + b4 -> number_bytes z [255; b1; b2; b3; b4].
Inductive charstring : list token -> list Z -> Prop :=
| Cs_nil : charstring [] []
| Cs_number z bs ts rest : number_bytes z bs -> charstring ts rest -> charstring (Number z :: ts) (bs ++ rest)
| Cs_op o ts rest : charstring ts rest -> charstring (Op o :: ts) (op_bytes o ++ rest).
Definition bytes_of (s : str) : list Z := map byte s.

(** A point, and a piece of the outline. *)
Definition point := (Z * Z)%type.
Inductive piece := Line (p q : point) | Curve (p a b q : point).
(** The state of the interpreter: operands (the last one first), PostScript stack, current point, the points the path operators
    went to or used as control points (the latest first), the pieces drawn. *)
Record machine := mkM { m_stack : list Z; m_ps : list Z; m_at : point; m_seen : list point; m_drawn : list piece }.
Definition m_start : machine := mkM [] [] (0, 0) [] [].
Definition shift (p : point) (dx dy : Z) : point := (fst p + dx, snd p + dy).
Definition go (stack : list Z) (p : point) (m : machine) : machine := mkM stack (m_ps m) p (p :: m_seen m) (m_drawn m).
Definition line (stack : list Z) (p : point) (m : machine) : machine :=
  mkM stack (m_ps m) p (p :: m_seen m) (Line (m_at m) p :: m_drawn m).
Definition curve (stack : list Z) (a b p : point) (m : machine) : machine :=
  mkM stack (m_ps m) p (p :: b :: a :: m_seen m) (Curve (m_at m) a b p :: m_drawn m).
Definition drop (n : nat) (m : machine) : option machine :=
  if (n <=? length (m_stack m))%nat then Some (mkM (skipn n (m_stack m)) (m_ps m) (m_at m) (m_seen m) (m_drawn m)) else None.
(** One operator. [None]: the charstring is malformed (too few operands, or a division by zero). Division is rounded towards
    zero (the format says: exact). *)
Definition apply_op (o : cs_op) (m : machine) : option machine :=
  match o, m_stack m with
  | (Hstem | Vstem), _ => drop 2 m
  | (Hstem3 | Vstem3), _ => drop 6 m
  | Seac, _ => drop 5 m
  | (Closepath | Dotsection), _ => Some m
  | Vmoveto, dy :: st => Some (go st (shift (m_at m) 0 dy) m)
  | Hmoveto, dx :: st => Some (go st (shift (m_at m) dx 0) m)
  | Rmoveto, dy :: dx :: st => Some (go st (shift (m_at m) dx dy) m)
  | Vlineto, dy :: st => Some (line st (shift (m_at m) 0 dy) m)
  | Hlineto, dx :: st => Some (line st (shift (m_at m) dx 0) m)
  | Rlineto, dy :: dx :: st => Some (line st (shift (m_at m) dx dy) m)
  | Rrcurveto, dy3 :: dx3 :: dy2 :: dx2 :: dy1 :: dx1 :: st =>
      let a := shift (m_at m) dx1 dy1 in let b := shift a dx2 dy2 in Some (curve st a b (shift b dx3 dy3) m)
  | Vhcurveto, dx3 :: dy2 :: dx2 :: dy1 :: st =>
      let a := shift (m_at m) 0 dy1 in let b := shift a dx2 dy2 in Some (curve st a b (shift b dx3 0) m)
  | Hvcurveto, dy3 :: dy2 :: dx2 :: dx1 :: st =>
      let a := shift (m_at m) dx1 0 in let b := shift a dx2 dy2 in Some (curve st a b (shift b 0 dy3) m)
  | Hsbw, _ :: sbx :: st => Some (go st (sbx, 0) m)
  | Sbw, _ :: _ :: sby :: sbx :: st => Some (go st (sbx, sby) m)
  | Setcurrentpoint, y :: x :: st => Some (go st (x, y) m)
  | Div, b :: a :: st => if b =? 0 then None else Some (mkM (Z.quot a b :: st) (m_ps m) (m_at m) (m_seen m) (m_drawn m))
  (* callothersubr: the end of a flex (0) leaves the end point, its beginning (1) nothing, a hint replacement (3) its
     subroutine number; any other procedure leaves its arguments *)
  | Callothersubr, 0 :: _ :: y :: x :: _ :: st => Some (mkM st [x; y] (m_at m) (m_seen m) (m_drawn m))
  | Callothersubr, 1 :: _ :: st => Some (mkM st [] (m_at m) (m_seen m) (m_drawn m))
  | Callothersubr, 3 :: _ :: a :: st => Some (mkM st [a] (m_at m) (m_seen m) (m_drawn m))
  | Callothersubr, p :: n :: st =>
      if (p =? 0) || (p =? 1) || (p =? 3) || negb (n <=? Z.of_nat (length st)) then None
      else Some (mkM (skipn (Z.to_nat n) st) (rev (firstn (Z.to_nat n) st)) (m_at m) (m_seen m) (m_drawn m))
  | Pop, _ => match m_ps m with v :: ps => Some (mkM (v :: m_stack m) ps (m_at m) (m_seen m) (m_drawn m)) | [] => None end
  | _, _ => None
  end.
Definition int_range (z : Z) : Prop := - 2 ^ 31 <= z < 2 ^ 31.
Definition in_range (m : machine) : Prop :=
  Forall int_range (m_stack m) /\ Forall (fun p => int_range (fst p) /\ int_range (snd p)) (m_seen m).
(** Executing a charstring, with the subroutines [subrs]: there is a derivation if and only if the execution ends, without an
    error and without leaving the range of 32-bit numbers. "return" and "endchar" come last. *)
Inductive exec (subrs : Z -> option (list token)) : list token -> machine -> machine -> Prop :=
| X_nil m : exec subrs [] m m
| X_number z ts m m' :
    exec subrs ts (mkM (z :: m_stack m) (m_ps m) (m_at m) (m_seen m) (m_drawn m)) m' -> exec subrs (Number z :: ts) m m'
| X_op o ts m m1 m' :
    o <> Callsubr -> o <> Return -> o <> Endchar -> apply_op o m = Some m1 -> in_range m1 -> exec subrs ts m1 m' ->
    exec subrs (Op o :: ts) m m'
| X_call i body st ts m m1 m' :
    m_stack m = i :: st -> subrs i = Some body -> exec subrs body (mkM st (m_ps m) (m_at m) (m_seen m) (m_drawn m)) m1 ->
    exec subrs ts m1 m' -> exec subrs (Op Callsubr :: ts) m m'
| X_return m : exec subrs [Op Return] m m
| X_endchar m : exec subrs [Op Endchar] m m.

(** A glyph program sets the side bearing (hsbw or sbw) before it does anything else; the operands may be quotients. *)
Definition begins_with_sidebearing (ts : list token) : Prop :=
  exists pre o rest, ts = pre ++ Op o :: rest /\ (o = Hsbw \/ o = Sbw) /\ forall t, In t pre -> t = Op Div \/ exists z, t = Number z.

(** The smallest box around some points. *)
Definition tight_box (b : box) (ps : list point) : Prop :=
  let '(l, u, r, d) := b in
  (forall x y, In (x, y) ps -> l <= x <= r /\ u <= y <= d) /\
  (exists y, In (l, y) ps) /\ (exists y, In (r, y) ps) /\ (exists x, In (x, u) ps) /\ (exists x, In (x, d) ps).

(** The points of a piece of the outline: the segment, or the cubic Bezier curve. *)
Open Scope R_scope.
Definition on_line (p q t : R) : R := (1 - t) * p + t * q.
Definition on_curve (p a b q t : R) : R :=
  (1 - t) * (1 - t) * (1 - t) * p + 3 * t * (1 - t) * (1 - t) * a + 3 * t * t * (1 - t) * b + t * t * t * q.
Definition piece_x (c : piece) (t : R) : R :=
  match c with
  | Line p q => on_line (IZR (fst p)) (IZR (fst q)) t
  | Curve p a b q => on_curve (IZR (fst p)) (IZR (fst a)) (IZR (fst b)) (IZR (fst q)) t
  end.
Definition piece_y (c : piece) (t : R) : R :=
  match c with
  | Line p q => on_line (IZR (snd p)) (IZR (snd q)) t
  | Curve p a b q => on_curve (IZR (snd p)) (IZR (snd a)) (IZR (snd b)) (IZR (snd q)) t
  end.
Definition box_contains (b : box) (x y : R) : Prop :=
  let '(l, u, r, d) := b in IZR l <= x <= IZR r /\ IZR u <= y <= IZR d.

(** ** Texts *)
Open Scope Z_scope.
(** The first occurrence of [p] in [s] is behind [a] and before [b]. *)
Definition first_at (p s a b : str) : Prop := s = a ++ p ++ b /\ forall a' b', s = a' ++ p ++ b' -> (length a <= length a')%nat.
Definition absent (p s : str) : Prop := forall a b, s <> a ++ p ++ b.
Definition digit (c : ascii) : Prop := 48 <= byte c <= 57.
Definition white (c : ascii) : Prop := 9 <= byte c <= 13 \/ byte c = 32.
(** A number written with decimal digits. *)
Definition decimal_value (ds : str) : Z := fold_left (fun v c => 10 * v + (byte c - 48)) ds 0.
Definition decimal (ds : str) (n : Z) : Prop := ds <> [] /\ Forall digit ds /\ decimal_value ds = n.

(** The heads of the entries of the subroutine table and of the table of glyph programs: "dup 4 21 RD " and "/eacute 60 RD ". *)
Inductive subr_head : str -> Z -> Z -> Prop :=
| Subr_head s1 s2 s3 s4 ds1 ds2 i n : white s1 -> white s2 -> white s3 -> white s4 -> decimal ds1 i -> decimal ds2 n ->
    subr_head (S_ "dup" ++ [s1] ++ ds1 ++ [s2] ++ ds2 ++ [s3] ++ S_ "RD" ++ [s4]) i n.
Inductive glyph_head : str -> str -> Z -> Prop :=
| Glyph_head name ws s3 s4 ds n : name <> [] -> Forall (fun c => ~ white c) name -> ws <> [] -> Forall white ws -> white s3 -> white s4 ->
    decimal ds n -> glyph_head (S_ "/" ++ name ++ ws ++ ds ++ [s3] ++ S_ "RD" ++ [s4]) name n.
(** A table: heads, each followed by its binary data of the given length; between them, and within the binary data, there is nothing
    that looks like a head. *)
Section Table.
  Context {A : Type} (head : str -> A -> Z -> Prop).
  Definition quiet (text behind : str) : Prop :=
    forall a b h x n r, text = a ++ b -> b <> [] -> head h x n -> b ++ behind <> h ++ r.
  Inductive table : str -> list (A * str) -> Prop :=
  | Table_end text : quiet text [] -> table text []
  | Table_entry junk h x data rest es : quiet junk (h ++ data ++ rest) -> head h x (Z.of_nat (length data)) ->
      Z.of_nat (length data) < 2 ^ 31 -> table (data ++ rest) es -> table (junk ++ h ++ data ++ rest) ((x, data) :: es).
End Table.
(** A charstring as it is stored: encrypted, behind [lenIV] arbitrary bytes. *)
Definition stored (lenIV : Z) (data : str) (ts : list token) : Prop :=
  exists iv cs, length iv = Z.to_nat lenIV /\ charstring ts (bytes_of cs) /\ data = encrypt 4330 (iv ++ cs).

(** ** Encodings of the encrypted part *)
Definition hex_digit (c : ascii) : Prop := 48 <= byte c <= 57 \/ 65 <= byte c <= 70 \/ 97 <= byte c <= 102.
(** A little endian 32-bit number (the length in the header of a PFB segment). *)
Definition declared (b0 b1 b2 b3 : ascii) : Z := byte b0 + byte b1 * 2 ^ 8 + byte b2 * 2 ^ 16 + byte b3 * 2 ^ 24.

(** ** The private part of a font *)
(** The length of the random prefix of the charstrings: 4, unless the text says something else. *)
Definition states_lenIV (d : str) (lenIV : Z) : Prop :=
  (absent (S_ "/lenIV ") d /\ lenIV = 4) \/
  exists a t num b, first_at (S_ "/lenIV ") d a t /\ first_at (S_ " ") t num b /\ decimal num lenIV /\ lenIV < 2 ^ 31.
(** A glyph program that can be executed with the subroutines [subrs]; [m] is the state at its end. *)
Definition glyph_ok (lenIV : Z) (subrs : Z -> option (list token)) (data : str) (ts : list token) (m : machine) : Prop :=
  stored lenIV data ts /\ exec subrs ts m_start m /\ begins_with_sidebearing ts.
(** The private part of a font: the table of subroutines behind "/Subrs", up to "ND"; the table of glyph programs behind
    "/CharStrings". [ss], [gs]: the entries of the tables. *)
Definition private_part (d : str) (lenIV : Z) (ss : list (Z * str)) (gs : list (str * str)) : Prop :=
  states_lenIV d lenIV /\
  (exists a t sub b, first_at (S_ "/Subrs") d a t /\ first_at (S_ "ND") t sub b /\ table subr_head sub ss) /\
  (exists a chars, first_at (S_ "/CharStrings") d a chars /\ table glyph_head chars gs /\ exists x y, chars = x ++ S_ "end" ++ y).
(** The entries are charstrings; the glyph programs call subroutines of the table only. *)
Definition font_ok (lenIV : Z) (ss : list (Z * str)) (gs : list (str * str)) (subrs : Z -> option (list token)) : Prop :=
  NoDup (map fst ss) /\ (forall i data, In (i, data) ss -> i < 2 ^ 31 /\ exists ts, stored lenIV data ts) /\
  (forall i body, subrs i = Some body -> exists data, In (i, data) ss /\ stored lenIV data body) /\
  NoDup (map fst gs) /\ (forall name data, In (name, data) gs -> exists ts m, glyph_ok lenIV subrs data ts m).
(** Everything but the boxes. *)
Definition same_font (f g : font) : Prop :=
  f_name f = f_name g /\ f_norm f = f_norm g /\ f_base f = f_base g /\ f_fixed f = f_fixed g /\ f_serif f = f_serif g /\
  f_symbolic f = f_symbolic g /\ f_type3 f = f_type3 g /\ f_italic f = f_italic g /\ f_weight f = f_weight g /\
  f_ascent f = f_ascent g /\ f_descent f = f_descent g /\ f_matrix f = f_matrix g.
(** The font [f'] differs from [f] in the boxes of the glyphs [gs] only, and these are the bounding boxes of their outlines. *)
Definition boxes_ok (lenIV : Z) (gs : list (str * str)) (subrs : Z -> option (list token)) (f f' : font) : Prop :=
  same_font f f' /\
  (forall name, (forall data, ~ In (name, data) gs) -> box_of name (f_boxes f') = box_of name (f_boxes f)) /\
  (forall name data ts m, In (name, data) gs -> glyph_ok lenIV subrs data ts m ->
     exists b, box_of name (f_boxes f') = Some b /\ tight_box b (m_seen m) /\
       forall c t, In c (m_drawn m) -> (0 <= t <= 1)%R -> box_contains b (piece_x c t) (piece_y c t)).


(** ** Font names *)
Definition lower_case (c : ascii) : ascii := if (65 <=? byte c) && (byte c <=? 90) then to_char (byte c + 32) else c.
Definition lowered (s : str) : str := map lower_case s.
Definition not_digit (c : ascii) : bool := negb ((48 <=? byte c) && (byte c <=? 57)).

(** ** The clear-text part *)
Definition newline : ascii := "010"%char.
(** The text with the given lines. *)
Definition text_of (ls : list str) : str := concat (map (fun l => l ++ [newline]) ls).
Definition is_text (ls : list str) : Prop := forall l, In l ls -> ~ In newline l.
(** A number: an optional sign, digits, optionally a fraction. *)
Definition plain_number (t : str) : Prop := exists sign ip frac, t = sign ++ ip ++ frac /\
  (sign = [] \/ sign = S_ "-" \/ sign = S_ "+") /\ ip <> [] /\ Forall digit ip /\
  (frac = [] \/ exists fp, frac = S_ "." ++ fp /\ Forall digit fp).
(** Numbers, separated by white space. *)
Inductive numbers_text : str -> list str -> Prop :=
| Numbers_end ws : Forall white ws -> numbers_text ws []
| Numbers_next ws t rest ts : Forall white ws -> plain_number t -> (match rest with c :: _ => white c | [] => True end) ->
    numbers_text rest ts -> numbers_text (ws ++ t ++ rest) (t :: ts).
(** The line "/FontMatrix [...]" with the given numbers. *)
Definition matrix_entry (line : str) (ts : list str) : Prop :=
  exists a t1 b t2 inner c, first_at (S_ "/FontMatrix") line a t1 /\ first_at (S_ "[") t1 b t2 /\ first_at (S_ "]") t2 inner c /\
    numbers_text inner ts.
(** The line contains "/Weight (w)". *)
Definition weight_entry (line w : str) : Prop := exists a t b, first_at (S_ "/Weight (") line a t /\ first_at (S_ ")") t w b.
Definition has_weight (line : str) : Prop := exists w, weight_entry line w.
Definition named_weight (w : str) (old : Z) : Z :=
  if str_eqb w (S_ "Regular") then 400 else if str_eqb w (S_ "Medium") then 500 else if str_eqb w (S_ "Bold") then 700 else old.
(** The line states the angle of the italics. *)
Definition angle_line (line : str) : Prop := exists r, line = S_ "/ItalicAngle" ++ r.
(** The numbers of the entries "/FontMatrix" in the given lines, one after the other, replace the first elements of the matrix [m].
    [value]: the value of a number. No entry has more than six numbers. *)
Definition stored_matrix (ds m : list double) : list double := ds ++ skipn (length ds) m.
Inductive matrix_lines (value : str -> option double) : list str -> list double -> list double -> Prop :=
| ML_end m : matrix_lines value [] m m
| ML_other l ls m m' : absent (S_ "/FontMatrix") l -> matrix_lines value ls m m' -> matrix_lines value (l :: ls) m m'
| ML_entry l ls ts ds m m' : matrix_entry l ts -> Forall2 (fun t d => value t = Some d) ts ds -> (length ds <= 6)%nat ->
    matrix_lines value ls (stored_matrix ds m) m' -> matrix_lines value (l :: ls) m m'.
