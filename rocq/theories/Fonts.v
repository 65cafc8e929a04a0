(** Fonts.v - src/utils/PdfFontInfoParser.cpp: the properties of a font, and the parser of embedded Type-1 font files.
    Poppler delivers the font (name, flags, weight, matrix) and the decoded stream of the embedded font file; both are inputs.
    Library functions are modelled by their documented behaviour: std::string::find/substr, std::getline, std::stoi, the
    [regex] iterators (both patterns are deterministic), [isdigit]/[tolower] in the "C" locale. *)
From Coq Require Import ZArith NArith.
From Verif Require Import Base Double.
Open Scope Z_scope.

(** ** Bytes, characters and ints *)
Definition byte (c : ascii) : Z := Z.of_N (N_of_ascii c).
(** Conversion of an int to char. *)
Definition to_char (z : Z) : ascii := ascii_of_N (Z.to_N (z mod 256)).
Definition INT_MAX : Z := 2 ^ 31 - 1.
Definition INT_MIN : Z := - 2 ^ 31.
Definition in_int (z : Z) : bool := (INT_MIN <=? z) && (z <=? INT_MAX).
Definition wrap32 (z : Z) : Z := (z + 2 ^ 31) mod 2 ^ 32 - 2 ^ 31.
(** The result of an arithmetic operation on ints. [w = false]: as the C++ standard says, a result that isn't representable is
    undefined behaviour. [w = true]: two's-complement wrap around (what the usual compilers generate for this code, and what
    -fwrapv guarantees). *)
Definition int_op (w : bool) (z : Z) : outcome Z :=
  if in_int z then Ok z else if w then Ok (wrap32 z) else UB "signed integer overflow".

Definition is_digit (c : ascii) : bool := (48 <=? byte c) && (byte c <=? 57).
Definition is_space (c : ascii) : bool := ((9 <=? byte c) && (byte c <=? 13)) || (byte c =? 32).
Definition to_lower (c : ascii) : ascii := if (65 <=? byte c) && (byte c <=? 90) then to_char (byte c + 32) else c.
Fixpoint starts_with (p s : str) : option str :=
  match p, s with
  | [], _ => Some s
  | a :: p', b :: s' => if Ascii.eqb a b then starts_with p' s' else None
  | _, _ => None
  end.
(** [s.find(p)], delivering the text before and behind the first occurrence. *)
Fixpoint find_text (p s : str) : option (str * str) :=
  match starts_with p s with
  | Some rest => Some ([], rest)
  | None => match s with
            | [] => None
            | c :: t => match find_text p t with Some (a, b) => Some (c :: a, b) | None => None end
            end
  end.
Definition contains (p s : str) : bool := is_some (find_text p s).
Fixpoint take_while (f : ascii -> bool) (s : str) : str * str :=
  match s with
  | c :: t => if f c then let '(a, b) := take_while f t in (c :: a, b) else ([], s)
  | [] => ([], [])
  end.
Definition digits_value (s : str) : Z := fold_left (fun a c => 10 * a + (byte c - 48)) s 0.
(** std::stoi *)
Definition stoi (s : str) : outcome Z :=
  let s := snd (take_while is_space s) in
  let '(sign, s) := match s with
                    | c :: t => if byte c =? 45 then (-1, t) else if byte c =? 43 then (1, t) else (1, s)
                    | [] => (1, s)
                    end in
  match fst (take_while is_digit s) with
  | [] => Throw "invalid_argument"
  | ds => let v := sign * digits_value ds in if in_int v then Ok v else Throw "out_of_range"
  end.
(** [streamGetChar]: the next byte or EOF (-1). *)
Definition get (s : str) : Z * str := match s with c :: t => (byte c, t) | [] => (-1, []) end.

(** ** The font: src/Types.h:133-216 (the members set by the parser) *)
Definition box := (Z * Z * Z * Z)%type.  (* leftX, upperY, rightX, lowerY *)
Record font := mkFont {
  f_name : str; f_norm : str; f_base : str;
  f_fixed : bool; f_serif : bool; f_symbolic : bool; f_type3 : bool; f_italic : bool;
  f_weight : Z; f_ascent : double; f_descent : double;
  f_matrix : list double; f_boxes : list (str * box)
}.
Definition set_italic (b : bool) (f : font) : font :=
  mkFont (f_name f) (f_norm f) (f_base f) (f_fixed f) (f_serif f) (f_symbolic f) (f_type3 f) b
    (f_weight f) (f_ascent f) (f_descent f) (f_matrix f) (f_boxes f).
Definition set_weight (z : Z) (f : font) : font :=
  mkFont (f_name f) (f_norm f) (f_base f) (f_fixed f) (f_serif f) (f_symbolic f) (f_type3 f) (f_italic f)
    z (f_ascent f) (f_descent f) (f_matrix f) (f_boxes f).
Definition set_matrix (m : list double) (f : font) : font :=
  mkFont (f_name f) (f_norm f) (f_base f) (f_fixed f) (f_serif f) (f_symbolic f) (f_type3 f) (f_italic f)
    (f_weight f) (f_ascent f) (f_descent f) m (f_boxes f).
(** [glyphBoundingBoxes[name] = b] *)
Definition set_box (n : str) (b : box) (f : font) : font :=
  mkFont (f_name f) (f_norm f) (f_base f) (f_fixed f) (f_serif f) (f_symbolic f) (f_type3 f) (f_italic f)
    (f_weight f) (f_ascent f) (f_descent f) (f_matrix f) ((n, b) :: f_boxes f).
(** Look up in a map whose latest assignment comes first. *)
Fixpoint box_of (n : str) (m : list (str * box)) : option box :=
  match m with (n', b) :: t => if str_eqb n n' then Some b else box_of n t | [] => None end.

(** ** Font names and flags: src/utils/PdfFontInfoParser.cpp:63-148 *)
(** The file of an embedded font: [None] for the stream if the object isn't a stream; the entries Length1 and Length2 of its
    dictionary if they are ints (192-219). *)
Record font_file := mkFile { ff_stream : option str; ff_length1 : option Z; ff_length2 : option Z }.
(** What Poppler says about a font. [g_file] is the embedded file if the font is embedded and its file type is Type1 or Type1C
    (154-166); files of other types are ignored (168-182). *)
Record gfx_font := mkGfx {
  g_name : option str; g_address : str; g_flags : Z; g_type3 : bool; g_weight : Z; g_matrix : list double;
  g_file : option font_file
}.
(** src/utils/PdfFontInfoParser.cpp:82-88: lowerCase, and the part behind the first "+". *)
Definition lower_name (s : str) : str := map to_lower s.
Definition norm_name (lower : str) : str := match find_text (S_ "+") lower with Some (_, b) => b | None => lower end.
(** src/utils/PdfFontInfoParser.cpp:92-101: the characters before the first "-" that aren't digits. (The loop moves them to the
    front of the string and then cuts it.) *)
Definition base_name (norm : str) : str :=
  let cut := match find_text (S_ "-") norm with Some (a, _) => a | None => norm end in
  filter (fun c => negb (is_digit c)) cut.
(** src/utils/PdfFontInfoParser.cpp:122-138 *)
Definition name_weight (lower : str) (flags weight : Z) : Z :=
  let w := if 0 <? weight then weight else 400 in
  let w := if Z.testbit flags 18 then 700 else w in
  let w := if contains (S_ "bold") lower then 700 else w in
  if contains (S_ "black") lower then 800 else w.
(** src/utils/PdfFontInfoParser.cpp:65-148 *)
Definition basic_font (g : gfx_font) : font :=
  let name := match g_name g with Some n => n | None => g_address g end in
  let lower := lower_name name in
  mkFont name (norm_name lower) (base_name (norm_name lower))
    (Z.testbit (g_flags g) 0) (Z.testbit (g_flags g) 1) (Z.testbit (g_flags g) 2) (g_type3 g)
    (Z.testbit (g_flags g) 6 || contains (S_ "italic") lower)
    (name_weight lower (g_flags g) (g_weight g))
    (dec 95 2) (dopp (dec 35 2)) (g_matrix g) [].

(** ** The clear-text part: src/utils/PdfFontInfoParser.cpp:246-311 *)
Section AsciiPart.
  (** The conversion of a complete token to a double ([strtod]); [None] if it isn't a number or not in range. *)
  Context (strtod : str -> option double).
  (** The characters that [>>] of a double accumulates (std::num_get, "C" locale). Leading zeros are kept here. *)
  Fixpoint scan_number (s : str) (dot sci mant : bool) : str * str :=
    match s with
    | [] => ([], [])
    | c :: t =>
        if is_digit c then let '(a, b) := scan_number t dot sci true in (c :: a, b)
        else if (byte c =? 46) && negb dot && negb sci then let '(a, b) := scan_number t true sci mant in (c :: a, b)
        else if ((byte c =? 101) || (byte c =? 69)) && negb sci && mant then
          match t with
          | c2 :: t2 => if (byte c2 =? 43) || (byte c2 =? 45) then let '(a, b) := scan_number t2 dot true mant in (c :: c2 :: a, b)
                        else let '(a, b) := scan_number t dot true mant in (c :: a, b)
          | [] => ([c], [])
          end
        else ([], s)
    end.
  Definition scan_token (s : str) : str * str :=
    match s with
    | c :: t => if (byte c =? 43) || (byte c =? 45) then let '(a, b) := scan_number t false false false in (c :: a, b)
                else scan_number s false false false
    | [] => ([], [])
    end.
  (** src/utils/PdfFontInfoParser.cpp:275: the numbers read by [while (lineSS >> d)]; each pass consumes a character. *)
  Fixpoint read_numbers (fuel : nat) (s : str) : list double :=
    match fuel with
    | O => []
    | S fuel => let s := snd (take_while is_space s) in
                let '(tok, rest) := scan_token s in
                match tok with
                | [] => []
                | _ => match strtod tok with Some d => d :: read_numbers fuel rest | None => [] end
                end
    end.
  (** src/utils/PdfFontInfoParser.cpp:275-277: [fontMatrix[k++] = d] *)
  Fixpoint store_numbers (k : nat) (ds : list double) (m : list double) : outcome (list double) :=
    match ds with
    | [] => Ok m
    | d :: r => if (k <? 6)%nat then store_numbers (S k) r (update k d m) else UB "write behind the end of fontMatrix"
    end.
  (** src/utils/PdfFontInfoParser.cpp:264-281. [fontMatrixFound] is never set: every matching line is evaluated. *)
  Definition matrix_line (line : str) (f : font) : outcome font :=
    match find_text (S_ "/FontMatrix") line with
    | None => Ok f
    | Some (_, rest) =>
        match find_text (S_ "[") rest with
        | None => Ok f
        | Some (_, rest) =>
            match find_text (S_ "]") rest with
            | None => Ok f
            | Some (inner, _) => do m <- store_numbers O (read_numbers (S (length inner)) inner) (f_matrix f) ; Ok (set_matrix m f)
            end
        end
    end.
  (** src/utils/PdfFontInfoParser.cpp:285-290 *)
  Definition italic_line (line : str) (found : bool) (f : font) : bool * font :=
    if found then (true, f)
    else if is_some (starts_with (S_ "/ItalicAngle") line)
         then (true, set_italic (f_italic f || negb (str_eqb line (S_ "/ItalicAngle 0 def"))) f)
         else (false, f).
  (** src/utils/PdfFontInfoParser.cpp:292-309 *)
  Definition weight_line (line : str) (found : bool) (f : font) : bool * font :=
    if found then (true, f)
    else match find_text (S_ "/Weight (") line with
         | None => (false, f)
         | Some (_, rest) =>
             match find_text (S_ ")") rest with
             | None => (false, f)
             | Some (w, _) => (true, if str_eqb w (S_ "Regular") then set_weight 400 f
                                     else if str_eqb w (S_ "Medium") then set_weight 500 f
                                     else if str_eqb w (S_ "Bold") then set_weight 700 f else f)
             end
         end.
  (** std::getline: the lines of a text; the text behind the last newline is a line if it isn't empty. *)
  Fixpoint lines_from (s line : str) : list str :=
    match s with
    | [] => match line with [] => [] | _ => [line] end
    | c :: t => if byte c =? 10 then line :: lines_from t [] else lines_from t (line ++ [c])
    end.
  Definition lines_of (s : str) : list str := lines_from s [].
  (** src/utils/PdfFontInfoParser.cpp:262-310 *)
  Fixpoint ascii_lines (ls : list str) (italicFound weightFound : bool) (f : font) : outcome font :=
    match ls with
    | [] => Ok f
    | line :: r =>
        do f <- matrix_line line f ;
        let '(italicFound, f) := italic_line line italicFound f in
        let '(weightFound, f) := weight_line line weightFound f in
        ascii_lines r italicFound weightFound f
    end.
  (** src/utils/PdfFontInfoParser.cpp:246-311: reads at most [len] bytes; delivers the rest of the stream. *)
  Definition parseAsciiPart (stream : str) (len : Z) (f : font) : outcome (font * str) :=
    do f <- ascii_lines (lines_of (firstn (Z.to_nat len) stream)) false false f ;
    Ok (f, skipn (Z.to_nat len) stream).
End AsciiPart.

(** ** Decryption: src/utils/PdfFontInfoParser.cpp:851-866 *)
(** [i] is the index of the first byte of [bytes]. *)
Fixpoint decrypt_from (w : bool) (bytes : str) (i r n : Z) : outcome str :=
  match bytes with
  | [] => Ok []
  | c :: rest =>
      let cipher := byte c in
      let plain := Z.lxor cipher (Z.shiftr r 8) in
      do s <- int_op w (cipher + r) ;
      do p <- int_op w (s * 52845) ;
      do q <- int_op w (p + 22719) ;
      do out <- decrypt_from w rest (i + 1) (Z.land q (2 ^ 16 - 1)) n ;
      Ok (if n <=? i then to_char plain :: out else out)
  end.
Definition decrypt (w : bool) (bytes : str) (r n : Z) : outcome str := decrypt_from w bytes 0 r n.
(** The [n] bytes that [decrypt] reads from [s.c_str()] (424, 456): the characters of [s], then its terminator, then
    memory behind the string. *)
Definition c_bytes (s : str) (n : Z) : outcome str :=
  if n <=? Z.of_nat (length s) then Ok (firstn (Z.to_nat n) s)
  else if n =? Z.of_nat (length s) + 1 then Ok (s ++ [to_char 0])
  else UB "read behind the end of a string".

(** ** Charstrings: src/utils/PdfFontInfoParser.cpp:473-847 *)
Record cs_state := mkCs {
  cs_args : list Z;    (* the last argument first *)
  cs_ps : list Z;      (* interpreterStack, the last element first *)
  cs_x : Z; cs_y : Z; cs_box : box
}.
Definition cs_start : cs_state := mkCs [] [] 0 0 (INT_MAX, INT_MAX, INT_MIN, INT_MIN).
Definition with_args (a : list Z) (s : cs_state) : cs_state := mkCs a (cs_ps s) (cs_x s) (cs_y s) (cs_box s).
(** leftX/rightX updated with [x]; upperY/lowerY with [y]. *)
Definition see_x (x : Z) (b : box) : box := let '(l, u, r, d) := b in (Z.min l x, u, Z.max r x, d).
Definition see_y (y : Z) (b : box) : box := let '(l, u, r, d) := b in (l, Z.min u y, r, Z.max d y).
Definition move_to (a : list Z) (x y : Z) (s : cs_state) : cs_state := mkCs a (cs_ps s) x y (see_y y (see_x x (cs_box s))).
Definition curve_to (a : list Z) (x1 y1 x2 y2 x3 y3 : Z) (s : cs_state) : cs_state :=
  mkCs a (cs_ps s) x3 y3 (see_y y3 (see_y y2 (see_y y1 (see_x x3 (see_x x2 (see_x x1 (cs_box s))))))).
(** [n] times: the last argument to the other stack (695-699, 674-680, 688-690). *)
Fixpoint transfer (n : nat) (a ps : list Z) : outcome (list Z * list Z) :=
  match n with
  | O => Ok (a, ps)
  | S n => match a with x :: a => transfer n a (x :: ps) | [] => UB "back() of an empty vector" end
  end.
(** Transferring more arguments than there are: stops at the undefined behaviour. *)
Definition transfer_args (n : Z) (a ps : list Z) : outcome (list Z * list Z) :=
  if n <=? Z.of_nat (length a) then transfer (Z.to_nat n) a ps else UB "back() of an empty vector".

(** The operator [byte < 32] except callsubr and escape: 482-583, 731-827 *)
Definition command (w : bool) (op : Z) (s : cs_state) : outcome cs_state :=
  let x := cs_x s in let y := cs_y s in
  if (op =? 1) || (op =? 3) then                                                   (* hstem, vstem: 483-508 *)
    match cs_args s with _ :: _ :: a => Ok (with_args a s) | _ => Ok s end
  else if (op =? 4) || (op =? 7) then                                              (* vmoveto, vlineto: 509-518, 544-553 *)
    match cs_args s with
    | dy :: a => do y' <- int_op w (y + dy) ; Ok (mkCs a (cs_ps s) x y' (see_y y' (cs_box s)))
    | _ => Ok s
    end
  else if (op =? 5) || (op =? 21) then                                             (* rlineto, rmoveto: 519-533, 746-760 *)
    match cs_args s with
    | dy :: dx :: a => do x' <- int_op w (x + dx) ; do y' <- int_op w (y + dy) ; Ok (move_to a x' y' s)
    | _ => Ok s
    end
  else if (op =? 6) || (op =? 22) then                                             (* hlineto, hmoveto: 534-543, 761-770 *)
    match cs_args s with
    | dx :: a => do x' <- int_op w (x + dx) ; Ok (mkCs a (cs_ps s) x' y (see_x x' (cs_box s)))
    | _ => Ok s
    end
  else if op =? 8 then                                                             (* rrcurveto: 554-583 *)
    match cs_args s with
    | dy3 :: dx3 :: dy2 :: dx2 :: dy1 :: dx1 :: a =>
        do x1 <- int_op w (x + dx1) ; do y1 <- int_op w (y + dy1) ;
        do x2 <- int_op w (x1 + dx2) ; do y2 <- int_op w (y1 + dy2) ;
        do x3 <- int_op w (x2 + dx3) ; do y3 <- int_op w (y2 + dy3) ;
        Ok (curve_to a x1 y1 x2 y2 x3 y3 s)
    | _ => Ok s
    end
  else if op =? 13 then                                                            (* hsbw: 731-745 *)
    match cs_args s with
    | _ :: sbx :: a => Ok (move_to a sbx 0 s)
    | _ => Ok s
    end
  else if op =? 30 then                                                            (* vhcurveto: 771-796 *)
    match cs_args s with
    | dx3 :: dy2 :: dx2 :: dy1 :: a =>
        do y1 <- int_op w (y + dy1) ; do x2 <- int_op w (x + dx2) ; do y2 <- int_op w (y1 + dy2) ;
        do x3 <- int_op w (x2 + dx3) ; Ok (curve_to a x y1 x2 y2 x3 y2 s)
    | _ => Ok s
    end
  else if op =? 31 then                                                            (* hvcurveto: 797-822 *)
    match cs_args s with
    | dy3 :: dy2 :: dx2 :: dx1 :: a =>
        do x1 <- int_op w (x + dx1) ; do x2 <- int_op w (x1 + dx2) ; do y2 <- int_op w (y + dy2) ;
        do y3 <- int_op w (y2 + dy3) ; Ok (curve_to a x1 y x2 y2 x2 y3 s)
    | _ => Ok s
    end
  else Ok s.                                                                       (* closepath, return, endchar, others *)

(** The operators behind an escape byte: 601-728 *)
Definition escape (w : bool) (op : Z) (s : cs_state) : outcome cs_state :=
  if (op =? 1) || (op =? 2) then                                                   (* vstem3, hstem3: 604-623 *)
    match cs_args s with _ :: _ :: _ :: _ :: _ :: _ :: a => Ok (with_args a s) | _ => Ok s end
  else if op =? 6 then                                                             (* seac: 624-632 *)
    match cs_args s with _ :: _ :: _ :: _ :: _ :: a => Ok (with_args a s) | _ => Ok s end
  else if op =? 7 then                                                             (* sbw: 633-649 *)
    match cs_args s with _ :: _ :: sby :: sbx :: a => Ok (move_to a sbx sby s) | _ => Ok s end
  else if op =? 12 then                                                            (* div: 650-661 *)
    match cs_args s with
    | n2 :: n1 :: a => if n2 =? 0 then UB "division by zero"
                       else if in_int (Z.quot n1 n2) then Ok (with_args (Z.quot n1 n2 :: a) s) else UB "INT_MIN / -1"
    | _ => Ok s
    end
  else if op =? 16 then                                                            (* callothersubr: 662-704 *)
    match cs_args s with
    | sub :: n :: a =>
        if sub =? 0 then
          do '(a, ps) <- transfer_args 2 a [] ;
          match a with _ :: a => Ok (mkCs a ps (cs_x s) (cs_y s) (cs_box s)) | [] => UB "pop_back() of an empty vector" end
        else if sub =? 1 then Ok (mkCs a [] (cs_x s) (cs_y s) (cs_box s))
        else
          do '(a, ps) <- transfer_args (if sub =? 3 then 1 else n) a [] ;
          Ok (mkCs a ps (cs_x s) (cs_y s) (cs_box s))
    | _ => Ok s
    end
  else if op =? 17 then                                                            (* pop: 705-712 *)
    match cs_ps s with
    | v :: ps => Ok (mkCs (v :: cs_args s) ps (cs_x s) (cs_y s) (cs_box s))
    | [] => Ok s
    end
  else if op =? 33 then                                                            (* setcurrentpoint: 713-727 *)
    match cs_args s with py :: px :: a => Ok (move_to a px py s) | _ => Ok s end
  else Ok s.                                                                       (* dotsection, others *)

Definition push (z : Z) (s : cs_state) : cs_state := with_args (z :: cs_args s) s.
(** src/utils/PdfFontInfoParser.cpp:843: [b1 << 24 | b2 << 16 | b3 << 8 | b4] *)
Definition int_of_bytes (b1 b2 b3 b4 : Z) : Z := wrap32 (b1 * 2 ^ 24 + b2 * 2 ^ 16 + b3 * 2 ^ 8 + b4).

Definition run A := option (outcome A).
Definition rbind {A B} (m : run A) (k : A -> run B) : run B :=
  match m with Some (Ok a) => k a | Some (UB x) => Some (UB x) | Some (Throw x) => Some (Throw x) | None => None end.

(** src/utils/PdfFontInfoParser.cpp:473-847. [fuel] bounds the depth of the recursion (593); [None]: the depth doesn't suffice.
    Reading the character behind the last one delivers the terminator (0), reading further is undefined. *)
Section ParseCharString.
  Context (w : bool) (subrs : list (Z * str)).
  Fixpoint subr_of (i : Z) (m : list (Z * str)) : option str :=
    match m with (j, s) :: t => if i =? j then Some s else subr_of i t | [] => None end.
  (** The loop (478-846), with the recursive call [call]. *)
  Definition cs_loop (call : str -> cs_state -> run cs_state) : str -> cs_state -> run cs_state :=
    fix loop (cs : str) (s : cs_state) {struct cs} : run cs_state :=
      match cs with
      | [] => Some (Ok s)
      | c :: r =>
          let b := byte c in
          if b =? 10 then                                                          (* callsubr: 584-596 *)
            match cs_args s with
            | i :: a => match subr_of i subrs with
                        | Some sub => rbind (call sub (with_args a s)) (loop r)
                        | None => loop r (with_args a s)
                        end
            | [] => loop r s
            end
          else if b =? 12 then                                                     (* escape: 597-730 *)
            match r with
            | c2 :: r2 => rbind (Some (escape w (byte c2) s)) (loop r2)
            | [] => Some (escape w 0 s)
            end
          else if b <? 32 then rbind (Some (command w b s)) (loop r)
          else if b <=? 246 then loop r (push (b - 139) s)                         (* 830-831 *)
          else if b <=? 250 then                                                   (* 832-834 *)
            match r with
            | c1 :: r1 => loop r1 (push ((b - 247) * 256 + byte c1 + 108) s)
            | [] => Some (Ok (push ((b - 247) * 256 + 0 + 108) s))
            end
          else if b <=? 254 then                                                   (* 835-837 *)
            match r with
            | c1 :: r1 => loop r1 (push (- (b - 251) * 256 - byte c1 - 108) s)
            | [] => Some (Ok (push (- (b - 251) * 256 - 0 - 108) s))
            end
          else                                                                     (* 838-844 *)
            match r with
            | c1 :: c2 :: c3 :: c4 :: r4 => loop r4 (push (int_of_bytes (byte c1) (byte c2) (byte c3) (byte c4)) s)
            | [c1; c2; c3] => Some (Ok (push (int_of_bytes (byte c1) (byte c2) (byte c3) 0) s))
            | _ => Some (UB "read behind the end of a string")
            end
      end.
  Fixpoint parseCharString (fuel : nat) (cs : str) (s : cs_state) : run cs_state :=
    match fuel with
    | O => None
    | S fuel => cs_loop (parseCharString fuel) cs s
    end.
End ParseCharString.

(** ** The encrypted part: src/utils/PdfFontInfoParser.cpp:314-470 *)
Definition is_hex (z : Z) : bool := ((48 <=? z) && (z <=? 57)) || ((65 <=? z) && (z <=? 70)) || ((97 <=? z) && (z <=? 102)).
(** src/utils/PdfFontInfoParser.h:123-130. [_charToHex[c]] of another character inserts and delivers 0. *)
Definition char_to_hex (c : Z) : Z := if (48 <=? c) && (c <=? 57) then c - 48 else if (97 <=? c) && (c <=? 102) then c - 87 else 0.
Definition hex_to_char (z : Z) : Z := if z <? 10 then z + 48 else z + 87.
(** src/utils/PdfFontInfoParser.cpp:346-348, 357-359: a byte through its two hexadecimal digits. *)
Definition through_hex (c : Z) : ascii :=
  to_char (16 * char_to_hex (hex_to_char (Z.land (Z.shiftr c 4) 15)) + char_to_hex (hex_to_char (Z.land c 15))).
(** The array [bytes] (336): [None] is an element that hasn't been written. *)
Definition write (i : Z) (c : ascii) (b : list (option ascii)) : outcome (list (option ascii)) :=
  if (0 <=? i) && (i <? Z.of_nat (length b)) then Ok (update (Z.to_nat i) (Some c) b) else UB "write behind the end of an array".
(** src/utils/PdfFontInfoParser.cpp:345-350, 353-361: the bytes [cs], one after the other, behind the first [b] ones. *)
Fixpoint write_bytes (cs : str) (b : Z) (bytes : list (option ascii)) : outcome (Z * list (option ascii)) :=
  match cs with
  | [] => Ok (b, bytes)
  | c :: r => do bytes <- write b (through_hex (byte c)) bytes ; write_bytes r (b + 1) bytes
  end.
(** src/utils/PdfFontInfoParser.cpp:367-378: pairs of hexadecimal digits, written to every second element. [(char) c == EOF]
    is true at the end of the stream and for the byte 255. [n] is the number of passes left. *)
Fixpoint write_pairs (n : nat) (s : str) (i b : Z) (bytes : list (option ascii)) : outcome (Z * list (option ascii) * str) :=
  match n with
  | O => Ok (b, bytes, s)
  | S n =>
      match s with
      | [] => Ok (b, bytes, s)
      | c1 :: s1 => if byte c1 =? 255 then Ok (b, bytes, s1) else
          match s1 with
          | [] => Ok (b, bytes, s1)
          | c2 :: s2 => if byte c2 =? 255 then Ok (b, bytes, s2) else
              do bytes <- write i (to_char (16 * char_to_hex (byte c1) + char_to_hex (byte c2))) bytes ;
              write_pairs n s2 (i + 2) (b + 1) bytes
          end
      end
  end.
(** src/utils/PdfFontInfoParser.cpp:382: decrypt reads the first [b] elements; reading an element that hasn't been written is
    undefined. *)
Fixpoint read_bytes (n : nat) (bytes : list (option ascii)) : outcome str :=
  match n with
  | O => Ok []
  | S n => match bytes with
           | Some c :: r => do t <- read_bytes n r ; Ok (c :: t)
           | None :: _ => UB "use of an uninitialised value"
           | [] => UB "read behind the end of an array"
           end
  end.
(** src/utils/PdfFontInfoParser.cpp:319-379: the bytes of the encrypted part; [None] if the stream ends within the first four
    bytes (325-327). [len] is Length2. The bytes of the length in a PFB header (342-343) are evaluated from left to right; the
    order is unspecified in C++. *)
Definition decode_part (s : str) (len : Z) : outcome (option str) :=
  match s with
  | c0 :: c1 :: c2 :: c3 :: rest =>
      let start := [c0; c1; c2; c3] in
      let pfb := existsb (fun c => negb (is_hex (byte c))) start in
      let numBytes := if pfb then len else Z.quot len 2 in
      let bytes := repeat None (Z.to_nat numBytes) in
      do '(b, bytes) <-
        (if pfb then
           if (byte c0 =? 128) && (byte c1 =? 2) then
             let '(b2, rest) := get rest in
             let '(b3, rest) := get rest in
             let len := Z.lor (Z.lor (Z.lor (byte c2) (byte c3 * 2 ^ 8)) (wrap32 (b2 * 2 ^ 16))) (wrap32 (b3 * 2 ^ 24)) in
             write_bytes (firstn (Z.to_nat len) rest) 0 bytes
           else write_bytes (start ++ firstn (Z.to_nat (len - 4)) rest) 0 bytes
         else
           do bytes <- write 0 (to_char (16 * char_to_hex (byte c0) + char_to_hex (byte c1))) bytes ;
           do bytes <- write 2 (to_char (16 * char_to_hex (byte c2) + char_to_hex (byte c3))) bytes ;
           do '(b, bytes, _) <- write_pairs (Z.to_nat (Z.quot (len - 3) 2)) rest 4 2 bytes ;
           Ok (b, bytes)) ;
      do out <- read_bytes (Z.to_nat b) bytes ;
      Ok (Some out)
  | _ => Ok None
  end.

(** src/utils/PdfFontInfoParser.cpp:386-394 *)
Definition read_lenIV (d : str) : outcome Z :=
  match find_text (S_ "/lenIV ") d with
  | None => Ok 4
  | Some (_, rest) => match find_text (S_ " ") rest with
                      | None => Ok 4
                      | Some (num, _) => stoi num
                      end
  end.
(** One white space character; one or more digits, white space characters or other characters. *)
Definition one_space (s : str) : option str := match s with c :: t => if is_space c then Some t else None | [] => None end.
Definition some_of (f : ascii -> bool) (s : str) : option (str * str) :=
  let '(a, b) := take_while f s in match a with [] => None | _ => Some (a, b) end.
(** src/utils/PdfFontInfoParser.cpp:411: "dup\s(\d+)\s(\d+)\sRD\s" at the beginning of [s]. The characters after \d+ and \S+ can't
    belong to them: there is at most one way to match. *)
Definition match_dup (s : str) : option (str * str * str) :=
  match starts_with (S_ "dup") s with None => None | Some s =>
  match one_space s with None => None | Some s =>
  match some_of is_digit s with None => None | Some (idx, s) =>
  match one_space s with None => None | Some s =>
  match some_of is_digit s with None => None | Some (num, s) =>
  match one_space s with None => None | Some s =>
  match starts_with (S_ "RD") s with None => None | Some s =>
  match one_space s with None => None | Some s => Some (idx, num, s) end end end end end end end end.
(** src/utils/PdfFontInfoParser.cpp:444: "\/(\S+)\s+(\d+)\sRD\s" *)
Definition match_char (s : str) : option (str * str * str) :=
  match starts_with (S_ "/") s with None => None | Some s =>
  match some_of (fun c => negb (is_space c)) s with None => None | Some (name, s) =>
  match some_of is_space s with None => None | Some (_, s) =>
  match some_of is_digit s with None => None | Some (num, s) =>
  match one_space s with None => None | Some s =>
  match starts_with (S_ "RD") s with None => None | Some s =>
  match one_space s with None => None | Some s => Some (name, num, s) end end end end end end end.
(** sregex_iterator: the matches from left to right; the search goes on behind a match. [fuel]: the number of characters. *)
Fixpoint matches (m : str -> option (str * str * str)) (fuel : nat) (s : str) : list (str * str * str) :=
  match fuel with
  | O => []
  | S fuel => match m s with
              | Some (a, n, rest) => (a, n, rest) :: matches m fuel rest
              | None => match s with [] => [] | _ :: t => matches m fuel t end
              end
  end.
(** src/utils/PdfFontInfoParser.cpp:421-424, 453-456: the decrypted bytes behind a match. *)
Definition charstring_at (w : bool) (rest : str) (n lenIV : Z) : outcome str :=
  do bytes <- c_bytes (firstn (Z.to_nat n) rest) n ; decrypt w bytes 4330 lenIV.
(** src/utils/PdfFontInfoParser.cpp:416-427: the latest assignment comes first. *)
Fixpoint read_subrs (w : bool) (lenIV : Z) (ms : list (str * str * str)) (m : list (Z * str)) : outcome (list (Z * str)) :=
  match ms with
  | [] => Ok m
  | (idx, num, rest) :: r =>
      do i <- stoi idx ; do n <- stoi num ;
      do s <- charstring_at w rest n lenIV ;
      read_subrs w lenIV r ((i, s) :: m)
  end.
(** src/utils/PdfFontInfoParser.cpp:448-469 *)
Fixpoint read_chars (w : bool) (fuel : nat) (lenIV : Z) (subrs : list (Z * str)) (ms : list (str * str * str)) (f : font) : run font :=
  match ms with
  | [] => Some (Ok f)
  | (name, num, rest) :: r =>
      rbind (Some (stoi num)) (fun n =>
      rbind (Some (charstring_at w rest n lenIV)) (fun cs =>
      rbind (parseCharString w subrs fuel cs cs_start) (fun s =>
      read_chars w fuel lenIV subrs r (set_box name (cs_box s) f))))
  end.
(** src/utils/PdfFontInfoParser.cpp:385-469 *)
Definition parse_decrypted (w : bool) (fuel : nat) (d : str) (f : font) : run font :=
  rbind (Some (read_lenIV d)) (fun lenIV =>
  match find_text (S_ "/Subrs") d with
  | None => Some (Ok f)
  | Some (_, rest) =>
      match find_text (S_ "ND") rest with
      | None => Some (Ok f)
      | Some (subrs, _) =>
          rbind (Some (read_subrs w lenIV (matches match_dup (length subrs) subrs) [])) (fun table =>
          match find_text (S_ "/CharStrings") d with
          | None => Some (Ok f)
          | Some (_, chars) =>
              if contains (S_ "end") chars
              then read_chars w fuel lenIV table (matches match_char (length chars) chars) f
              else Some (Ok f)
          end)
      end
  end).
(** src/utils/PdfFontInfoParser.cpp:314-470 *)
Definition parseEncryptedPart (w : bool) (fuel : nat) (s : str) (len : Z) (f : font) : run font :=
  rbind (Some (decode_part s len)) (fun o =>
  match o with
  | None => Some (Ok f)
  | Some bytes => rbind (Some (decrypt w bytes 55665 4)) (fun d => parse_decrypted w fuel d f)
  end).

(** ** The font file and the font: src/utils/PdfFontInfoParser.cpp:192-243, 50-187 *)
Section ParseFont.
  Context (strtod : str -> option double).
  (** src/utils/PdfFontInfoParser.cpp:221-228. If only the first byte is 128, both bytes are put back (227). *)
  Definition part_length (s : str) (len : Z) : Z * str :=
    let '(a, s1) := get s in
    let '(b, s2) := get s1 in
    if (a =? 128) && (b =? 1) then
      let '(b0, s3) := get s2 in let '(b1, s4) := get s3 in let '(b2, s5) := get s4 in let '(b3, s6) := get s5 in
      (Z.lor (Z.lor (Z.lor b0 (wrap32 (b1 * 2 ^ 8))) (wrap32 (b2 * 2 ^ 16))) (wrap32 (b3 * 2 ^ 24)), s6)
    else (len, s).
  (** src/utils/PdfFontInfoParser.cpp:192-243 *)
  Definition parse_file (w : bool) (fuel : nat) (ff : font_file) (f : font) : run font :=
    match ff_stream ff, ff_length1 ff, ff_length2 ff with
    | Some s, Some len1, Some len2 =>
        let '(len1, s) := part_length s len1 in
        if (len1 <=? 0) || (len2 <=? 0) then Some (Ok f)
        else rbind (Some (parseAsciiPart strtod s len1 f)) (fun '(f, s) => parseEncryptedPart w fuel s len2 f)
    | _, _, _ => Some (Ok f)
    end.
  (** src/utils/PdfFontInfoParser.cpp:50-187. [None] for the result: there is no font (59-61). *)
  Definition parse_font (w : bool) (fuel : nat) (g : option gfx_font) (embedded : bool) : run (option font) :=
    match g with
    | None => Some (Ok None)
    | Some g =>
        let f := basic_font g in
        match (if embedded then g_file g else None) with
        | None => Some (Ok (Some f))
        | Some ff => rbind (parse_file w fuel ff f) (fun f => Some (Ok (Some f)))
        end
    end.
End ParseFont.
