(** Serialization.v - src/serializers/{PlainText,PlainTextExtended,Jsonl}Serializer.cpp, Serializer.cpp and
    src/PdfDocumentSerialization.{h,cpp}. An output stream is the string written to it so far; [endl] is "\n". *)
From Coq Require Import ZArith NArith.
From Flocq Require Import IEEE754.BinarySingleNaN.
From Verif Require Import Base Double Elements TextUtils Document.

Definition endl : str := [nl].
Definition has_role (roles : list nat) (r : nat) : bool := existsb (Nat.eqb r) roles.

(** ** Plain text *)

(** src/serializers/PlainTextSerializer.cpp:76-82 (the same at PlainTextExtendedSerializer.cpp:92-98). *)
Fixpoint write_chars (cs : list character) (out : str) : str :=
  match cs with
  | [] => out
  | c :: t =>
      write_chars t (if is_some (c_hasMark c) then out ++ c_textWithMark c
                     else if is_none (c_markOf c) then out ++ c_text c else out)
  end.

(** src/serializers/PlainTextSerializer.cpp:58-86; state: the stream and whether prevWord is set. *)
Definition write_word (h : heap) (st : str * bool) (i : nat) : str * bool :=
  let '(out, prevWord) := st in
  let w := h i in
  if is_some (w_second w) then st                                             (* 61-63 *)
  else
    let out := if prevWord then out ++ [" "%char] else out in                 (* 66-68 *)
    let out := match w_first w with
               | Some m => out ++ m                                           (* 72-74 *)
               | None => write_chars (w_chars w) out                          (* 75-83 *)
               end in
    (out, true).                                                              (* 85 *)

(** src/serializers/PlainTextSerializer.cpp:56-87 *)
Definition write_block_words (h : heap) (b : block) (out : str) : str :=
  fst (fold_left (fun st l => fold_left (write_word h) l st) (b_lines b) (out, false)).

(** src/serializers/PlainTextSerializer.cpp:45-89; state: the stream and whether prevBlock is set. *)
Definition write_block (h : heap) (roles : list nat) (st : str * bool) (b : block) : str * bool :=
  let '(out, prevBlock) := st in
  if has_role roles (b_role b) then
    let out := if prevBlock then (out ++ endl) ++ endl else out in
    (write_block_words h b out, true)
  else st.

(** src/serializers/PlainTextSerializer.cpp:38-92 *)
Definition plain_serialize (d : document) (h : heap) (roles : list nat) (out : str) : str :=
  fst (fold_left (fun st p => fold_left (write_block h roles) (p_blocks p) st) (d_pages d) (out, false)) ++ endl.

(** ** Extended plain text *)

(** [::toupper] in the "C" locale. *)
Definition toupper (c : ascii) : ascii :=
  let n := nat_of_ascii c in if (97 <=? n) && (n <=? 122) then ascii_of_nat (n - 32) else c.

(** src/serializers/PlainTextExtendedSerializer.cpp:51-105. The word loop 72-103 is, line by line, that of the
    plain text serializer. *)
Definition write_block_ext (h : heap) (roles : list nat) (st : outcome (str * bool)) (b : block) : outcome (str * bool) :=
  do ' (out, prevBlock) <- st ;
  if has_role roles (b_role b) then
    let out := if prevBlock then (out ++ endl) ++ endl else out in           (* 57-60 *)
    do role <- getSemanticRoleName (b_role b) ;                              (* 63 *)
    let out := out ++ S_ "[" ++ map toupper role ++ S_ "] " in               (* 64-65 *)
    let out := if b_emph b then out ++ [soh] else out in                     (* 68-70 *)
    Ok (write_block_words h b out, true)
  else Ok (out, prevBlock).

(** src/serializers/PlainTextExtendedSerializer.cpp:50-108 *)
Definition write_page_ext (h : heap) (roles : list nat) (st : outcome (str * bool)) (p : page) : outcome (str * bool) :=
  do ' (out, prevBlock) <- fold_left (write_block_ext h roles) (p_blocks p) st ;
  Ok ((out ++ endl) ++ [ff], prevBlock).                                     (* 107 *)

(** src/serializers/PlainTextExtendedSerializer.cpp:44-110 *)
Definition ext_serialize (d : document) (h : heap) (roles : list nat) (out : str) : outcome str :=
  do ' (out, _) <- fold_left (write_page_ext h roles) (d_pages d) (Ok (out, false)) ;
  Ok (out ++ endl).

(** ** Numbers: [ostream << int] and [ostream << double] with the default format (%g, 6 significant digits) *)
Definition digit (n : N) : ascii := ascii_of_N (48 + n).
Fixpoint digits_fuel (fuel : nat) (n : N) (acc : str) : str :=
  match fuel with
  | 0 => acc
  | S f => let acc := digit (n mod 10) :: acc in if (n / 10 =? 0)%N then acc else digits_fuel f (n / 10) acc
  end.
Definition dec_digits (n : N) : str := digits_fuel (S (N.size_nat n)) n [].
Definition print_Z (z : Z) : str := if (z <? 0)%Z then "-"%char :: dec_digits (Z.to_N (- z)) else dec_digits (Z.to_N z).

(** Drop the trailing zeros of a digit string. *)
Fixpoint drop_zeros (r : str) : str := match r with c :: t => if Ascii.eqb c "0" then drop_zeros t else r | [] => [] end.
Definition strip_zeros (s : str) : str := rev (drop_zeros (rev s)).
Definition frac (s : str) : str := match strip_zeros s with [] => [] | f => "."%char :: f end.

(** num/den rounded to an integer, ties to even (num >= 0, den > 0). *)
Definition round_half_even (num den : Z) : Z :=
  let q := (num / den)%Z in
  let r := (num mod den)%Z in
  match Z.compare (2 * r) den with
  | Lt => q
  | Gt => q + 1
  | Eq => if Z.even q then q else q + 1
  end%Z.
(** The decimal exponent of num/den > 0: the X with 10^X <= num/den < 10^(X+1). *)
Fixpoint exp10_up (fuel : nat) (num den x : Z) : Z :=
  match fuel with 0 => x | S f => if (den * 10 <=? num)%Z then exp10_up f num (den * 10) (x + 1) else x end.
Fixpoint exp10_down (fuel : nat) (num den x : Z) : Z :=
  match fuel with 0 => x | S f => if (num <? den)%Z then exp10_down f (num * 10) den (x - 1) else x end.
Definition exp10 (num den : Z) : Z :=
  if (num <? den)%Z then exp10_down 400 num den 0 else exp10_up 400 num den 0.
(** Six significant digits and the exponent after rounding. *)
Definition six_digits (num den : Z) : Z * Z :=
  let x := exp10 num den in
  let n := if (x <=? 5)%Z then round_half_even (num * 10 ^ (5 - x)) den else round_half_even num (den * 10 ^ (x - 5)) in
  if (n =? 1000000)%Z then (100000, x + 1)%Z else (n, x).
(** %g of num/den > 0. *)
Definition print_pos (num den : Z) : str :=
  let '(n, x) := six_digits num den in
  let ds := dec_digits (Z.to_N n) in
  if ((-4 <=? x) && (x <? 6))%Z then
    if (0 <=? x)%Z then firstn (Z.to_nat x + 1) ds ++ frac (skipn (Z.to_nat x + 1) ds)
    else S_ "0" ++ frac (repeat "0"%char (Z.to_nat (- x) - 1) ++ ds)
  else
    firstn 1 ds ++ frac (skipn 1 ds) ++ S_ "e" ++ (if (x <? 0)%Z then S_ "-" else S_ "+") ++
    (let e := dec_digits (Z.to_N (Z.abs x)) in if length e <? 2 then "0"%char :: e else e).
(** [ostream << double]. *)
Definition print_double (d : double) : str :=
  match d with
  | B754_zero s => if s then S_ "-0" else S_ "0"
  | B754_infinity s => if s then S_ "-inf" else S_ "inf"
  | B754_nan => S_ "nan"
  | B754_finite s m e _ =>
      (if s then S_ "-" else []) ++
      if (0 <=? e)%Z then print_pos (Zpos m * 2 ^ e) 1 else print_pos (Zpos m) (2 ^ (- e))
  end.

(** ** JSONL *)

(** A pair of ASCII quotes around a string; [key] is ["name": ]. *)
Definition dq : str := [""""%char].
Definition quoted (s : str) : str := dq ++ s ++ dq.
Definition key (k : string) : str := quoted (S_ k) ++ S_ ": ".
Definition bool_str (b : bool) : str := if b then S_ "true" else S_ "false".
(** [pageNum] of a position is a double holding an integer; below 10^6 it is printed like an integer. *)
Definition tail : str := key "origin" ++ quoted (S_ "pdftotext++") ++ S_ "}".

(** src/serializers/JsonlSerializer.cpp:89-95 (without the final endl) *)
Definition page_record (p : page) : str :=
  S_ "{" ++ key "type" ++ quoted (S_ "page") ++ S_ ", " ++
  key "num" ++ print_Z (p_num p) ++ S_ ", " ++
  key "width" ++ print_double (p_width p) ++ S_ ", " ++
  key "height" ++ print_double (p_height p) ++ S_ ", " ++ tail.

(** The common fields page, minX, minY, maxX, maxY. *)
Definition box_fields (q : position) : str :=
  key "page" ++ print_Z (pageNum q) ++ S_ ", " ++
  key "minX" ++ print_double (leftX q) ++ S_ ", " ++
  key "minY" ++ print_double (upperY q) ++ S_ ", " ++
  key "maxX" ++ print_double (rightX q) ++ S_ ", " ++
  key "maxY" ++ print_double (lowerY q) ++ S_ ", ".

(** src/serializers/JsonlSerializer.cpp:165-175 ("figure") and 188-198 ("shape") *)
Definition elem_record (ty : string) (e : elem) : str :=
  S_ "{" ++ key "type" ++ quoted (S_ ty) ++ S_ ", " ++
  key "rank" ++ print_Z (e_rank e) ++ S_ ", " ++
  key "id" ++ quoted (e_id e) ++ S_ ", " ++ box_fields (e_pos e) ++ tail.

(** src/serializers/JsonlSerializer.cpp:124-149 *)
Definition char_record (f : fontInfo) (w : word) (b : block) (c : character) : str :=
  let '(r, g, bl) := c_color c in
  let text := if is_some (c_hasMark c) then c_textWithMark c else c_text c in
  S_ "{" ++ key "type" ++ quoted (S_ "char") ++ S_ ", " ++
  key "id" ++ quoted (c_id c) ++ S_ ", " ++
  key "rank" ++ print_Z (c_rank c) ++ S_ ", " ++ box_fields (c_pos c) ++
  key "wMode" ++ print_Z (wMode (c_pos c)) ++ S_ ", " ++
  key "rotation" ++ print_Z (rotation (c_pos c)) ++ S_ ", " ++
  key "font" ++ quoted (c_fontName c) ++ S_ ", " ++
  key "fontSize" ++ print_double (c_fontSize c) ++ S_ ", " ++
  key "weight" ++ print_Z (f_weight f) ++ S_ ", " ++
  key "italic" ++ bool_str (f_italic f) ++ S_ ", " ++
  key "type-3" ++ bool_str (f_type3 f) ++ S_ ", " ++
  key "color" ++ S_ "[" ++ print_double r ++ S_ "," ++ print_double g ++ S_ "," ++ print_double bl ++ S_ "]" ++ S_ "," ++
  key "opacity" ++ print_double (c_opacity c) ++ S_ ", " ++
  key "text" ++ quoted (escapeJson text) ++ S_ ", " ++
  key "word" ++ quoted (w_id w) ++ S_ ", " ++
  key "block" ++ quoted (b_id b) ++ S_ ", " ++ tail.

(** src/serializers/JsonlSerializer.cpp:218-232 *)
Definition word_record (b : block) (w : word) : str :=
  S_ "{" ++ key "type" ++ quoted (S_ "word") ++ S_ ", " ++
  key "id" ++ quoted (w_id w) ++ S_ ", " ++
  key "rank" ++ print_Z (w_rank w) ++ S_ ", " ++ box_fields (w_pos w) ++
  key "font" ++ quoted (w_fontName w) ++ S_ ", " ++
  key "fontSize" ++ print_double (w_fontSize w) ++ S_ ", " ++
  key "text" ++ quoted (escapeJson (w_text w)) ++ S_ ", " ++
  key "block" ++ quoted (b_id b) ++ S_ ", " ++ tail.

(** src/serializers/JsonlSerializer.cpp:252-266 *)
Definition block_record (role : str) (b : block) : str :=
  S_ "{" ++ key "type" ++ quoted (S_ "block") ++ S_ ", " ++
  key "id" ++ quoted (b_id b) ++ S_ ", " ++
  key "rank" ++ print_Z (b_rank b) ++ S_ ", " ++ box_fields (b_pos b) ++
  key "font" ++ quoted (b_fontName b) ++ S_ ", " ++
  key "fontSize" ++ print_double (b_fontSize b) ++ S_ ", " ++
  key "text" ++ quoted (escapeJson (b_text b)) ++ S_ ", " ++
  key "role" ++ quoted role ++ S_ ", " ++ tail.

(** A sequence of records, one per line; writing stops at undefined behaviour or an exception. *)
Fixpoint olist {A} (l : list (outcome A)) : outcome (list A) :=
  match l with [] => Ok [] | m :: t => do x <- m ; do r <- olist t ; Ok (x :: r) end.

Definition assoc_font (k : str) (l : list (str * fontInfo)) : option fontInfo :=
  match find (fun e => str_eqb k (fst e)) l with Some e => Some (snd e) | None => None end.

(** src/serializers/JsonlSerializer.cpp:105-155; [fontInfos.at] (line 121) throws for an unknown font. *)
Definition sel_blocks (d : document) (roles : list nat) : list block :=
  flat_map (fun p => filter (fun b => has_role roles (b_role b)) (p_blocks p)) (d_pages d).
Definition block_words (h : heap) (b : block) : list word := flat_map (map h) (b_lines b).
Definition char_records (d : document) (h : heap) (roles : list nat) : list (outcome str) :=
  flat_map (fun b => flat_map (fun w => flat_map (fun c =>
    if is_some (c_markOf c) then []                                             (* 116-118 *)
    else [match assoc_font (c_fontName c) (d_fonts d) with
          | Some f => Ok (char_record f w b c)
          | None => Throw "std::out_of_range" end]) (w_chars w)) (block_words h b)) (sel_blocks d roles).
(** src/serializers/JsonlSerializer.cpp:209-237 *)
Definition word_records (d : document) (h : heap) (roles : list nat) : list (outcome str) :=
  flat_map (fun b => map (fun w => Ok (word_record b w)) (block_words h b)) (sel_blocks d roles).
(** src/serializers/JsonlSerializer.cpp:245-269 *)
Definition block_records (d : document) (roles : list nat) : list (outcome str) :=
  map (fun b => do role <- getSemanticRoleName (b_role b) ; Ok (block_record role b)) (sel_blocks d roles).
(** src/serializers/JsonlSerializer.cpp:53-81: the units are iterated in the (arbitrary) order of the set. *)
Definition unit_records (d : document) (h : heap) (roles : list nat) (unit : nat) : list (outcome str) :=
  match unit with
  | 0 => map (fun p => Ok (page_record p)) (d_pages d)
  | 1 => block_records d roles
  | 3 => word_records d h roles
  | 4 => char_records d h roles
  | 5 => flat_map (fun p => map (fun e => Ok (elem_record "figure" e)) (p_figures p)) (d_pages d)
  | 6 => flat_map (fun p => map (fun e => Ok (elem_record "shape" e)) (p_shapes p)) (d_pages d)
  | _ => []                                                                     (* TEXT_LINES: line 77 *)
  end.
Definition jsonl_lines (d : document) (h : heap) (roles units : list nat) : outcome (list str) :=
  olist (flat_map (unit_records d h roles) units).
Definition jsonl_serialize (d : document) (h : heap) (roles units : list nat) (out : str) : outcome str :=
  do ls <- jsonl_lines d h roles units ; Ok (out ++ concat (map (fun l => l ++ endl) ls)).

(** ** Choice of the serializer and of the destination *)

(** src/PdfDocumentSerialization.h:31-35 and .cpp:37-39: formats 0 (txt) and 1 (txt-extended) have a serializer;
    the entry of jsonl is commented out. *)
Inductive serializer := PlainText | PlainTextExtended.
Definition getSerializer (format : nat) : option serializer :=
  match format with 0 => Some PlainText | 1 => Some PlainTextExtended | _ => None end.
Definition run_serializer (s : serializer) (d : document) (h : heap) (roles : list nat) : outcome str :=
  match s with PlainText => Ok (plain_serialize d h roles []) | PlainTextExtended => ext_serialize d h roles [] end.

(** What a call of [serialize] does to the outside: text on stdout, a shell command, a file created with the given
    content, a message on stderr. *)
Inductive effect := Stdout (s : str) | Shell (cmd : str) | WriteFile (path content : str) | Stderr (s : str).

(** src/serializers/Serializer.cpp:44-49: the parent directory. *)
Definition find_last (c : ascii) (s : str) : option nat :=
  match find (fun i => Ascii.eqb (nth i s "000"%char) c) (rev (seq 0 (length s))) with Some i => Some i | None => None end.
Definition parentDir (path : str) : str :=
  match find_last "/" path with Some i => firstn i path | None => S_ "." end.

(** src/serializers/Serializer.cpp:33-65. [shell] is the exit status of a shell command, [can_open] whether the
    file can be opened afterwards (both decided by the environment). *)
Definition serialize (shell : str -> Z) (can_open : str -> bool) (text : str) (path : str) : list effect :=
  if (length path =? 1) && Ascii.eqb (hd "000"%char path) "-" then [Stdout text]
  else
    let cmd := S_ "mkdir -p " ++ parentDir path in
    if negb (shell cmd =? 0)%Z then [Shell cmd; Stderr (S_ "Could not create directory '" ++ parentDir path ++ S_ "'.
")]
    else if negb (can_open path) then [Shell cmd; Stderr (S_ "Could not open file '" ++ path ++ S_ "'.
")]
    else [Shell cmd; WriteFile path text].
