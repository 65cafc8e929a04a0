(** SerializationSpec.v - specifications for serialisation and dehyphenation, independent of the model's loops. *)
From Coq Require Import ZArith NArith.
From Verif Require Import Base Double Elements UtilsSpec Document.

(** ** JSON (RFC 8259), with a blank as the only white space *)
Inductive jval := VNum (lexeme : str) | VStr (s : str) | VBool (b : bool) | VNull
                | VArr (l : list jval) | VObj (l : list (str * jval)).

Definition is_digit (c : ascii) : Prop := 48 <= nat_of_ascii c <= 57.
Definition digits (s : str) : Prop := s <> [] /\ Forall is_digit s.
Inductive int_part : str -> Prop :=
| ip_zero : int_part ["0"%char]
| ip_pos c t : is_digit c -> c <> "0"%char -> Forall is_digit t -> int_part (c :: t).
Inductive json_number : str -> Prop :=
| jnum (neg : bool) ip fp ep :
    int_part ip ->
    (fp = [] \/ exists ds, digits ds /\ fp = "."%char :: ds) ->
    (ep = [] \/ exists e sg ds, (e = "e"%char \/ e = "E"%char) /\ (sg = [] \/ sg = ["+"%char] \/ sg = ["-"%char]) /\ digits ds /\ ep = e :: sg ++ ds) ->
    json_number ((if neg then ["-"%char] else []) ++ ip ++ fp ++ ep).

Definition quote : ascii := """"%char.
Inductive json : str -> jval -> Prop :=
| j_num s : json_number s -> json s (VNum s)
| j_str body s : json_decode body = Some s -> json (quote :: body ++ [quote]) (VStr s)
| j_true : json (S_ "true") (VBool true)
| j_false : json (S_ "false") (VBool false)
| j_null : json (S_ "null") VNull
| j_arr0 : json (S_ "[]") (VArr [])
| j_arr s l : jelems s l -> json ("["%char :: s ++ ["]"%char]) (VArr l)
| j_obj0 : json (S_ "{}") (VObj [])
| j_obj s l : jmembers s l -> json ("{"%char :: s ++ ["}"%char]) (VObj l)
with jelems : str -> list jval -> Prop :=
| je_one s v : json s v -> jelems s [v]
| je_more s v n r l : json s v -> jelems r l -> jelems (s ++ ","%char :: repeat " "%char n ++ r) (v :: l)
with jmembers : str -> list (str * jval) -> Prop :=
| jm_one k k' n s v : json_decode k = Some k' -> json s v ->
    jmembers (quote :: k ++ quote :: ":"%char :: repeat " "%char n ++ s) [(k', v)]
| jm_more k k' n s v m r l : json_decode k = Some k' -> json s v -> jmembers r l ->
    jmembers (quote :: k ++ quote :: ":"%char :: repeat " "%char n ++ s ++ ","%char :: repeat " "%char m ++ r) ((k', v) :: l).

(** Strings that need no escaping. *)
Definition plain (s : str) : Prop := Forall (fun c => c <> quote /\ c <> "\"%char /\ 32 <= nat_of_ascii c) s.

(** ** Text of a document *)

(** The lines of a document that contain words, in order. *)
Definition text_lines (d : document) : list (list nat) :=
  filter (fun l => negb (match l with [] => true | _ => false end))
         (concat (map (fun p => concat (map b_lines (p_blocks p))) (d_pages d))).
Definition doc_words (d : document) : list nat := concat (text_lines d).
(** [b] directly follows [a] in [l]. *)
Definition adjacent {A} (l : list A) (a b : A) : Prop := exists p q, l = p ++ a :: b :: q.
(** The text ends with a hyphen and is more than a hyphen. *)
Definition hyphenated (t : str) : Prop := exists s, s <> [] /\ t = s ++ ["-"%char].
Definition stem (t : str) : str := removelast t.
(** Word [w] ends a line, [w'] starts the next line (with words), and [w] is hyphenated. *)
Definition broken_pair (d : document) (h : heap) (w w' : nat) : Prop :=
  exists l1 l2, adjacent (text_lines d) l1 l2 /\ last_opt l1 = Some w /\ hd_error l2 = Some w' /\ hyphenated (w_text (h w)).
(** The text that characters stand for: a base with its mark is the combined character, a merged mark is nothing. *)
Definition char_text (c : character) : str :=
  match c_hasMark c, c_markOf c with Some _, _ => c_textWithMark c | None, None => c_text c | None, Some _ => [] end.
Definition chars_text (cs : list character) : str := concat (map char_text cs).
(** What is printed for a word that is not the second part of a hyphenated word. *)
Definition shown (w : word) : str := match w_first w with Some m => m | None => chars_text (w_chars w) end.
Definition block_shown (h : heap) (b : block) : list str :=
  map shown (filter (fun w => is_none (w_second w)) (map h (concat (b_lines b)))).
Definition selected (roles : list nat) (p : page) : list block := filter (fun b => if in_dec Nat.eq_dec (b_role b) roles then true else false) (p_blocks p).
Definition upper (c : ascii) : ascii :=
  let n := nat_of_ascii c in if (97 <=? n) && (n <=? 122) then ascii_of_nat (n - 32) else c.

(** What a word contributes to the output. *)
Definition lost (d : document) (h : heap) (w : nat) : Prop := exists a a', broken_pair d h a' a /\ broken_pair d h a w.
Definition joined (d : document) (h : heap) (w : nat) : Prop :=
  (exists b, broken_pair d h w b) /\ ~ (exists a, broken_pair d h a w).
Definition contributes (d : document) (h : heap) (w : nat) (k : str) : Prop :=
  (lost d h w /\ k = []) \/ (~ lost d h w /\ joined d h w /\ k = stem (w_text (h w))) \/
  (~ lost d h w /\ ~ joined d h w /\ k = w_text (h w)).


(** The extended plain text of a block, and the text of a page. *)
Definition ext_text (h : heap) (b : block) : str :=
  S_ "[" ++ map upper (nth (b_role b) SEMANTIC_ROLE_NAMES []) ++ S_ "] " ++
  (if b_emph b then [soh] else []) ++ intercalate [" "%char] (block_shown h b).

Definition page_text_ok (h : heap) (roles : list nat) (p : page) (t : str) : Prop :=
  (selected roles p = [] /\ t = []) \/
  (selected roles p <> [] /\ (t = intercalate [nl; nl] (map (ext_text h) (selected roles p)) \/
                              t = [nl; nl] ++ intercalate [nl; nl] (map (ext_text h) (selected roles p)))).

(** The directory part of a path. *)
Definition dir_of (path dir : str) : Prop :=
  (exists name, path = dir ++ "/"%char :: name /\ ~ In "/"%char name) \/ (~ In "/"%char path /\ dir = S_ ".").
