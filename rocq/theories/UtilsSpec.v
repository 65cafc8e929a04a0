(** UtilsSpec.v - specifications used by the properties of counters, queues and text utilities, independent of
    the model files. *)
From Coq Require Import ZArith NArith.
From Verif Require Import Base.

(** "The words of a text": maximal delimiter-free runs, in order. *)
Inductive tokenised {A} (delim : A -> bool) : list A -> list (list A) -> Prop :=
| tok_end ds : (forall c, In c ds -> delim c = true) -> tokenised delim ds []
| tok_word ds w rest ws :
    (forall c, In c ds -> delim c = true) ->
    w <> [] -> (forall c, In c w -> delim c = false) ->
    (rest = [] \/ exists c r, rest = c :: r /\ delim c = true) ->
    tokenised delim rest ws ->
    tokenised delim (ds ++ w ++ rest) (w :: ws).

(** A decoder for the inside of a JSON string literal (RFC 8259, section 7), restricted to what may be
    written without surrogates: an unescaped character is any byte >= 0x20 except the quote and the
    backslash (bytes >= 0x80 belong to UTF-8 sequences and are passed through); a \uXXXX escape below
    U+0100 stands for that byte. [None]: not a valid literal body. *)
Definition hexval (c : ascii) : option nat :=
  let n := nat_of_ascii c in
  if (48 <=? n) && (n <=? 57) then Some (n - 48)
  else if (97 <=? n) && (n <=? 102) then Some (n - 87)
  else if (65 <=? n) && (n <=? 70) then Some (n - 55) else None.
Definition simple_escape (c : ascii) : option ascii :=
  if Ascii.eqb c """" then Some """"%char else if Ascii.eqb c "\" then Some "\"%char
  else if Ascii.eqb c "/" then Some "/"%char
  else if Ascii.eqb c "b" then Some "008"%char else if Ascii.eqb c "f" then Some "012"%char
  else if Ascii.eqb c "n" then Some "010"%char else if Ascii.eqb c "r" then Some "013"%char
  else if Ascii.eqb c "t" then Some "009"%char else None.
Fixpoint json_decode (s : str) : option str :=
  match s with
  | [] => Some []
  | c :: t =>
      if Ascii.eqb c "\" then
        match t with
        | [] => None
        | e :: t1 =>
            if Ascii.eqb e "u" then
              match t1 with
              | h1 :: h2 :: h3 :: h4 :: t2 =>
                  match hexval h1, hexval h2, hexval h3, hexval h4, json_decode t2 with
                  | Some 0, Some 0, Some a, Some b, Some r => Some (ascii_of_nat (16 * a + b) :: r)
                  | _, _, _, _, _ => None
                  end
              | _ => None
              end
            else match simple_escape e, json_decode t1 with Some x, Some r => Some (x :: r) | _, _ => None end
        end
      else if (Ascii.eqb c """") || (nat_of_ascii c <? 32) then None
      else match json_decode t with Some r => Some (c :: r) | None => None end
  end.

(** [text] consists of the [chunks], consecutive chunks being separated by one blank or one newline. *)
Inductive broken_into : str -> list str -> Prop :=
| brk_last c : broken_into c [c]
| brk_more c sep rest chunks : sep = " "%char \/ sep = "010"%char -> broken_into rest chunks ->
    broken_into (c ++ sep :: rest) (c :: chunks).

(** How the chunks of a wrapped text fit: all but the last are at most [width - indent] bytes long; the last one
    has no newline among its first [width - indent + 1] bytes and is at most [width] long unless it has no blank
    there either. *)
Definition line_ok (width indent : N) (chunks : list str) : Prop :=
  (forall c, In c (removelast chunks) -> (N.of_nat (length c) <= width - indent)%N) /\
  (forall l, last_opt chunks = Some l ->
     ~ In "010"%char (firstn (N.to_nat (width - indent + 1)) l) /\
     ((N.of_nat (length l) <= width)%N \/ ~ In " "%char (firstn (N.to_nat (width - indent + 1)) l))).

(** The list without its leading empty strings. *)
Fixpoint drop_empty (l : list str) : list str :=
  match l with [] :: t => drop_empty t | _ => l end.

(** How often [k] occurs in a list, up to the key equality [eqb]. *)
Definition occ {K} (eqb : K -> K -> bool) (k : K) (l : list K) : nat := length (filter (eqb k) l).

(** A strict weak ordering ("x ranks below y"). *)
Definition strict_weak {A} (cmp : A -> A -> bool) : Prop :=
  (forall x, cmp x x = false) /\
  (forall x y z, cmp x y = true -> cmp y z = true -> cmp x z = true) /\
  (forall x y z, cmp x z = true -> cmp x y = true \/ cmp y z = true).
