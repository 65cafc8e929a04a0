(** TextUtils.v - model of src/utils/TextUtils.cpp.
    [std::string] is [str] (a list of bytes), [std::wstring] a list of code points (N); functions that exist for
    both are modelled once, polymorphically. Sizes and positions are [N]; assigning a [size_t] to an
    [unsigned int] truncates it ([u32]). *)
From Coq Require Import ZArith NArith.
From Verif Require Import Base Counter.

(** [std::string::npos]. *)
Definition npos : N := (2 ^ 64 - 1)%N.
Definition size {A} (l : list A) : N := N.of_nat (length l).

Fixpoint find_idx {A} (p : A -> bool) (l : list A) : option N :=
  match l with
  | [] => None
  | x :: t => if p x then Some 0%N else option_map N.succ (find_idx p t)
  end.
(** [find_first_of] / [find_first_not_of]: first position >= [pos] whose character satisfies [p], else npos. *)
Definition find_first {A} (p : A -> bool) (text : list A) (pos : N) : N :=
  match find_idx p (skipn (N.to_nat pos) text) with Some i => (pos + i)%N | None => npos end.
(** [substr(pos, n)] for [pos <= size]. *)
Definition substr {A} (text : list A) (pos n : N) : list A := firstn (N.to_nat n) (skipn (N.to_nat pos) text).

(** src/utils/TextUtils.cpp:33-48 and 51-65 (the two overloads differ only in the character type).
    [delim] says whether a character is one of the delimiters. The [while] loop runs on fuel; [None] means that
    the loop has not terminated within the fuel. *)
Fixpoint split_loop {A} (delim : A -> bool) (text : list A) (fuel : nat) (start : N) : option (list (list A)) :=
  match fuel with
  | 0 => None
  | S fuel' =>
      if (start <? size text)%N then
        let stop := u32 (find_first delim text start) in
        let stop := if (size text <? stop)%N then u32 (size text) else stop in
        let word := substr text start (u32 (stop + 2 ^ 32 - start)) in
        option_map (cons word)
          (split_loop delim text fuel' (u32 (find_first (fun c => negb (delim c)) text (u32 (stop + 1)))))
      else Some []
  end.
Definition splitIntoWords {A} (delim : A -> bool) (text : list A) (fuel : nat) : option (list (list A)) :=
  split_loop delim text fuel (u32 (find_first (fun c => negb (delim c)) text 0)).

(** src/Config.h:49 and 52. *)
Definition WORD_DELIMITERS : str := [" "; "009"; "013"; "010"; "012"; "011"]%char.
Definition SENTENCE_DELIMITERS : str := S_ "?!.);".

(** src/utils/TextUtils.cpp:68-78 *)
Definition endsWithSentenceDelimiter (text delimiters : str) : bool :=
  match last_opt text with None => false | Some c => mem_ascii c delimiters end.

(** src/utils/TextUtils.cpp:81-83 ([isupper] in the "C" locale). *)
Definition isupper (c : ascii) : bool := (65 <=? nat_of_ascii c) && (nat_of_ascii c <=? 90).
Definition startsWithUpper (s : str) : bool := match s with [] => false | c :: _ => isupper c end.

(** src/utils/TextUtils.cpp:87-99. [rnd] is the stream of values returned by [rand()]. The alphabet is a C string,
    so it contains no NUL and reading position [length] gives NUL. An alphabet of length 0 makes the divisor -1,
    and [x % -1 = 0]; length 1 makes it 0. *)
Fixpoint random_chars (alphabet : str) (rnd : list N) : outcome str :=
  match rnd with
  | [] => Ok []
  | r :: rs =>
      match length alphabet with
      | 0 => do t <- random_chars alphabet rs ; Ok ("000"%char :: t)
      | 1 => UB "division by zero"
      | S n => do t <- random_chars alphabet rs ;
               Ok (nth (N.to_nat (r mod N.of_nat n)) alphabet "000"%char :: t)
      end
  end.
Definition createRandomString (len : nat) (prefix alphabet : str) (rand : nat -> N) : outcome str :=
  do t <- random_chars alphabet (map rand (seq 0 len)) ; Ok (prefix ++ t).

(** src/utils/TextUtils.cpp:102-137. [char] is signed, so that bytes >= 0x80 are negative and fall into the last
    branch. [hex << setw(4) << setfill('0') << n] for 0 <= n <= 0x1f: "00", the digit of n/16, the digit of n mod 16. *)
Definition hexdigit (n : nat) : ascii := nth n (S_ "0123456789abcdef") "?"%char.
Definition escape_char (c : ascii) : str :=
  let n := nat_of_ascii c in
  if Ascii.eqb c """" then ["\"; """"]%char
  else if Ascii.eqb c "\" then ["\"; "\"]%char
  else if Ascii.eqb c "008" then ["\"; "b"]%char
  else if Ascii.eqb c "012" then ["\"; "f"]%char
  else if Ascii.eqb c "010" then ["\"; "n"]%char
  else if Ascii.eqb c "013" then ["\"; "r"]%char
  else if Ascii.eqb c "009" then ["\"; "t"]%char
  else if n <=? 31 then (["\"; "u"; "0"; "0"]%char ++ [hexdigit (n / 16); hexdigit (n mod 16)])
  else [c].
Definition escapeJson (s : str) : str := flat_map escape_char s.

(** src/utils/TextUtils.cpp:140-146 *)
Definition shorten (s : str) (len : N) : str :=
  if (size s <=? len)%N then s else substr s 0 len ++ S_ "...".

(** src/utils/TextUtils.cpp:149-157. [isspace] in the "C" locale; a byte >= 0x80 is passed as a negative int,
    which the standard leaves undefined and for which glibc answers 0: modelled as "no space". Dereferencing the
    end iterator (empty or all-whitespace string) is undefined. *)
Definition isspace (c : ascii) : bool := let n := nat_of_ascii c in ((9 <=? n) && (n <=? 13)) || (n =? 32).
Fixpoint drop_space (s : str) : outcome str :=
  match s with [] => UB "dereferencing end()" | c :: t => if isspace c then drop_space t else Ok s end.
Definition strip (s : str) : outcome str :=
  do a <- drop_space s ; do b <- drop_space (rev a) ; Ok (rev b).

(** [str.rfind(c, pos)] for a one-character needle: the last position <= [pos] that holds [c], else npos. *)
Fixpoint rfind_aux (c : ascii) (s : str) (i pos best : N) : N :=
  match s with
  | [] => best
  | x :: t => rfind_aux c t (i + 1)%N pos (if Ascii.eqb x c && (i <=? pos)%N then i else best)
  end.
Definition rfind (c : ascii) (s : str) (pos : N) : N := rfind_aux c s 0 pos npos.

(** src/utils/TextUtils.cpp:160-197. [None]: the loop has not terminated within the fuel. The [unsigned int]
    arithmetic ([lineStart + width - indent], [lineEnd - lineStart], [lineEnd + 1]) wraps;
    [str.size() - lineEnd] is computed in [size_t]. The final [substr] throws if lineStart > size. *)
Fixpoint wrap_loop (s : str) (width indent : N) (fuel : nat) (lineStart : N) (result : str) : option (outcome str) :=
  match fuel with
  | 0 => None
  | S fuel' =>
      let pos := u32 (lineStart + width + (2 ^ 32 - indent)) in
      let ind := repeat " "%char (N.to_nat indent) in
      let finish := Some (if (size s <? lineStart)%N then Throw "out_of_range"
                          else Ok (result ++ ind ++ substr s lineStart (size s - lineStart))) in
      let lineEnd := u32 (rfind "010" s pos) in
      let len := u32 (lineEnd + (2 ^ 32 - lineStart)) in
      if (lineStart <=? lineEnd)%N && (lineEnd <=? size s)%N then
        wrap_loop s width indent fuel' (u32 (lineEnd + 1)) (result ++ ind ++ substr s lineStart len ++ ["010"%char])
      else
        let lineEnd := u32 (rfind " " s pos) in
        let len := u32 (lineEnd + (2 ^ 32 - lineStart)) in
        if (lineEnd <? lineStart)%N || (size s <? lineEnd)%N then finish
        else if (len + (size s - lineEnd) <=? width)%N then finish
        else wrap_loop s width indent fuel' (u32 (lineEnd + 1)) (result ++ ind ++ substr s lineStart len ++ ["010"%char])
  end.
Definition wrap (s : str) (width indent : N) (fuel : nat) : option (outcome str) := wrap_loop s width indent fuel 0 [].

(** src/utils/TextUtils.cpp:200-208 *)
Definition join (strings : list str) (sep : str) : str :=
  fold_left (fun r s => (match r with [] => r | _ => r ++ sep end) ++ s) strings [].
