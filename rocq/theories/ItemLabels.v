(** ItemLabels.v - the regular expressions for enumeration item labels: src/Config.h:698-718, and how they are searched for
    in the text of a line (src/utils/TextBlocksDetectionUtils.cpp:610-618).

    Modelled: the ECMAScript constructs that occur in these patterns, with the backtracking matcher of std::regex (libstdc++,
    "C" locale, which the program never changes before the regular expressions are used). A bounded repetition is a nest of
    options, as the regex compiler clones the repeated part. Not modelled: the capture groups (never read), and the recursion depth
    of the matcher (unbounded repetitions recurse once per byte). *)
From Coq Require Import ZArith NArith.
From Verif Require Import Base TextUtils Document Blocks.

Inductive re : Type :=
| Bol                                (* ^ *)
| Eps
| Byte (p : ascii -> bool)           (* a literal or a bracket expression *)
| Cat (a b : re)
| Alt (a b : re)
| Plus (p : ascii -> bool).          (* p+ *)

(** A match of [r] at the beginning of [s] from which the continuation [k] succeeds; [bol]: nothing precedes [s]. *)
Fixpoint plus_from (p : ascii -> bool) (s : str) (k : str -> bool) : bool :=
  match s with
  | [] => false
  | c :: t => p c && (plus_from p t k || k t)
  end.
Fixpoint match_at (r : re) (bol : bool) (s : str) (k : bool -> str -> bool) : bool :=
  match r with
  | Bol => bol && k bol s
  | Eps => k bol s
  | Byte p => match s with c :: t => p c && k false t | [] => false end
  | Cat a b => match_at a bol s (fun bol' s' => match_at b bol' s' k)
  | Alt a b => match_at a bol s k || match_at b bol s k
  | Plus p => plus_from p s (k false)
  end.
(** std::regex_search: the pattern is tried at every position. *)
Fixpoint search_from (r : re) (bol : bool) (s : str) : bool :=
  match_at r bol s (fun _ _ => true) || match s with [] => false | _ :: t => search_from r false t end.
Definition regex_search (r : re) (s : str) : bool := search_from r true s.

(** std::regex_traits<char>::translate_nocase: tolower of the "C" locale; the ranges of a case-insensitive bracket expression
    contain a byte if they contain its lower- or its upper-case form. *)
Definition tolower (c : ascii) : ascii := if TextUtils.isupper c then ascii_of_nat (nat_of_ascii c + 32) else c.
Definition toupper (c : ascii) : ascii := if islower c then ascii_of_nat (nat_of_ascii c - 32) else c.
Definition lit (icase : bool) (x : ascii) : re :=
  Byte (fun c => if icase then Ascii.eqb (tolower x) (tolower c) else Ascii.eqb x c).
Definition range (icase : bool) (a b : ascii) (c : ascii) : bool :=
  let within c := (nat_of_ascii a <=? nat_of_ascii c) && (nat_of_ascii c <=? nat_of_ascii b) in
  if icase then within (tolower c) || within (toupper c) else within c.
(** \s: isspace in the "C" locale. *)
Definition is_blank (c : ascii) : bool := ((9 <=? nat_of_ascii c) && (nat_of_ascii c <=? 13)) || (nat_of_ascii c =? 32).

Definition cat (l : list re) : re := fold_right Cat Eps l.
Definition word (icase : bool) (s : str) : re := cat (map (lit icase) s).
Fixpoint alts (r : re) (l : list re) : re := match l with [] => r | x :: t => Alt r (alts x t) end.
Definition opt (r : re) : re := Alt r Eps.
(** r{0,n} *)
Fixpoint upto (n : nat) (r : re) : re := match n with O => Eps | S m => opt (Cat r (upto m r)) end.
Definition blanks : re := Plus is_blank.
Definition L (s : string) : re := word false (S_ s).
Definition Li (s : string) : re := word true (S_ s).

(** X{0,1}(IX|IV|V?I{0,3}), case-insensitive (703, 705) *)
Definition roman : re := Cat (upto 1 (Li "X")) (alts (Li "IX") [Li "IV"; Cat (opt (Li "V")) (upto 3 (Li "I"))]).
(** [a-z0-9], case-insensitive (711, 715) *)
Definition az09_i : re := Byte (fun c => range true "a" "z" c || range true "0" "9" c).
Definition digit_i : re := Byte (range true "0" "9").

(** src/Config.h:699-718; the bullet is U+2022, the dash U+2013. *)
Definition itemLabelRegexes : list re :=
  [ cat [Bol; alts (word false (map ascii_of_nat [226; 128; 162])) [L "-"; word false (map ascii_of_nat [226; 128; 147]); L "+"]; blanks];
    cat [Bol; roman; Li "."; blanks];
    cat [Bol; Li "("; roman; Li ")"; blanks];
    cat [Bol; Byte (range false "a" "z"); L "."; blanks];
    cat [Bol; Plus (range false "0" "9"); L "."; blanks];
    cat [Bol; alts (Li "(") [Li "["]; az09_i; upto 2 digit_i; alts (Li ")") [Li "]"]; blanks];
    cat [Bol; L "["; Byte (range false "A" "Z"); upto 5 (Byte (fun c => range false "a" "z" c || range false "A" "Z" c || range false "0" "9" c)); L "]"; blanks];
    cat [Bol; az09_i; upto 1 digit_i; Li ")"; blanks];
    cat [Bol; Li "PACS"; blanks] ].
(** src/utils/TextBlocksDetectionUtils.cpp:612-617 *)
Definition matches_item_label (text : str) : bool := existsb (fun r => regex_search r text) itemLabelRegexes.
