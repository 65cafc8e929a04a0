(** ItemLabelsSpec.v - which texts begin with an enumeration item label (C84), in terms of bytes. *)
From Coq Require Import NArith.
From Verif Require Import Base.

Definition code (c : ascii) : nat := nat_of_ascii c.
Definition blank (c : ascii) : Prop := In (code c) [9; 10; 11; 12; 13; 32].
Definition digit (c : ascii) : Prop := 48 <= code c <= 57.
Definition lower (c : ascii) : Prop := 97 <= code c <= 122.
Definition upper (c : ascii) : Prop := 65 <= code c <= 90.
Definition alnum (c : ascii) : Prop := digit c \/ lower c \/ upper c.
(** Equal up to the case of letters. *)
Definition same_letter (a b : ascii) : Prop :=
  a = b \/ (upper a /\ code b = code a + 32) \/ (upper b /\ code a = code b + 32).
Definition any_case (s t : str) : Prop := Forall2 same_letter s t.
Definition ROMAN : list str := map S_
  [""; "I"; "II"; "III"; "IV"; "V"; "VI"; "VII"; "VIII"; "IX"; "X"; "XI"; "XII"; "XIII"; "XIV"; "XV"; "XVI"; "XVII"; "XVIII"; "XIX"]%string.

Inductive label : str -> Prop :=
(* a bullet, a hyphen, an en dash, a plus sign *)
| l_bullet : label (map ascii_of_nat [226; 128; 162])
| l_hyphen : label (S_ "-")
| l_dash : label (map ascii_of_nat [226; 128; 147])
| l_plus : label (S_ "+")
(* a Roman numeral up to XIX (or none): "iv." or "(iv)" *)
| l_roman n t : In n ROMAN -> any_case n t -> label (t ++ S_ ".")
| l_roman_paren n t : In n ROMAN -> any_case n t -> label (S_ "(" ++ t ++ S_ ")")
(* "a." *)
| l_letter c : lower c -> label (c :: S_ ".")
(* "12." *)
| l_number ds : ds <> [] -> Forall digit ds -> label (ds ++ S_ ".")
(* "(a)", "[12]", "(C1)", and also "(1]" *)
| l_bracket o c ds e : In o (S_ "([") -> alnum c -> Forall digit ds -> length ds <= 2 -> In e (S_ ")]") -> label (o :: c :: ds ++ [e])
(* "[Bu2]", "[Enn202]" *)
| l_key c cs : upper c -> Forall alnum cs -> length cs <= 5 -> label ("["%char :: c :: cs ++ S_ "]")
(* "a)", "a1)" *)
| l_paren c ds : alnum c -> Forall digit ds -> length ds <= 1 -> label (c :: ds ++ S_ ")")
(* "PACS" *)
| l_pacs t : any_case (S_ "PACS") t -> label t.

(** The text begins with a label and white space. *)
Definition labelled (t : str) : Prop := exists l b rest, t = l ++ b :: rest /\ label l /\ blank b.
