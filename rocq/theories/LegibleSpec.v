(** LegibleSpec.v - vocabulary for C72_characters: documents whose text can be decoded, in terms of the characters of the document. *)
From Coq Require Import ZArith NArith.
From Verif Require Import Base Double Elements Document DiacriticsSpec Pipeline.
From Verif Require Parsing Fonts.

(** A decoder of texts that decodes the empty text, the blank, and concatenations piece by piece (on valid pieces). *)
Definition piecewise (from : str -> option (list N)) : Prop :=
  from [] = Some [] /\ from [" "%char] = Some [32%N] /\
  forall a b u v, from a = Some u -> from b = Some v -> from (a ++ b) = Some (u ++ v).
(** [s] decodes to at most [k] code units, the first of which is below U+0100. *)
Definition readable (from : str -> option (list N)) (k : nat) (s : str) : Prop :=
  exists t, from s = Some t /\ length t <= k /\ match t with c :: _ => (c < 256)%N | [] => True end.
(** Of the page [q]: all texts (of characters, and of characters with the diacritical marks of the page) are readable; the base
    lines are numbers; and the page doesn't hold too many characters (46000, if each is a single code unit). *)
Definition legible (m : machine) (k : nat) (q : Parsing.ppage) : Prop :=
  let n := N.of_nat (length (Parsing.pp_chars q)) in
  (n * (n + 1) * (N.of_nat k + 2) < 2 ^ 32 - 1)%N /\
  forall c, In c (Parsing.pp_chars q) ->
    readable (m_fromBytes m) k (c_text c) /\ is_nan_d (c_base c) = false /\
    forall mk u, In mk (Parsing.pp_chars q) -> is_mark mk u -> readable (m_fromBytes m) k (m_compose m (c_unicodes c ++ [u])).
(** The fonts are read by PdfFontInfoParser::parse (Fonts.v), whatever stream extraction yields and however numbers are converted. *)
Definition reads_fonts (m : machine) : Prop := forall g f, m_parseFont m g = Ok f ->
  exists strtod w fuel embedded, Fonts.parse_font strtod w fuel (Some g) embedded = Some (Ok (Some f)).
