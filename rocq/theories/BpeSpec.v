(** BpeSpec.v - byte pair encoding as defined in the class documentation (src/utils/BytePairEncoder.h:32-90),
    independent of the implementation (no positions, no cache). *)
From Coq Require Import ZArith NArith.
From Verif Require Import Base Bpe.

Definition known (v : vocabulary) (t : wstr) : Prop := exists z, lookup t v = Some z.
(** No two adjacent tokens form a token of the vocabulary. *)
Definition unmergeable (v : vocabulary) (tokens : list wstr) : Prop :=
  forall pre a b post, tokens = pre ++ a :: b :: post -> ~ known v (a ++ b).
(** Replace, from left to right, every pair of adjacent tokens that spells [m] by [m]. *)
Fixpoint replace_pairs (m : wstr) (tokens : list wstr) {struct tokens} : list wstr :=
  match tokens with
  | a :: t =>
      match t with
      | b :: t' => if wstr_eqb (a ++ b) m then m :: replace_pairs m t' else a :: replace_pairs m t
      | [] => [a]
      end
  | [] => []
  end.
(** One round: the leftmost pair that is in the vocabulary is merged everywhere. *)
Inductive bpe_round (v : vocabulary) (tokens : list wstr) : list wstr -> Prop :=
| round pre a b post : tokens = pre ++ a :: b :: post -> known v (a ++ b) -> unmergeable v (pre ++ [a]) ->
    bpe_round v tokens (replace_pairs (a ++ b) tokens).
(** Rounds until nothing can be merged. *)
Inductive bpe (v : vocabulary) : list wstr -> list wstr -> Prop :=
| bpe_done tokens : unmergeable v tokens -> bpe v tokens tokens
| bpe_step tokens tokens' result : bpe_round v tokens tokens' -> bpe v tokens' result -> bpe v tokens result.

(** The single characters of a word. *)
Definition chars (w : wstr) : list wstr := map (fun c => [c]) w.
(** The id of a token: its id in the vocabulary, or the id of the symbol for unknown characters. *)
Definition has_id (v : vocabulary) (t : wstr) (z : Z) : Prop :=
  lookup t v = Some z \/ (lookup t v = None /\ lookup UNKNOWN_CHAR_SYMBOL v = Some z).
(** [ids] is the encoding of the word [w] (to which the word delimiter symbol is appended). *)
Definition encodes (v : vocabulary) (w : wstr) (ids : list Z) : Prop :=
  exists toks, bpe v (chars (w ++ WORD_DELIM_SYMBOL)) toks /\ Forall2 (has_id v) toks ids.

(** The states an encoder for vocabulary [v] can be in, after any sequence of calls of [encode]. *)
Inductive reachable (v : vocabulary) : encoder -> Prop :=
| reach_init : reachable v (make_encoder v)
| reach_encode e text n res out e' : reachable v e -> (N.of_nat (length text) < 2 ^ 32 - 1)%N ->
    encode e text n res = Some (Ok (out, e')) -> reachable v e'.
