(** PropsBpe.v - property theorems C35, C36 (byte pair encoding). *)
From Coq Require Import ZArith NArith.
From Verif Require Import Base Counter TextUtils UtilsSpec TextUtilsProofs Bpe BpeSpec BpeProofs.

(** ** C35 Byte-pair encoding has the requested length *)

(** For every encoder state reachable by any history of calls, every text and target length: [encode] returns; the
    result vector is its previous content followed by the encodings of the words of the text, and for n > 0 it is
    cut to, or filled up with padding ids to, exactly n entries. *)
Theorem C35_encode : forall v e text n res, reachable v e -> (N.of_nat (length text) < 2 ^ 32 - 1)%N ->
  exists words idss pad out e', tokenised wdelim text words /\ Forall2 (encodes (new_encoder v)) words idss /\
    lookup PADDING_SYMBOL (new_encoder v) = Some pad /\
    encode e text n res = Some (Ok (out, e')) /\ reachable v e' /\
    (n = 0 -> out = res ++ concat idss) /\
    (n <> 0 -> length out = n /\
       ((exists dropped, res ++ concat idss = out ++ dropped) \/ exists k, out = (res ++ concat idss) ++ repeat pad k)).
Proof. exact encode_spec. Qed.
Print Assumptions C35_encode.

(** Every id of a word's encoding is an id of the encoder's vocabulary (which includes the meta symbols). *)
Theorem C35_ids_in_vocabulary : forall v w ids z, encodes (new_encoder v) w ids -> In z ids ->
  exists t, lookup t (new_encoder v) = Some z.
Proof. intros v w ids z. exact (ids_known (new_encoder v) w ids z (proj1 (proj2 (new_encoder_meta v)))). Qed.
Print Assumptions C35_ids_in_vocabulary.

(** The three meta symbols get the ids n, n+1, n+2 (n = size of the given vocabulary), the other ids are kept; so if
    the given ids are 0..n-1, padding, unknown and word delimiter are distinguishable from all tokens. *)
Theorem C35_meta_ids : forall v,
  lookup PADDING_SYMBOL v = None -> lookup UNKNOWN_CHAR_SYMBOL v = None -> lookup WORD_DELIM_SYMBOL v = None ->
  let n := Z.of_nat (length v) in
  lookup PADDING_SYMBOL (new_encoder v) = Some n /\ lookup UNKNOWN_CHAR_SYMBOL (new_encoder v) = Some (n + 1)%Z /\
  lookup WORD_DELIM_SYMBOL (new_encoder v) = Some (n + 2)%Z /\
  forall t, t <> PADDING_SYMBOL -> t <> UNKNOWN_CHAR_SYMBOL -> t <> WORD_DELIM_SYMBOL -> lookup t (new_encoder v) = lookup t v.
Proof. exact new_encoder_fresh. Qed.
Print Assumptions C35_meta_ids.

(** If the vocabulary itself contains the padding symbol, or if its ids do not start at 0, ids collide. *)
Theorem C35_meta_collision_refuted :
  (exists v, lookup PADDING_SYMBOL (new_encoder v) = lookup UNKNOWN_CHAR_SYMBOL (new_encoder v)) /\
  (exists v t, v = [(t, 1%Z)] /\ lookup PADDING_SYMBOL (new_encoder v) = lookup t (new_encoder v)).
Proof.
  split.
  - exists [(PADDING_SYMBOL, 0%Z)]. reflexivity.
  - exists [([97%N], 1%Z)], [97%N]. split; reflexivity.
Qed.
Print Assumptions C35_meta_collision_refuted.

(** ** C36 Merging terminates, is lossless and cache-transparent *)
Theorem C36_word_encoding : forall v0 w, w <> [] -> let v := new_encoder v0 in
  (exists ids, encodes v w ids) /\
  (forall toks, bpe v (chars (w ++ WORD_DELIM_SYMBOL)) toks -> concat toks = w ++ WORD_DELIM_SYMBOL /\ unmergeable v toks) /\
  (forall ids ids', encodes v w ids -> encodes v w ids' -> ids = ids').
Proof. exact word_encoding. Qed.
Print Assumptions C36_word_encoding.

(** The merge loop of the implementation terminates (its fuel is the length of the word) and computes the unique
    result of the merge rounds of the specification. *)
Theorem C36_merge_loop : forall v tokens fuel, tokens <> [] -> length tokens <= fuel ->
  exists r, token_loop v fuel tokens = Some (Ok r) /\ bpe v tokens r /\ (forall r', bpe v tokens r' -> r' = r).
Proof.
  intros v tokens fuel Hne Hl. destruct (token_loop_ok v fuel tokens Hl Hne) as (r & E & B).
  exists r. split; [exact E|]. split; [exact B|]. intros r' B'. exact (bpe_unique v tokens r' B' r B).
Qed.
Print Assumptions C36_merge_loop.

Theorem C36_cache_transparent : forall v e1 e2 text n res o1 e1' o2 e2', reachable v e1 -> reachable v e2 ->
  (N.of_nat (length text) < 2 ^ 32 - 1)%N ->
  encode e1 text n res = Some (Ok (o1, e1')) -> encode e2 text n res = Some (Ok (o2, e2')) -> o1 = o2.
Proof. exact encode_history. Qed.
Print Assumptions C36_cache_transparent.

(** A vocabulary, two texts and their encodings (ids as the code computes them); the second call hits the cache. *)
Definition w_of (s : string) : wstr := map N_of_ascii (S_ s).
Definition toy_voc : vocabulary := [(w_of "a", 0%Z); (w_of "b", 1%Z); (w_of "ab", 2%Z); (w_of "abab", 3%Z)].
Definition run_encode (e : encoder) (t : wstr) (n : nat) : list Z * encoder :=
  match encode e t n [] with Some (Ok p) => p | _ => ([], e) end.
Example C36_example :
  let '(o1, e1) := run_encode (make_encoder toy_voc) (w_of "abab ax") 8 in
  let '(o2, e2) := run_encode e1 (w_of "abab ax") 8 in
  o1 = [3; 6; 0; 5; 6; 4; 4; 4]%Z /\ o2 = o1 /\ length (cache e1) = 2 /\ reachable toy_voc e1.
Proof.
  vm_compute. repeat split. apply (reach_encode _ (make_encoder toy_voc) (w_of "abab ax") 8 [] [3; 6; 0; 5; 6; 4; 4; 4]%Z).
  - constructor.
  - reflexivity.
  - vm_compute. reflexivity.
Qed.
