(** Bpe.v - model of src/utils/BytePairEncoder.cpp. *)
From Coq Require Import ZArith NArith.
From Verif Require Import Base Counter TextUtils.

(** [std::wstring]: code points. *)
Definition wstr := list N.
Definition wstr_eqb (a b : wstr) : bool := if list_eq_dec N.eq_dec a b then true else false.

(** [std::unordered_map<wstring, V>]: an association list (iteration order is never used by this class). *)
Section Map.
  Context {V : Type}.
  (** [find]. *)
  Fixpoint lookup (k : wstr) (m : list (wstr * V)) : option V :=
    match m with [] => None | (k', v) :: t => if wstr_eqb k' k then Some v else lookup k t end.
  (** [m[k] = v]: replaces the value of an existing key, otherwise inserts. *)
  Fixpoint assign (k : wstr) (v : V) (m : list (wstr * V)) : list (wstr * V) :=
    match m with
    | [] => [(k, v)]
    | (k', v') :: t => if wstr_eqb k' k then (k', v) :: t else (k', v') :: assign k v t
    end.
End Map.
Definition vocabulary := list (wstr * Z).

(** src/utils/BytePairEncoder.h:96-100 (U+229B, U+233E, U+2702) *)
Definition PADDING_SYMBOL : wstr := [8859%N].
Definition UNKNOWN_CHAR_SYMBOL : wstr := [9022%N].
Definition WORD_DELIM_SYMBOL : wstr := [9986%N].

(** src/utils/BytePairEncoder.cpp:32-39. The right operand of an assignment is evaluated before the left one
    (C++17), so [size()] does not yet count the inserted key. The size is assumed to fit into an [int]. *)
Definition add_meta (k : wstr) (v : vocabulary) : vocabulary := assign k (Z.of_nat (length v)) v.
Definition new_encoder (v : vocabulary) : vocabulary :=
  add_meta WORD_DELIM_SYMBOL (add_meta UNKNOWN_CHAR_SYMBOL (add_meta PADDING_SYMBOL v)).

(** src/utils/BytePairEncoder.cpp:186-214. The pairs of consecutive tokens in the order of their first occurrence,
    with the positions where they start. [acc] is [result]; the local [cache] maps a merged token to its entry
    of [result], so that looking it up is looking it up in [result]. *)
Fixpoint add_pair (m : wstr) (i : nat) (acc : list (wstr * list nat)) : list (wstr * list nat) :=
  match acc with
  | [] => [(m, [i])]
  | (m', ps) :: t => if wstr_eqb m' m then (m', i :: ps) :: t else (m', ps) :: add_pair m i t
  end.
Fixpoint pairs_loop (tokens : list wstr) (i : nat) (acc : list (wstr * list nat)) : list (wstr * list nat) :=
  match tokens with
  | a :: ((b :: _) as t) => pairs_loop t (S i) (add_pair (a ++ b) i acc)
  | _ => acc
  end.
Definition computeTokenPairPositions (tokens : list wstr) : list (wstr * list nat) := pairs_loop tokens 0 [].

(** src/utils/BytePairEncoder.cpp:124-131 *)
Fixpoint firstMatchingPairPositions (voc : vocabulary) (pairs : list (wstr * list nat)) : option (list nat) :=
  match pairs with
  | [] => None
  | (m, ps) :: t => match lookup m voc with Some _ => Some ps | None => firstMatchingPairPositions voc t end
  end.

(** src/utils/BytePairEncoder.cpp:141-152. [wordTokens[i + 1]] behind the end would be undefined. *)
Fixpoint merge_loop (ps : list nat) (i : nat) (tokens : list wstr) {struct tokens} : outcome (list wstr) :=
  match tokens with
  | [] => Ok []
  | a :: t =>
      if existsb (Nat.eqb i) ps then
        match t with
        | [] => UB "index out of range"
        | b :: t' => do r <- merge_loop ps (i + 2) t' ; Ok ((a ++ b) :: r)
        end
      else do r <- merge_loop ps (i + 1) t ; Ok (a :: r)
  end.

(** src/utils/BytePairEncoder.cpp:119-166. [None]: not finished within the fuel. *)
Fixpoint token_loop (voc : vocabulary) (fuel : nat) (tokens : list wstr) : option (outcome (list wstr)) :=
  match fuel with
  | 0 => None
  | S fuel' =>
      match firstMatchingPairPositions voc (computeTokenPairPositions tokens) with
      | None => Some (Ok tokens)
      | Some ps =>
          match merge_loop ps 0 tokens with
          | Ok tokens' => if length tokens' =? 1 then Some (Ok tokens') else token_loop voc fuel' tokens'
          | UB w => Some (UB w)
          | Throw w => Some (Throw w)
          end
      end
  end.

(** The state of an encoder: vocabulary and cache. *)
Record encoder := { voc : vocabulary; cache : list (wstr * list Z) }.
(** [_vocabulary[k]]: inserts 0 for a missing key. *)
Definition voc_at (v : vocabulary) (k : wstr) : Z * vocabulary :=
  match lookup k v with Some z => (z, v) | None => (0%Z, assign k 0%Z v) end.

(** src/utils/BytePairEncoder.cpp:174-182: the ids of the tokens. ([_vocabulary[UNKNOWN_CHAR_SYMBOL]] always exists
    after construction; were it missing, 0 would be inserted - this side effect is not modelled.) *)
Definition token_id (v : vocabulary) (t : wstr) : Z :=
  match lookup t v with Some z => z | None => fst (voc_at v UNKNOWN_CHAR_SYMBOL) end.

(** src/utils/BytePairEncoder.cpp:88-183. Result: the appended ids and the new encoder state. *)
Definition encodeWord (e : encoder) (word : wstr) : option (outcome (list Z * encoder)) :=
  match word with
  | [] => Some (Ok ([], e))
  | _ =>
      match lookup word (cache e) with
      | Some ids => Some (Ok (ids, e))
      | None =>
          let tokens := map (fun c => [c]) word in
          match computeTokenPairPositions tokens with
          | [] => let '(z, v) := voc_at (voc e) word in Some (Ok ([z], {| voc := v; cache := cache e |}))
          | _ =>
              match token_loop (voc e) (length word) tokens with
              | None => None
              | Some (Ok toks) =>
                  let ids := map (token_id (voc e)) toks in
                  Some (Ok (ids, {| voc := voc e; cache := assign word ids (cache e) |}))
              | Some (UB w) => Some (UB w)
              | Some (Throw w) => Some (Throw w)
              end
          end
      end
  end.

(** src/utils/BytePairEncoder.cpp:51-66 *)
Fixpoint encode_words (e : encoder) (words : list wstr) (res : list Z) : option (outcome (list Z * encoder)) :=
  match words with
  | [] => Some (Ok (res, e))
  | w :: t =>
      if length w =? 0 then encode_words e t res
      else match encodeWord e (w ++ WORD_DELIM_SYMBOL) with
           | Some (Ok (ids, e')) => encode_words e' t (res ++ ids)
           | Some (UB x) => Some (UB x)
           | Some (Throw x) => Some (Throw x)
           | None => None
           end
  end.
(** src/utils/BytePairEncoder.cpp:75-84: pad or truncate. *)
Definition fit (pad : Z) (targetLength : nat) (res : list Z) : list Z :=
  if targetLength =? 0 then res
  else firstn targetLength (res ++ repeat pad (targetLength - length res)).
(** src/utils/BytePairEncoder.cpp:43-85. The default word delimiters (src/Config.h:49), as code points.
    [res] is the content of the result vector before the call. *)
Definition wdelim (c : N) : bool := existsb (N.eqb c) (map N_of_ascii WORD_DELIMITERS).
Definition encode (e : encoder) (text : wstr) (targetLength : nat) (res : list Z) : option (outcome (list Z * encoder)) :=
  match splitIntoWords wdelim text (S (length text)) with
  | None => None
  | Some words =>
      match encode_words e words res with
      | Some (Ok (ids, e')) =>
          let '(pad, v) := voc_at (voc e') PADDING_SYMBOL in
          Some (Ok (fit pad targetLength ids, if targetLength =? 0 then e' else
             if length ids <? targetLength then {| voc := v; cache := cache e' |} else e'))
      | r => r
      end
  end.
(** A freshly constructed encoder. *)
Definition make_encoder (v : vocabulary) : encoder := {| voc := new_encoder v; cache := [] |}.
