(** PropsUtils.v - property theorems C08-C15 (counters, fixed-capacity queue, text utilities). *)
From Coq Require Import ZArith NArith.
From Verif Require Import Base Double DoubleFacts MathUtils Sort Counter CounterProofs TextUtils UtilsSpec
  TextUtilsProofs WrapProofs.

(** ** C08 mostFreq returns a most frequent key *)

(** Counting any list of fewer than 2^32 numbers (no NaN), whatever the iteration order [order] of the hash map:
    the reported key occurs in the list, no value occurs more often, the reported count is its number of
    occurrences, the sum of the counts is the number of values; an exception is thrown iff nothing was counted. *)
Theorem C08_double_counter : forall (l : list double) (k0 : double) (order : list (double * N)),
  (forall x, In x l -> nn x) -> (N.of_nat (length l) < 2 ^ 32)%N ->
  Permutation (count_all deq l) order ->
  (l = [] -> (exists w, mostFreq k0 order = Throw w) /\ (exists w, mostFreqCount k0 order = Throw w)) /\
  (l <> [] -> exists k, mostFreq k0 order = Ok k /\ mostFreqCount k0 order = Ok (N.of_nat (occ deq k l)) /\
      In k l /\ forall k', In k' l -> occ deq k' l <= occ deq k l) /\
  sumCounts order = N.of_nat (length l).
Proof.
  intros l k0 order Hnn Hlen HP.
  destruct (mostFreq_counted deq (fun a b H => eq_trans (deq_sym b a) H) deq_trans l k0 order
              (fun x Hx => deq_refl x (Hnn x Hx)) Hlen HP) as [H0 H1].
  unfold mostFreq, mostFreqCount. split; [|split].
  - intros Hl. destruct (H0 Hl) as [w ->]. cbn. eauto.
  - intros Hl. destruct (H1 Hl) as (k & -> & Hin & Hmax). cbn. eauto.
  - exact (sumCounts_counted deq l order Hlen HP).
Qed.
Print Assumptions C08_double_counter.

Theorem C08_string_counter : forall (l : list str) (k0 : str) (order : list (str * N)),
  (N.of_nat (length l) < 2 ^ 32)%N ->
  Permutation (count_all str_eqb l) order ->
  (l = [] -> (exists w, mostFreq k0 order = Throw w) /\ (exists w, mostFreqCount k0 order = Throw w)) /\
  (l <> [] -> exists k, mostFreq k0 order = Ok k /\ mostFreqCount k0 order = Ok (N.of_nat (occ str_eqb k l)) /\
      In k l /\ forall k', In k' l -> occ str_eqb k' l <= occ str_eqb k l) /\
  sumCounts order = N.of_nat (length l).
Proof.
  intros l k0 order Hlen HP.
  assert (forall a b, str_eqb a b = true -> str_eqb b a = true) as Hs.
  { intros a b H. apply str_eqb_eq in H. subst. apply str_eqb_refl. }
  assert (forall a b c, str_eqb a b = true -> str_eqb b c = true -> str_eqb a c = true) as Ht.
  { intros a b c H1 H2. apply str_eqb_eq in H1, H2. subst. apply str_eqb_refl. }
  destruct (mostFreq_counted str_eqb Hs Ht l k0 order (fun x _ => str_eqb_refl x) Hlen HP) as [H0 H1].
  unfold mostFreq, mostFreqCount. split; [|split].
  - intros Hl. destruct (H0 Hl) as [w ->]. cbn. eauto.
  - intros Hl. destruct (H1 Hl) as (k & -> & Hin & Hmax). cbn. eauto.
  - exact (sumCounts_counted str_eqb l order Hlen HP).
Qed.
Print Assumptions C08_string_counter.

(** For an arbitrary counter (set directly through [counter[key] = n]) and any iteration order. *)
Theorem C08_any_counter : forall (K : Type) (k0 : K) (order : list (K * N)),
  ((exists k n, mostFreqAndCount k0 order = Ok (k, n) /\ In (k, n) order /\ (0 < n)%N /\
      forall e, In e order -> (snd e <= n)%N) \/
   ((exists w, mostFreqAndCount k0 order = Throw w) /\ forall e, In e order -> snd e = 0%N)) /\
  sumCounts order = (fold_right N.add 0 (map snd order) mod 2 ^ 32)%N.
Proof. intros K k0 order. split; [exact (mostFreqAndCount_spec k0 order)|exact (sumCounts_mod order)]. Qed.
Print Assumptions C08_any_counter.

Example C08_example : let l := [S_ "a"; S_ "b"; S_ "a"] in
  Permutation (count_all str_eqb l) [(S_ "b", 1%N); (S_ "a", 2%N)] /\
  mostFreq [] [(S_ "b", 1%N); (S_ "a", 2%N)] = Ok (S_ "a").
Proof. split; [apply perm_swap|reflexivity]. Qed.
(** The sum does wrap: two keys counted 2^31 times each have the sum of counts 0. *)
Theorem C08_sum_overflow_refuted : exists order : list (str * N),
  (forall e, In e order -> (snd e < 2 ^ 32)%N) /\ sumCounts order = 0%N /\ fold_right N.add 0%N (map snd order) <> 0%N.
Proof.
  exists [(S_ "a", 2147483648%N); (S_ "b", 2147483648%N)]. split; [|split; [reflexivity|discriminate]].
  intros e [<-|[<-|[]]]; reflexivity.
Qed.
Print Assumptions C08_sum_overflow_refuted.

(** ** C09 DoubleCounter::max *)
Theorem C09_counter_max : forall order : list (double * N),
  ((exists k n, In (k, n) order /\ (0 < n)%N /\ larger k DBL_MIN TOL = true) ->
   exists m n, counter_max order = Ok m /\ In (m, n) order /\ (0 < n)%N /\
     forall k n', In (k, n') order -> (0 < n')%N -> larger k m TOL = false) /\
  ((forall k n, In (k, n) order -> (0 < n)%N -> larger k DBL_MIN TOL = false) ->
   exists w, counter_max order = Throw w).
Proof. exact counter_max_guarded. Qed.
Print Assumptions C09_counter_max.

(** A counter that holds only small (or negative) keys makes max() throw, although it is not empty. *)
Theorem C09_small_keys_refuted : exists order k, In (k, 1%N) order /\ dlt dzero k = true /\
  is_throw (counter_max order) = true.
Proof. exists [(dec 1 5, 1%N)], (dec 1 5). split; [left; reflexivity|]. vm_compute. auto. Qed.
Print Assumptions C09_small_keys_refuted.
(** ... and the result may depend on the iteration order, by up to the tolerance. *)
Theorem C09_order_dependent_refuted : exists o1 o2 m1 m2, Permutation o1 o2 /\
  counter_max o1 = Ok m1 /\ counter_max o2 = Ok m2 /\ deq m1 m2 = false.
Proof.
  exists [(dec 1000001 5, 1%N); (dec 10 0, 1%N)], [(dec 10 0, 1%N); (dec 1000001 5, 1%N)], (dec 1000001 5), (dec 10 0).
  split; [apply perm_swap|]. split; [reflexivity|]. split; [reflexivity|]. vm_compute. reflexivity.
Qed.
Print Assumptions C09_order_dependent_refuted.
Example C09_example : is_ok (counter_max [(dec 95 1, 3%N); (dec 12 0, 2%N); (dec 300 0, 0%N)]) = true /\
  match counter_max [(dec 95 1, 3%N); (dec 12 0, 2%N); (dec 300 0, 0%N)] with Ok m => deq m (dec 12 0) | _ => false end = true.
Proof. vm_compute. auto. Qed.

(** ** C10 FixedCapacityPriorityQueue *)

(** [pq_run cmp cap vs r]: pushing the values [vs] one after the other into an empty queue of capacity [cap] can
    leave the queue content [r]. For a capacity >= 1 no push fails, the queue holds min(capacity, pushes)
    elements, kept and discarded elements together are exactly the pushed ones, the value pushed last is kept, and
    no discarded element ranks (w.r.t. cmp) before another kept one. *)
Theorem C10_queue_content : forall (A : Type) (cmp : A -> A -> bool) (cap : N) (vs : list A),
  strict_weak cmp -> (1 <= cap)%N ->
  (exists r, pq_run cmp cap vs r) /\
  forall r, pq_run cmp cap vs r ->
    exists kept gone, r = Some kept /\
      N.of_nat (length kept) = N.min cap (N.of_nat (length vs)) /\ Permutation vs (kept ++ gone) /\
      (vs = [] \/ exists lst others, last_opt vs = Some lst /\ Permutation kept (lst :: others) /\
         forall d x, In d gone -> In x others -> cmp d x = false).
Proof.
  intros A cmp cap vs HS Hc. split.
  - destruct (pq_total cmp cap vs HS Hc) as [q Hq]. eauto.
  - intros r Hr. exact (pq_run_inv cmp cap vs r HS Hc Hr).
Qed.
Print Assumptions C10_queue_content.

Theorem C10_sort : forall (A : Type) impl (cmp : A -> A -> bool) (q : list A), sort_ok impl -> swo cmp q ->
  exists s, pq_sort impl cmp q = Ok s /\ Permutation q s /\ ordered cmp s.
Proof. intros A impl cmp q Hi Hs. unfold pq_sort. exact (std_sort_spec impl cmp q Hi Hs). Qed.
Print Assumptions C10_sort.

(** "The queue keeps the n best elements" is false: the top element is removed before the new one is pushed, so a
    queue of capacity 1 always holds the last value, even if it ranks behind the one it replaces. *)
Theorem C10_keeps_best_refuted : exists vs kept, pq_run Nat.ltb 1 vs (Some kept) /\ kept = [5] /\ In 1 vs.
Proof.
  exists [1; 5], [5]. split; [|split; [reflexivity|left; reflexivity]].
  apply (RunPush Nat.ltb 1 [1] [1] 5).
  - apply (RunPush Nat.ltb 1 [] [] 1); [constructor|]. apply PushFree; [discriminate|constructor; constructor].
  - apply PushFull with (q' := []); [reflexivity| |constructor; constructor].
    apply (PqPop Nat.ltb [1] 1 [] []); [reflexivity|]. intros y [<-|[]]. reflexivity.
Qed.
Print Assumptions C10_keeps_best_refuted.
(** A queue of capacity 0: the first push pops from an empty queue. *)
Theorem C10_capacity_zero_refuted : forall (A : Type) (cmp : A -> A -> bool) v, pq_run cmp 0 [v] None.
Proof. intros A cmp v. apply (RunPush cmp 0 [] [] v); [constructor|]. apply PushUB; reflexivity. Qed.
Print Assumptions C10_capacity_zero_refuted.
Example C10_strict_weak_example : strict_weak Nat.ltb.
Proof.
  split; [|split]; intros.
  - apply Nat.ltb_irrefl.
  - apply Nat.ltb_lt in H, H0. apply Nat.ltb_lt. lia.
  - apply Nat.ltb_lt in H. destruct (Nat.ltb_spec x y); auto. right. apply Nat.ltb_lt. lia.
Qed.

(** ** C11 splitIntoWords *)
Theorem C11_split_into_words : forall (A : Type) (delim : A -> bool) (text : list A) (fuel : nat),
  (N.of_nat (length text) < 2 ^ 32 - 1)%N -> length text < fuel ->
  exists words, splitIntoWords delim text fuel = Some words /\
    tokenised delim text words /\ (forall words', tokenised delim text words' -> words' = words) /\
    concat words = filter (fun c => negb (delim c)) text /\
    forall w, In w words -> w <> [] /\ forall c, In c w -> delim c = false.
Proof.
  intros A delim text fuel HL Hf. destruct (splitIntoWords_ok delim text fuel HL Hf) as (ws & E & T).
  exists ws. split; [exact E|]. split; [exact T|]. split; [|exact (tokenised_concat delim text ws T)].
  intros ws' T'. exact (tokenised_unique delim text ws' T' ws T).
Qed.
Print Assumptions C11_split_into_words.
Example C11_example :
  splitIntoWords (fun c => mem_ascii c WORD_DELIMITERS) (S_ "  foo bar, baz ") 16 = Some [S_ "foo"; S_ "bar,"; S_ "baz"].
Proof. vm_compute. reflexivity. Qed.
(** For a text of exactly 2^32-1 characters without delimiter the function never returns. *)
Theorem C11_huge_text_diverges_refuted : exists text : str, N.of_nat (length text) = (2 ^ 32 - 1)%N /\
  forall fuel, splitIntoWords (fun c => mem_ascii c WORD_DELIMITERS) text fuel = None.
Proof.
  exists (repeat "a"%char (N.to_nat (2 ^ 32 - 1))).
  assert (N.of_nat (length (repeat "a"%char (N.to_nat (2 ^ 32 - 1)))) = (2 ^ 32 - 1)%N) as HL
    by (rewrite repeat_length; apply N2Nat.id).
  split; [exact HL|]. apply split_diverges; [exact HL|].
  intros c Hc. apply repeat_spec in Hc. subst c. reflexivity.
Qed.
Print Assumptions C11_huge_text_diverges_refuted.

(** ** C12 join, shorten, strip *)
Theorem C12_join : forall strings sep,
  join strings sep = intercalate sep (drop_empty strings) /\
  (forall s rest, strings = s :: rest -> s <> [] -> join strings sep = intercalate sep strings).
Proof.
  intros strings sep. split; [exact (join_exact strings sep)|].
  intros s rest -> Hs. rewrite join_exact. destruct s; [congruence|reflexivity].
Qed.
Print Assumptions C12_join.
Theorem C12_join_leading_empty_refuted : exists strings sep, join strings sep <> intercalate sep strings.
Proof. exists [[]; S_ "a"], (S_ ","). discriminate. Qed.
Print Assumptions C12_join_leading_empty_refuted.

Theorem C12_shorten : forall s len,
  ((N.of_nat (length s) <= len)%N -> shorten s len = s) /\
  ((len < N.of_nat (length s))%N -> exists p r, s = p ++ r /\ N.of_nat (length p) = len /\ shorten s len = p ++ S_ "...") /\
  (N.of_nat (length (shorten s len)) <= len + 3)%N.
Proof. exact shorten_spec. Qed.
Print Assumptions C12_shorten.

(** endsWithSentenceDelimiter and startsWithUpper look at exactly the last resp. first character. *)
Theorem C12_sentence_predicates : forall text,
  (endsWithSentenceDelimiter text SENTENCE_DELIMITERS = true <->
     exists t c, text = t ++ [c] /\ In c ["?"; "!"; "."; ")"; ";"]%char) /\
  (startsWithUpper text = true <-> exists c t, text = c :: t /\ In c (S_ "ABCDEFGHIJKLMNOPQRSTUVWXYZ")).
Proof.
  intros text. split.
  - unfold endsWithSentenceDelimiter. destruct (last_opt text) as [c|] eqn:L.
    + rewrite mem_ascii_In. assert (LS : exists t, text = t ++ [c]).
      { unfold last_opt in L. destruct (rev text) as [|x r] eqn:R; [discriminate L|]. injection L as ->. exists (rev r). rewrite <- (rev_involutive text), R. reflexivity. }
      destruct LS as (t & ->). split.
      * intros H. exists t, c. split; [reflexivity|exact H].
      * intros (t' & c' & Q & H). apply app_inj_tail in Q. destruct Q as [_ ->]. exact H.
    + split; [discriminate|]. intros (t & c & -> & _). unfold last_opt in L. rewrite rev_app_distr in L. discriminate L.
  - assert (forall c, isupper c = true <-> In c (S_ "ABCDEFGHIJKLMNOPQRSTUVWXYZ")) as Hu.
    { intros c. rewrite <- mem_ascii_In. destruct c as [[] [] [] [] [] [] [] []]; vm_compute; split; auto. }
    destruct text as [|c t]; cbn [startsWithUpper].
    + split; [discriminate|]. intros (c & t & Q & _). discriminate Q.
    + rewrite Hu. split.
      * intros H. exists c, t. split; [reflexivity|exact H].
      * intros (c' & t' & Q & H). injection Q as -> _. exact H.
Qed.
Print Assumptions C12_sentence_predicates.
Example C12_sentence_examples : endsWithSentenceDelimiter (S_ "End (see p. 3)") SENTENCE_DELIMITERS = true /\
  endsWithSentenceDelimiter (S_ "no,") SENTENCE_DELIMITERS = false /\ startsWithUpper (S_ "Zeta") = true /\ startsWithUpper (S_ "[a") = false.
Proof. repeat split; reflexivity. Qed.

(** The whitespace characters of the "C" locale. *)
Definition white : list ascii := [" "; "009"; "010"; "011"; "012"; "013"]%char.
Theorem C12_strip : forall s,
  ((exists c, In c s /\ ~ In c white) ->
    exists a m b, s = a ++ m ++ b /\ (forall c, In c a -> In c white) /\ (forall c, In c b -> In c white) /\
      (exists c t, m = c :: t /\ ~ In c white) /\ (exists t c, m = t ++ [c] /\ ~ In c white) /\ strip s = Ok m) /\
  ((forall c, In c s -> In c white) -> is_ub (strip s) = true).
Proof.
  assert (forall c, isspace c = true <-> In c white) as Hw.
  { intros c. rewrite <- mem_ascii_In. destruct c as [[] [] [] [] [] [] [] []]; vm_compute; split; auto. }
  assert (forall c, isspace c = false <-> ~ In c white) as Hn.
  { intros c. rewrite <- Hw. destruct (isspace c); split; congruence. }
  intros s. split.
  - intros (c & Hc & Hcn). apply Hn in Hcn.
    destruct (strip_total s (ex_intro _ c (conj Hc Hcn))) as (a & m & b & -> & Ha & Hb & Hm & Hm').
    exists a, m, b. split; [reflexivity|]. split; [intros x Hx; apply Hw; auto|]. split; [intros x Hx; apply Hw; auto|].
    split; [destruct Hm as (x & t & E1 & E2); exists x, t; split; [auto|apply Hn; auto]|].
    split; [destruct Hm' as (t & x & E1 & E2); exists t, x; split; [auto|apply Hn; auto]|].
    exact (strip_ok a m b Ha Hb Hm Hm').
  - intros H. apply strip_ub. intros x Hx. apply Hw. auto.
Qed.
Print Assumptions C12_strip.
Example C12_examples : join [S_ "a"; []; S_ "b"] (S_ "-") = S_ "a--b" /\ shorten (S_ "abcdef") 3 = S_ "abc..." /\
  strip (S_ "  a b ") = Ok (S_ "a b") /\ is_ub (strip (S_ "  ")) = true.
Proof. repeat split; reflexivity. Qed.

(** ** C13 createRandomString *)
Theorem C13_random_string : forall len prefix alphabet (rand : nat -> N), 2 <= length alphabet ->
  exists t, createRandomString len prefix alphabet rand = Ok (prefix ++ t) /\ length t = len /\
    forall c, In c t -> In c alphabet /\ In c (removelast alphabet).
Proof.
  intros len prefix alphabet rand H.
  destruct (createRandomString_ok len prefix alphabet rand H) as (t & E & L & I).
  exists t. split; [exact E|]. split; [exact L|]. intros c Hc. specialize (I c Hc).
  assert (In c (removelast alphabet)) as Hr.
  { rewrite removelast_firstn_len. rewrite <- Nat.sub_1_r. exact I. }
  split; [|exact Hr]. rewrite removelast_firstn_len in Hr.
  rewrite <- (firstn_skipn (Nat.pred (length alphabet)) alphabet). apply in_or_app. left. exact Hr.
Qed.
Print Assumptions C13_random_string.
(** A one-character alphabet divides by zero (unless nothing is drawn); an empty one yields NUL bytes. *)
Theorem C13_small_alphabet_refuted : forall len prefix c (rand : nat -> N),
  is_ub (createRandomString (S len) prefix [c] rand) = true /\
  createRandomString (S len) prefix [] rand = Ok (prefix ++ repeat "000"%char (S len)).
Proof. exact createRandomString_small. Qed.
Print Assumptions C13_small_alphabet_refuted.
Example C13_example : createRandomString 3 (S_ "w-") (S_ "abc") (fun i => N.of_nat i * 7 + 3)%N = Ok (S_ "w-bab").
Proof. vm_compute. reflexivity. Qed.

(** ** C14 wrap *)
Theorem C14_wrap : forall s width indent fuel,
  (N.of_nat (length s) < 2 ^ 32 - 1)%N -> (indent < 2 ^ 32)%N -> length s < fuel ->
  exists chunks,
    wrap s width indent fuel =
      Some (Ok (intercalate ["010"%char] (map (app (repeat " "%char (N.to_nat indent))) chunks))) /\
    broken_into s chunks /\
    ((indent <= width)%N -> (N.of_nat (length s) + width < 2 ^ 32)%N -> line_ok width indent chunks).
Proof. exact wrap_ok. Qed.
Print Assumptions C14_wrap.
(** The last line can exceed the width: the indent is not counted in the "two parts" check. *)
Theorem C14_last_line_refuted : exists s width indent out,
  wrap s width indent 100 = Some (Ok out) /\ ~ In "010"%char out /\ (width < N.of_nat (length out))%N /\
  In " "%char s /\ (indent < width)%N.
Proof.
  exists (S_ "aaaa bbbb"), 10%N, 4%N, (S_ "    aaaa bbbb"). vm_compute. repeat split; auto.
  intros H. repeat (destruct H as [H|H]; [discriminate|]). exact H. auto 10.
Qed.
Print Assumptions C14_last_line_refuted.
Example C14_example : wrap (S_ "the quick brown fox jumps") 10 2 100 =
  Some (Ok (S_ "  the" ++ ["010"%char] ++ S_ "  quick" ++ ["010"%char] ++ S_ "  brown" ++ ["010"%char] ++ S_ "  fox jumps")).
Proof. vm_compute. reflexivity. Qed.

(** ** C15 JSON escaping round-trips *)
Theorem C15_escape_json : forall s,
  json_decode (escapeJson s) = Some s /\ forall c, In c (escapeJson s) -> 32 <= nat_of_ascii c.
Proof. intros s. split; [exact (escapeJson_roundtrip s)|exact (escapeJson_no_ctrl s)]. Qed.
Print Assumptions C15_escape_json.
Example C15_example : escapeJson ["a"; """"; "\"; "010"; "001"]%char = S_ "a\""\\\n\u0001".
Proof. vm_compute. reflexivity. Qed.
