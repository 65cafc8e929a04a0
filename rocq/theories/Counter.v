(** Counter.v - model of src/utils/Counter.h, src/utils/Counter.cpp and
    src/utils/FixedCapacityPriorityQueue.h.

    An [unordered_map] is an association list with pairwise different keys; the order of the list is
    the iteration order, which the standard leaves unspecified: every theorem quantifies over it. *)
From Coq Require Import ZArith NArith.
From Verif Require Import Base Double MathUtils Sort.

(** [unsigned int] arithmetic. *)
Definition u32 (n : N) : N := (n mod 2 ^ 32)%N.

Section Map.
  Context {K : Type} (eqb : K -> K -> bool).
  (** [counter[k]++]: [unordered_map::operator[]] inserts 0 for a new key (at an unspecified place). *)
  Fixpoint incr (k : K) (c : list (K * N)) : list (K * N) :=
    match c with
    | [] => [(k, 1%N)]
    | (k', n) :: t => if eqb k' k then (k', u32 (n + 1)) :: t else (k', n) :: incr k t
    end.
  (** The counter after counting the values of a list (the loops in src/utils/WordsDetectionUtils.cpp:76-77,
      src/TextLinesDetection.cpp:432-434, src/utils/TextBlocksDetectionUtils.cpp:730-731, ...). *)
  Definition count_all (l : list K) : list (K * N) := fold_left (fun c k => incr k c) l [].

  (** src/utils/Counter.cpp:39-55 and 101-117 (the two versions differ in the key type; [k0] is the initial
      value of [mostFreq]: 0.0 resp. the empty string). *)
  Definition mostFreqAndCount (k0 : K) (order : list (K * N)) : outcome (K * N) :=
    let '(k, n) := fold_left (fun acc e => if (snd acc <? snd e)%N then e else acc) order (k0, 0%N) in
    if (n =? 0)%N then Throw "The counter is empty or all counts are == 0." else Ok (k, n).
  (** src/utils/Counter.cpp:29-31, 91-93 *)
  Definition mostFreq (k0 : K) (order : list (K * N)) : outcome K :=
    do p <- mostFreqAndCount k0 order ; Ok (fst p).
  (** src/utils/Counter.cpp:34-36, 96-98 *)
  Definition mostFreqCount (k0 : K) (order : list (K * N)) : outcome N :=
    do p <- mostFreqAndCount k0 order ; Ok (snd p).
  (** src/utils/Counter.cpp:77-85, 120-128 *)
  Definition sumCounts (order : list (K * N)) : N :=
    fold_left (fun s e => u32 (s + snd e)) order 0%N.
End Map.

(** src/utils/Counter.cpp:58-74 DoubleCounter::max *)
Definition counter_max (order : list (double * N)) : outcome double :=
  let '(m, found) :=
    fold_left (fun (acc : double * bool) e =>
        if (0 <? snd e)%N && larger (fst e) (fst acc) TOL then (fst e, true) else acc)
      order (DBL_MIN, false) in
  if found then Ok m else Throw "The counter is empty or all counts are == 0.".

(** ** FixedCapacityPriorityQueue (src/utils/FixedCapacityPriorityQueue.h) *)
Section PQ.
  Context {A : Type} (cmp : A -> A -> bool).
  (** The container of a [std::priority_queue] is modelled as a list in unspecified order. [pop] removes
      the element [top()] refers to: some element that no element exceeds (w.r.t. [cmp]); which one of
      several equivalent ones is unspecified, hence the relational model. *)
  Inductive pq_pop (q : list A) : list A -> Prop :=
  | PqPop x q1 q2 : q = q1 ++ x :: q2 -> (forall y, In y q -> cmp x y = false) -> pq_pop q (q1 ++ q2).
  (** src/utils/FixedCapacityPriorityQueue.h:52-57. [None]: [pop] on an empty queue, undefined. *)
  Inductive pq_push (capacity : N) (q : list A) (v : A) : option (list A) -> Prop :=
  | PushFull q' r : N.of_nat (length q) = capacity -> pq_pop q q' -> Permutation (v :: q') r ->
      pq_push capacity q v (Some r)
  | PushUB : N.of_nat (length q) = capacity -> q = [] -> pq_push capacity q v None
  | PushFree r : N.of_nat (length q) <> capacity -> Permutation (v :: q) r -> pq_push capacity q v (Some r).
  (** A sequence of pushes into an initially empty queue, src/utils/FixedCapacityPriorityQueue.h:37-39. *)
  Inductive pq_run (capacity : N) : list A -> option (list A) -> Prop :=
  | RunNil : pq_run capacity [] (Some [])
  | RunPush vs q v r : pq_run capacity vs (Some q) -> pq_push capacity q v r -> pq_run capacity (vs ++ [v]) r
  | RunUB vs v : pq_run capacity vs None -> pq_run capacity (vs ++ [v]) None.
  (** src/utils/FixedCapacityPriorityQueue.h:69-74: [partial_sort_copy] into a vector of the queue's size,
      i.e. a complete sort with the given comparator. *)
  Definition pq_sort (impl : (A -> A -> bool) -> list A -> list A) (c : A -> A -> bool) (q : list A)
    : outcome (list A) := std_sort impl c q.
End PQ.
