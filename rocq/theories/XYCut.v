(** XYCut.v - model of src/utils/XYCut.cpp, of class Cut (src/Types.h:1148-1239) and of the operations of
    FixedCapacityPriorityQueue (src/utils/FixedCapacityPriorityQueue.h) as xCut uses them.

    The functions are generic in the type [A] of page elements; [pos] is [element->pos]. [impl] is the
    implementation of std::sort and [topi] that of std::priority_queue: the place of the element top() refers to
    (the standard leaves open which of several equivalent elements that is). The random ids of cuts
    (src/utils/XYCut.cpp:166, 268) and the debug output are not modelled. *)
From Coq Require Import ZArith NArith.
From Verif Require Import Base Double MathUtils Sort Elements Counter.

Section XYCut.
  Context {A : Type} (pos : A -> position).
  Context (impl : (A -> A -> bool) -> list A -> list A) (topi : (A -> A -> bool) -> list A -> nat).

  (** src/Types.h:1178-1238. Sentinel cuts (null elements) are not represented by this record. *)
  Record cut := mkCut {
    cut_page : Z; cut_x1 : double; cut_y1 : double; cut_x2 : double; cut_y2 : double;
    cut_chosen : bool; cut_before : A; cut_after : A; cut_gapWidth : double; cut_gapHeight : double;
    cut_overlap : list A; cut_pos : nat }.
  Definition set_chosen (c : cut) (b : bool) : cut :=
    mkCut (cut_page c) (cut_x1 c) (cut_y1 c) (cut_x2 c) (cut_y2 c) b (cut_before c) (cut_after c)
          (cut_gapWidth c) (cut_gapHeight c) (cut_overlap c) (cut_pos c).

  (** src/utils/XYCut.h:56-57 ChooseCutsFunc: sees the candidates and the sorted elements and sets the isChosen
      flags; modelled as the function that returns the flags (false for the candidates beyond its result). *)
  Definition chooser := list cut -> list A -> outcome (list bool).
  Fixpoint apply_flags (cuts : list cut) (flags : list bool) : list cut :=
    match cuts with
    | [] => []
    | c :: t => set_chosen c (hd false flags) :: apply_flags t (tl flags)
    end.

  Definition leftXAsc (a b : A) : bool := LeftXAsc (pos a) (pos b).
  Definition upperYAsc (a b : A) : bool := UpperYAsc (pos a) (pos b).
  Definition rightXDesc (a b : A) : bool := RightXDesc (pos a) (pos b).

  (** std::priority_queue::top / ::pop / ::push and src/utils/FixedCapacityPriorityQueue.h:52-57. The heap
      operations require a strict weak order on the elements of the queue. *)
  Definition pq_top (q : list A) : outcome A :=
    match nth_error q (topi rightXDesc q) with
    | Some x => Ok x
    | None => UB "top() of an empty priority queue"
    end.
  Definition pq_remove_top (q : list A) : list A :=
    firstn (topi rightXDesc q) q ++ skipn (S (topi rightXDesc q)) q.
  Definition pq_push_f (cap : N) (q : list A) (v : A) : outcome (list A) :=
    if swo_b rightXDesc (v :: q) then
      if (N.of_nat (length q) =? cap)%N then
        match q with
        | [] => UB "pop() of an empty priority queue"
        | _ :: _ => Ok (v :: pq_remove_top q)
        end
      else Ok (v :: q)
    else UB "priority_queue: comparator is not a strict weak order".
  (** src/utils/XYCut.cpp:140-141: the int maxNumOverlappingElements + 1, stored as unsigned int
      (src/utils/FixedCapacityPriorityQueue.h:37-39, 78). *)
  Definition queue_capacity (maxOverlap : Z) : N := Z.to_N ((maxOverlap + 1) mod 2 ^ 32).

  (** src/utils/XYCut.cpp:157-184: the first of the elements [prevs] with a wide enough gap to [e]. *)
  Fixpoint find_gap (minGap y1 y2 : double) (p : nat) (e : A) (overlapping prevs : list A) : option cut :=
    match prevs with
    | [] => None
    | prev :: t =>
        let gapWidth := computeHorizontalGap (pos prev) (pos e) in
        let gapX := dadd (rightX (pos prev)) (ddiv gapWidth (dZ 2)) in
        if equalOrLarger gapWidth minGap TOL then
          Some (mkCut (pageNum (pos e)) gapX y1 gapX y2 false prev e gapWidth (dsub y2 y1) overlapping p)
        else find_gap minGap y1 y2 p e (overlapping ++ [prev]) t
    end.
  Definition opt_list {B} (o : option B) : list B := match o with Some x => [x] | None => [] end.

  (** src/utils/XYCut.cpp:145-190: the candidates for the positions [p], [p+1], ... of the remaining elements. *)
  Fixpoint x_scan (minGap y1 y2 : double) (cap : N) (p : nat) (queue rest : list A) : outcome (list cut) :=
    match rest with
    | [] => Ok []
    | e :: t =>
        do sorted <- pq_sort impl rightXDesc queue ;
        let c := find_gap minGap y1 y2 p e [] sorted in
        do tp <- pq_top queue ;
        do queue' <- (if larger (rightX (pos e)) (rightX (pos tp)) TOL then pq_push_f cap queue e else Ok queue) ;
        do cs <- x_scan minGap y1 y2 cap (S p) queue' t ;
        Ok (opt_list c ++ cs)
    end.

  (** src/utils/XYCut.cpp:257-287 *)
  Fixpoint y_scan (minGap x1 x2 : double) (p : nat) (largest : A) (rest : list A) : list cut :=
    match rest with
    | [] => []
    | e :: t =>
        let gapHeight := computeVerticalGap (pos largest) (pos e) in
        let gapY := dadd (lowerY (pos largest)) (ddiv gapHeight (dZ 2)) in
        let c := if equalOrLarger gapHeight minGap TOL
                 then [mkCut (pageNum (pos e)) x1 gapY x2 gapY false largest e (dsub x2 x1) gapHeight [] p]
                 else [] in
        let largest' := if larger (lowerY (pos e)) (lowerY (pos largest)) TOL then e else largest in
        c ++ y_scan minGap x1 x2 (S p) largest' t
    end.

  (** src/utils/XYCut.cpp:197-227 and 294-324: divide the elements at the chosen cuts. Forming an iterator range
      that is not inside the vector is undefined. *)
  Fixpoint divide (prevCutPos : nat) (cuts : list cut) (s : list A) : outcome (list (list A)) :=
    match cuts with
    | [] => Ok [skipn prevCutPos s]
    | c :: t =>
        if cut_chosen c then
          if (prevCutPos <=? cut_pos c) && (cut_pos c <=? length s) then
            do gs <- divide (cut_pos c) t s ;
            Ok (firstn (cut_pos c - prevCutPos) (skipn prevCutPos s) :: gs)
          else UB "invalid iterator range"
        else divide prevCutPos t s
    end.

  (** Result of xCut/yCut: hasChosenCut, the groups and the cuts appended to the result vectors. *)
  Definition cut_result := (bool * list (list A) * list cut)%type.
  Definition finish (choose : chooser) (candidates : list cut) (s : list A) : outcome cut_result :=
    do flags <- choose candidates s ;
    let cuts := apply_flags candidates flags in
    do groups <- divide 0 cuts s ;
    Ok (existsb cut_chosen cuts, groups, cuts).

  (** src/utils/XYCut.cpp:100-228 *)
  Definition xCut (minGap : double) (maxOverlap : Z) (choose : chooser) (elements : list A) : outcome cut_result :=
    match elements with
    | [] => Ok (false, [], [])
    | _ :: _ =>
        do s <- std_sort impl leftXAsc elements ;
        let minY := fold_left (fun m e => minimum m (upperY (pos e))) s DBL_MAX in
        let maxY := fold_left (fun m e => maximum m (lowerY (pos e))) s DBL_MIN in
        match s with
        | [] => UB "sElements[0] of an empty vector"
        | e0 :: rest =>
            let cap := queue_capacity maxOverlap in
            do queue <- pq_push_f cap [] e0 ;
            do candidates <- x_scan minGap minY maxY cap 1 queue rest ;
            finish choose candidates s
        end
    end.

  (** src/utils/XYCut.cpp:231-325 *)
  Definition yCut (minGap : double) (choose : chooser) (elements : list A) : outcome cut_result :=
    match elements with
    | [] => Ok (false, [], [])
    | _ :: _ =>
        do s <- std_sort impl upperYAsc elements ;
        let minX := fold_left (fun m e => minimum m (leftX (pos e))) s DBL_MAX in
        let maxX := fold_left (fun m e => maximum m (rightX (pos e))) s DBL_MIN in
        match s with
        | [] => UB "sElements[0] of an empty vector"
        | e0 :: rest => finish choose (y_scan minGap minX maxX 1 e0 rest) s
        end
    end.

  (** Runs of the recursive function: [None] if the recursion depth exceeds the fuel. *)
  Definition run (B : Type) := option (outcome B).
  Definition rbind {B C} (m : run B) (k : B -> run C) : run C :=
    match m with
    | None => None
    | Some (Ok x) => k x
    | Some (UB w) => Some (UB w)
    | Some (Throw w) => Some (Throw w)
    end.
  Definition xy_result := (list (list A) * list cut)%type.
  (** A loop over groups that appends to resultGroups and resultCuts. *)
  Fixpoint for_groups (f : list A -> run xy_result) (gs : list (list A)) : run xy_result :=
    match gs with
    | [] => Some (Ok ([], []))
    | g :: t => rbind (f g) (fun r1 => rbind (for_groups f t) (fun r2 =>
                  Some (Ok (fst r1 ++ fst r2, snd r1 ++ snd r2))))
    end.

  (** src/utils/XYCut.cpp:46-97 *)
  Fixpoint xyCut (fuel : nat) (minX minY : double) (maxOverlap : Z) (chooseX chooseY : chooser)
      (elements : list A) : run xy_result :=
    match elements with
    | [] => Some (Ok ([], []))
    | _ :: _ =>
        match fuel with
        | 0 => None
        | S fuel' =>
            let rec := xyCut fuel' minX minY maxOverlap chooseX chooseY in
            rbind (Some (xCut minX maxOverlap chooseX elements)) (fun rx =>
              let '(ok, xGroups, xCuts) := rx in
              if negb ok then
                rbind (Some (yCut minY chooseY elements)) (fun ry =>
                  let '(ok, yGroups, yCuts) := ry in
                  if negb ok then Some (Ok ([elements], xCuts ++ yCuts))
                  else rbind (for_groups rec yGroups) (fun r =>
                         Some (Ok (fst r, xCuts ++ yCuts ++ snd r))))
              else
                rbind (for_groups (fun xGroup =>
                    rbind (Some (yCut minY chooseY xGroup)) (fun ry =>
                      let '(ok, yGroups, yCuts) := ry in
                      if negb ok then Some (Ok ([xGroup], yCuts))
                      else rbind (for_groups rec yGroups) (fun r => Some (Ok (fst r, yCuts ++ snd r)))))
                    xGroups)
                  (fun r => Some (Ok (fst r, xCuts ++ snd r))))
        end
    end.
End XYCut.
Arguments cut A : clear implicits.
Arguments mkCut {A}.
Arguments chooser A : clear implicits.

(** The contract of [topi]: on a non-empty queue whose elements the comparator orders, an element that no element
    of the queue exceeds. *)
Definition top_ok {A} (topi : (A -> A -> bool) -> list A -> nat) : Prop :=
  forall cmp q, q <> [] -> swo cmp q ->
    exists x, nth_error q (topi cmp q) = Some x /\ forall y, In y q -> cmp x y = false.
