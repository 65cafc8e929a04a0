(** Lines.v - src/TextLinesDetection.cpp and src/utils/TextLinesDetectionUtils.cpp: text lines, trim boxes and the text
    line hierarchy. Words are referred to by their numbers in a heap (Document.v); lines by their ranks, which number
    the lines of the document consecutively. *)
From Coq Require Import ZArith NArith.
From Verif Require Import Base Double MathUtils Sort Elements Counter Document.

(** src/Types.h:406-428 (PdfTextElement) and 622-732 (PdfTextLine). The id is a random string and not modelled; nor are
    the base bounding box and the margins (computed by later modules) and the back references to document and segment.
    The hierarchy ([parentLine], [prevSiblingLine], [nextSiblingLine]) is modelled separately below. *)
Record tline := mkLine {
  l_rank : Z; l_pos : position; l_text : str; l_fontName : str; l_fontSize : double;
  l_maxFontSize : double; l_base : double; l_words : list nat;
  l_prev : option Z; l_next : option Z }.

(** src/Types.h:233-246, 415-428, 665-695: a new line (with the words set, src/TextLinesDetection.cpp:356-363). *)
Definition new_line (ws : list nat) : tline :=
  mkLine (-1) pos_default [] [] (dopp done) dzero dzero ws None None.

Section Lines.
  (** [implW], [implL]: std::sort on words and on lines; [ordS], [ordD], [ordR], [ordY]: the iteration orders of the
      hash maps (all arbitrary). [acw]: doc->avgCharWidth. [h]: the words. *)
  Context (implW : (nat -> nat -> bool) -> list nat -> list nat) (implL : (tline -> tline -> bool) -> list tline -> list tline).
  Context (ordS : list (str * N) -> list (str * N)) (ordD : list (double * N) -> list (double * N)).
  Context (ordR : list (Z * list (double * list nat)) -> list (Z * list (double * list nat)))
          (ordY : list (double * list nat) -> list (double * list nat)).
  Context (acw : double) (h : heap).

  Definition wpos (i : nat) : position := w_pos (h i).

  (** src/TextLinesDetection.cpp:405-409: the comparator, depending on the rotation. *)
  Definition word_lt (rot : Z) (i j : nat) : bool :=
    if (rot =? 0)%Z || (rot =? 1)%Z then RotLeftXAsc (wpos i) (wpos j) else RotLeftXDesc (wpos i) (wpos j).
  (** src/TextLinesDetection.cpp:420-428. *)
  Definition line_box_add (box e : position) : position :=
    mkPos (pageNum box) (minimum (leftX box) (minimum (leftX e) (rightX e)))
          (minimum (upperY box) (minimum (lowerY e) (upperY e)))
          (maximum (rightX box) (maximum (leftX e) (rightX e)))
          (maximum (lowerY box) (maximum (lowerY e) (upperY e))) (rotation box) (wMode box).
  (** src/TextLinesDetection.cpp:437-441: the texts, separated by blanks. *)
  Fixpoint join_words (ws : list nat) : str :=
    match ws with
    | [] => []
    | [w] => w_text (h w)
    | w :: t => w_text (h w) ++ " "%char :: join_words t
    end.
  (** The characters of a list of words, in order. *)
  Definition chars_of (ws : list nat) : list character := concat (map (fun i => w_chars (h i)) ws).

  (** src/TextLinesDetection.cpp:386-463. *)
  Definition computeTextLineProperties (l : tline) : outcome tline :=
    match l_words l with
    | [] => Ok l
    | w0 :: _ =>
        let rot := rotation (wpos w0) in
        do ws <- std_sort implW (word_lt rot) (l_words l) ;
        let p0 := l_pos l in
        let pos := fold_left line_box_add (map wpos ws)
          (mkPos (pageNum (wpos w0)) (leftX p0) (upperY p0) (rightX p0) (lowerY p0) rot (wMode (wpos w0))) in
        let cs := chars_of ws in
        let names := ordS (count_all str_eqb (map c_fontName cs)) in
        let sizes := ordD (count_all deq (map c_fontSize cs)) in
        let bases := ordD (count_all deq (map c_base cs)) in
        do fn <- (if (0 <? sumCounts names)%N then mostFreq ([] : str) names else Ok (l_fontName l)) ;
        do fs <- (if (0 <? sumCounts sizes)%N then mostFreq dzero sizes else Ok (l_fontSize l)) ;
        do mx <- (if (0 <? sumCounts sizes)%N then counter_max sizes else Ok (l_maxFontSize l)) ;
        do bs <- (if (0 <? sumCounts bases)%N then mostFreq dzero bases else Ok (l_base l)) ;
        Ok (mkLine (l_rank l) pos (join_words ws) fn fs mx bs ws (l_prev l) (l_next l))
    end.

  (** src/TextLinesDetection.cpp:350-374. *)
  Definition createTextLine (ws : list nat) : outcome tline := computeTextLineProperties (new_line ws).
  (** src/TextLinesDetection.cpp:377-383: [l1] is merged into [l2]. *)
  Definition mergeTextLines (l1 l2 : tline) : outcome tline :=
    computeTextLineProperties
      (mkLine (l_rank l2) (l_pos l2) (l_text l2) (l_fontName l2) (l_fontSize l2) (l_maxFontSize l2) (l_base l2)
              (l_words l2 ++ l_words l1) (l_prev l2) (l_next l2)).

  (** ** Clusters: src/TextLinesDetection.cpp:119-158 *)
  Section Push.
    Context {K V : Type} (eqb : K -> K -> bool) (f : option V -> V).
    (** m[k] = f(m[k]), where [None] stands for a key that is not in the map *)
    Fixpoint assoc_update (k : K) (m : list (K * V)) : list (K * V) :=
      match m with
      | [] => [(k, f None)]
      | (k', v) :: t => if eqb k' k then (k', f (Some v)) :: t else (k', v) :: assoc_update k t
      end.
  End Push.
  Definition push_all (ws : list nat) (o : option (list nat)) : list nat :=
    match o with None => ws | Some l => l ++ ws end.
  (** the words a word brings into its cluster (141-157) *)
  Definition unit_of (w : nat) : list nat :=
    if is_some (w_partOf (h w)) then [] else w :: w_parts (h w).
  Definition cluster_add (cl : list (Z * list (double * list nat))) (w : nat) : list (Z * list (double * list nat)) :=
    match unit_of w with
    | [] => cl
    | u => assoc_update Z.eqb
             (fun o => assoc_update deq (push_all u) (getRotLowerY (wpos w)) (match o with None => [] | Some m => m end))
             (rotation (wpos w)) cl
    end.
  Definition clusters (ws : list nat) : list (Z * list (double * list nat)) := fold_left cluster_add ws [].

  (** ** Merging: src/TextLinesDetection.cpp:204-308 *)
  Definition line_lt (rot : Z) (a b : tline) : bool :=
    if (rot =? 0)%Z || (rot =? 1)%Z then RotLowerYAsc (l_pos a) (l_pos b) else RotLowerYDesc (l_pos a) (l_pos b).
  (** src/Config.h:445-447 getYOverlapRatioThreshold *)
  Definition overlap_threshold (gap : double) : double := if dlt gap (dmul (dZ 3) acw) then dec 4 1 else dec 8 1.
  (** src/TextLinesDetection.cpp:260-281 *)
  Definition do_merge (prev : option tline) (curr : tline) : bool :=
    let gap := match prev with Some p => computeHorizontalGap (l_pos p) (l_pos curr) | None => dzero end in
    let ratio := match prev with Some p => computeMaxYOverlapRatio (l_pos p) (l_pos curr) | None => dzero end in
    equalOrLarger ratio (overlap_threshold gap) TOL.
  Definition opt_list {A} (o : option A) : list A := match o with Some x => [x] | None => [] end.
  (** One round (230-302); [acc ++ opt_list prev] is mergedLines. *)
  Fixpoint merge_round (acc : list tline) (prev : option tline) (did : bool) (ls : list tline) : outcome (list tline * bool) :=
    match ls with
    | [] => Ok (acc ++ opt_list prev, did)
    | c :: t =>
        if do_merge prev c then
          match prev with
          | None => UB "mergeTextLines: null pointer"
          | Some p => do p' <- mergeTextLines c p ; merge_round acc (Some p') true t
          end
        else merge_round (acc ++ opt_list prev) (Some c) did t
    end.
  (** src/TextLinesDetection.cpp:219-308: the rounds; [None]: more than [fuel] rounds. *)
  Fixpoint merge_rounds (fuel : nat) (ls : list tline) : option (outcome (list tline)) :=
    match fuel with
    | O => None
    | S n =>
        match merge_round [] None false ls with
        | Ok (ls', true) => merge_rounds n ls'
        | Ok (ls', false) => Some (Ok ls')
        | UB w => Some (UB w)
        | Throw w => Some (Throw w)
        end
    end.

  (** src/TextLinesDetection.cpp:312-322: rank and references of the lines of a rotation; [n] is numLines. *)
  Definition number_lines (n : Z) (ls : list tline) : list tline :=
    map (fun p => let '(i, l) := p in
          mkLine (n + Z.of_nat i) (l_pos l) (l_text l) (l_fontName l) (l_fontSize l) (l_maxFontSize l) (l_base l) (l_words l)
            (if i =? 0 then None else Some (n + Z.of_nat i - 1)%Z)
            (if i <? length ls - 1 then Some (n + Z.of_nat i + 1)%Z else None))
        (combine (seq 0 (length ls)) ls).

  Fixpoint omap {A B} (f : A -> outcome B) (l : list A) : outcome (list B) :=
    match l with [] => Ok [] | x :: t => do y <- f x ; do ys <- omap f t ; Ok (y :: ys) end.

  (** src/TextLinesDetection.cpp:161-323: one rotation. The loop runs at most [length] rounds: see C25. *)
  Definition rotation_lines (n : Z) (rot : Z) (cl : list (double * list nat)) : outcome (list tline) :=
    do ls <- omap (fun e => createTextLine (snd e)) (ordY cl) ;
    do ls <- std_sort implL (line_lt rot) ls ;
    match merge_rounds (S (length ls)) ls with
    | Some r => do ls <- r ; Ok (number_lines n ls)
    | None => UB "too many rounds"
    end.
  Fixpoint rotations_lines (n : Z) (cls : list (Z * list (double * list nat))) : outcome (list (list tline)) :=
    match cls with
    | [] => Ok []
    | (rot, cl) :: t =>
        do ls <- rotation_lines n rot cl ;
        do rest <- rotations_lines (n + Z.of_nat (length ls)) t ;
        Ok (ls :: rest)
    end.

  (** src/TextLinesDetection.cpp:92-323: one segment (its words [ws]); the result is grouped by rotation, segment->lines
      is the concatenation. *)
  Definition segment_lines (n : Z) (ws : list nat) : outcome (list (list tline)) :=
    match ws with [] => Ok [] | _ :: _ => rotations_lines n (ordR (clusters ws)) end.

  (** src/utils/TextLinesDetectionUtils.cpp:144-177, src/Config.h:452, 457. *)
  Definition computeTrimBox (seg : position) (lines : list tline) : outcome (double * double * double * double) :=
    let m := ordD (count_all deq (map (fun l => dround (getRotRightX (l_pos l)) 0) lines)) in
    if (0 <? sumCounts m)%N then
      do ' (x, c) <- mostFreqAndCount dzero m ;
      let n := dZ (Z.of_nat (length lines)) in
      let ratio := if dgt n dzero then ddiv (dZ (Z.of_N c)) n else dzero in
      Ok (leftX seg, upperY seg, (if equalOrLarger ratio (dec 5 1) TOL then x else rightX seg), lowerY seg)
    else Ok (leftX seg, upperY seg, rightX seg, lowerY seg).
End Lines.

(** ** The hierarchy: src/utils/TextLinesDetectionUtils.cpp:49-141 *)
Section Hierarchy.
  (** [acw]: doc->avgCharWidth. [absd]: the function that the unqualified call [abs] in line 71 refers to, which depends
      on the declarations that the standard headers place in the global namespace: std::abs(double) or abs(int)
      (truncation); it is left arbitrary. *)
  Context (acw : double) (absd : double -> double).

  (** The lines of the page are numbered in the order of the loops 62-63; [parent], [prevS], [nextS] map numbers to
      numbers. [stack]: the top is first. *)
  Record hstate := mkH { stack : list (nat * position); parent : nat -> option nat; prevS : nat -> option nat; nextS : nat -> option nat }.
  Definition set_at {A} (f : nat -> A) (i : nat) (x : A) : nat -> A := fun j => if j =? i then x else f j.
  Definition h_init : hstate := mkH [] (fun _ => None) (fun _ => None) (fun _ => None).

  (** src/Config.h:423, utils/TextLinesDetectionUtils.cpp:82-83 *)
  Definition leftX_threshold : double := dmul (dZ 1) acw.
  Definition coords_tol : double := dec 1 1.
  (** 67-77: the distance to the previous line breaks the hierarchy (src/Config.h:418). *)
  Definition far (prev : option position) (p : position) : bool :=
    match prev with
    | None => false
    | Some q => (rotation q =? rotation p)%Z && (wMode q =? wMode p)%Z
                && larger (absd (computeVerticalGap q p)) (dZ 10) coords_tol
    end.
  (** 87-94 *)
  Fixpoint pop_right (x : double) (st : list (nat * position)) : list (nat * position) :=
    match st with
    | [] => []
    | (j, q) :: t => if larger (leftX q) x leftX_threshold then pop_right x t else st
    end.
  (** 67-138 *)
  Definition h_step (prev : option position) (i : nat) (p : position) (s : hstate) : hstate :=
    let st := pop_right (leftX p) (if far prev p then [] else stack s) in
    match st with
    | [] => mkH [(i, p)] (parent s) (prevS s) (nextS s)
    | (j, q) :: t =>
        if equalOrLarger (lowerY q) (lowerY p) coords_tol then mkH st (parent s) (prevS s) (nextS s)
        else if equal (leftX q) (leftX p) leftX_threshold then
          mkH ((i, p) :: t) (set_at (parent s) i (parent s j)) (set_at (prevS s) i (Some j)) (set_at (nextS s) j (Some i))
        else if smaller (leftX q) (leftX p) leftX_threshold then
          mkH ((i, p) :: st) (set_at (parent s) i (Some j)) (prevS s) (nextS s)
        else mkH st (parent s) (prevS s) (nextS s)
    end.
  Fixpoint h_loop (prev : option position) (i : nat) (ps : list position) (s : hstate) : hstate :=
    match ps with
    | [] => s
    | p :: t => h_loop (Some p) (S i) t (h_step prev i p s)
    end.
  Definition computeTextLineHierarchy (ps : list position) : hstate := h_loop None 0 ps h_init.
End Hierarchy.

Section Process.
  Context (implW : (nat -> nat -> bool) -> list nat -> list nat) (implL : (tline -> tline -> bool) -> list tline -> list tline).
  Context (ordS : list (str * N) -> list (str * N)) (ordD : list (double * N) -> list (double * N)).
  Context (ordR : list (Z * list (double * list nat)) -> list (Z * list (double * list nat)))
          (ordY : list (double * list nat) -> list (double * list nat)).
  Context (acw : double) (absd : double -> double) (h : heap).

  (** src/TextLinesDetection.cpp:92-342: the segments of a page, each given by its box and the words among its elements;
      the result holds, per segment, the lines (grouped by rotation) and the trim box (not set if there are no words). *)
  Fixpoint segments_lines (n : Z) (segs : list (position * list nat)) : outcome (list (list (list tline) * option (double * double * double * double))) :=
    match segs with
    | [] => Ok []
    | (box, ws) :: t =>
        do gs <- segment_lines implW implL ordS ordD ordR ordY acw h n ws ;
        let ls := concat gs in
        do tb <- (match ws with [] => Ok None | _ :: _ => do b <- computeTrimBox ordD box ls ; Ok (Some b) end) ;
        do rest <- segments_lines (n + Z.of_nat (length ls)) t ;
        Ok ((gs, tb) :: rest)
    end.
  (** src/TextLinesDetection.cpp:80-347; per page: the segments and the hierarchy. *)
  Fixpoint detectTextLines (n : Z) (pages : list (list (position * list nat)))
    : outcome (list (list (list (list tline) * option (double * double * double * double)) * hstate)) :=
    match pages with
    | [] => Ok []
    | segs :: t =>
        do r <- segments_lines n segs ;
        let ls := concat (map (fun s => concat (fst s)) r) in
        do rest <- detectTextLines (n + Z.of_nat (length ls)) t ;
        Ok ((r, computeTextLineHierarchy acw absd (map l_pos ls)) :: rest)
    end.
End Process.
