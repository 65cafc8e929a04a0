(** PageSegmentation.v - model of src/PageSegmentation.cpp, src/utils/PageSegmentationUtils.cpp and the values of
    PageSegmentationConfig (src/Config.h:291-405). Debug output and random ids are not modelled. *)
From Coq Require Import ZArith NArith.
From Verif Require Import Base Double MathUtils Sort Elements Counter XYCut.

(** The elements of a page: identity, position and, for words, the rank (dynamic_cast<PdfWord*> succeeds exactly on
    words; src/Types.h:377, 535). *)
Record pelem := mkPE { pe_uid : nat; pe_pos : position; pe_word : option Z }.

(** The document statistics the thresholds depend on (src/Types.h:1118-1150). *)
Record pstats := mkPS { ps_wordDist : double; ps_charWidth : double; ps_charHeight : double }.

(** src/Config.h:299, 313-315, 329-331, 340, 357-359, 377-379, 386, 402-404. The parameters are kept variable
    ([config]) so that the theorems hold for every configuration; [default_config] has the repository's values. *)
Record ps_config := mkPC {
  xCutMinGapWidth : double; yCutMinGapHeight : double; xCutMaxNumOverlappingElements : Z;
  overlappingMinNumElements : nat; overlappingMargin : double;
  smallGapWidth : double; smallGapHeight : double; contiguousYOverlap : double; slimGroupWidth : double }.
Definition default_config (d : pstats) : ps_config :=
  mkPC (dmul (dZ 2) (ps_wordDist d)) (dZ 2) 1 500 (dmul (dZ 5) (ps_charHeight d))
       (dmul (dZ 2) (ps_charWidth d)) (dmul (dZ 6) (ps_charHeight d)) (dec 1 1) (dmul (dZ 10) (ps_charWidth d)).

Section Segmentation.
  Context (impl : (pelem -> pelem -> bool) -> list pelem -> list pelem)
          (topi : (pelem -> pelem -> bool) -> list pelem -> nat) (cfg : ps_config).
  Notation cut := (cut pelem).

  (** src/PageSegmentation.cpp:208-263 *)
  Definition chooseXCut_overlappingElements (c : cut) (elements : list pelem) : trool :=
    match cut_overlap c with
    | [] => TNone
    | _ :: _ =>
        if length elements <? overlappingMinNumElements cfg then TFalse
        else if existsb (fun e => smaller (dsub (upperY (pe_pos e)) (cut_y1 c)) (overlappingMargin cfg) TOL
                               || smaller (dsub (cut_y2 c) (lowerY (pe_pos e))) (overlappingMargin cfg) TOL)
                  (cut_overlap c)
        then TFalse else TNone
    end.
  (** src/PageSegmentation.cpp:266-289 *)
  Definition chooseXCut_smallGapWidthHeight (c : cut) : trool :=
    if smaller (cut_gapWidth c) (smallGapWidth cfg) TOL && smaller (cut_gapHeight c) (smallGapHeight cfg) TOL
    then TFalse else TNone.
  (** src/PageSegmentation.cpp:292-345 *)
  Definition chooseXCut_contiguousWords (c : cut) (elements : list pelem) : trool :=
    match pe_word (cut_before c) with
    | None => TNone
    | Some rank =>
        if existsb (fun e => match pe_word e with
             | None => false
             | Some r => (rank + 1 =? r)%Z &&
                 negb (smaller (computeMaxYOverlapRatio (pe_pos (cut_before c)) (pe_pos e)) (contiguousYOverlap cfg) TOL)
             end) (skipn (cut_pos c) elements)
        then TFalse else TNone
    end.
  (** src/PageSegmentation.cpp:348-406 *)
  Definition chooseXCut_slimGroups (prevChosen : option cut) (c : cut) (elements : list pelem) : trool :=
    match elements with
    | [] => TNone
    | e0 :: _ =>
        let leftFirst := match prevChosen with Some pc => cut_after pc | None => e0 end in
        let leftWidth := dsub (rightX (pe_pos (cut_before c))) (leftX (pe_pos leftFirst)) in
        if smaller leftWidth (slimGroupWidth cfg) TOL then TFalse
        else
          let rightLast := last elements e0 in
          let rightWidth := dsub (rightX (pe_pos rightLast)) (leftX (pe_pos (cut_after c))) in
          if smaller rightWidth (slimGroupWidth cfg) TOL then TFalse else TNone
    end.
  Definition is_false (t : trool) : bool := match t with TFalse => true | _ => false end.
  (** src/PageSegmentation.cpp:167-200 *)
  Definition chooseXCut (prevChosen : option cut) (c : cut) (elements : list pelem) : bool :=
    negb (is_false (chooseXCut_overlappingElements c elements)) &&
    (negb (is_false (chooseXCut_smallGapWidthHeight c)) &&
     (negb (is_false (chooseXCut_contiguousWords c elements)) &&
      negb (is_false (chooseXCut_slimGroups prevChosen c elements)))).
  Fixpoint chooseXCuts_loop (prevChosen : option cut) (cuts : list cut) (elements : list pelem) : list bool :=
    match cuts with
    | [] => []
    | c :: t =>
        let b := chooseXCut prevChosen c elements in
        b :: chooseXCuts_loop (if b then Some c else prevChosen) t elements
    end.
  (** src/PageSegmentation.cpp:130-205 *)
  Definition chooseXCuts : chooser pelem := fun cuts elements =>
    match elements with [] => Ok [] | _ :: _ => Ok (chooseXCuts_loop None cuts elements) end.

  (** src/PageSegmentation.cpp:458-466: can the elements between two y-cuts be divided by an x-cut? *)
  Definition stripe_divisible (elements : list pelem) (beginPos endPos : nat) : outcome bool :=
    if (beginPos <=? endPos) && (endPos <=? length elements) then
      do r <- xCut pe_pos impl topi (xCutMinGapWidth cfg) (xCutMaxNumOverlappingElements cfg) chooseXCuts
                (firstn (endPos - beginPos) (skipn beginPos elements)) ;
      Ok (fst (fst r))
    else UB "invalid iterator range".
  (** src/PageSegmentation.cpp:454-483: the number of consecutive following cuts that are possible partners. *)
  Fixpoint count_partners (elements : list pelem) (beginPos : nat) (others : list nat) : outcome nat :=
    match others with
    | [] => Ok 0
    | p :: t =>
        do ok <- stripe_divisible elements beginPos p ;
        if ok : bool then do n <- count_partners elements beginPos t ; Ok (S n) else Ok 0
    end.
  (** src/PageSegmentation.cpp:444-492: the flags of the cuts at the positions [ccuts]; the search continues behind
      the partner cut ([idx = otherIdx], then [idx++]). [fuel] is the number of cuts. *)
  Fixpoint choose_stripes (fuel : nat) (elements : list pelem) (ccuts : list nat) : outcome (list bool) :=
    match fuel, ccuts with
    | 0, _ | _, [] => Ok []
    | S fuel', p :: rest =>
        do n <- count_partners elements p rest ;
        match n with
        | 0 => do fl <- choose_stripes fuel' elements rest ; Ok (false :: fl)
        | S m => do fl <- choose_stripes fuel' elements (skipn n rest) ; Ok (true :: repeat false m ++ true :: fl)
        end
    end.
  (** src/PageSegmentation.cpp:409-493, with the two sentinel cuts at the positions 0 and elements.size(). *)
  Definition sentinel_positions (cuts : list cut) (elements : list pelem) : list nat :=
    0 :: map cut_pos cuts ++ [length elements].
  Definition chooseYCuts : chooser pelem := fun cuts elements =>
    match cuts, elements with
    | [], _ | _, [] => Ok []
    | _, _ =>
        let ccuts := sentinel_positions cuts elements in
        do fl <- choose_stripes (length ccuts) elements ccuts ;
        Ok (firstn (length cuts) (tl fl))
    end.

  (** src/Types.h:956-1000 (PdfPageSegment) and src/utils/PageSegmentationUtils.cpp:39-64. *)
  Record segment := mkSeg { seg_pos : position; seg_elements : list pelem }.
  Definition with_page (p : position) (n : Z) : position :=
    mkPos n (leftX p) (upperY p) (rightX p) (lowerY p) (rotation p) (wMode p).
  Definition createPageSegment (g : list pelem) : segment :=
    mkSeg (with_page (bbox (map pe_pos g)) (match g with e :: _ => pageNum (pe_pos e) | [] => (-1)%Z end)) g.

  (** src/PageSegmentation.cpp:82-127 *)
  Record ppage := mkPP { pp_words : list pelem; pp_figures : list pelem; pp_graphics : list pelem; pp_shapes : list pelem }.
  Definition page_elements (p : ppage) : list pelem := pp_words p ++ pp_figures p ++ pp_graphics p ++ pp_shapes p.
  Definition processPage (p : ppage) : run (list segment * list cut) :=
    rbind (xyCut pe_pos impl topi (length (page_elements p)) (xCutMinGapWidth cfg) (yCutMinGapHeight cfg)
             (xCutMaxNumOverlappingElements cfg) chooseXCuts chooseYCuts (page_elements p))
      (fun r => Some (Ok (map createPageSegment (fst r), snd r))).
End Segmentation.
