(** ReadingOrder.v - model of src/ReadingOrderDetection.cpp:76-403 (the semantic roles, predicted before by
    detectSemanticRoles(), are part of the blocks). *)
From Coq Require Import ZArith NArith.
From Verif Require Import Base Double MathUtils Sort Elements Counter XYCut Document.

(** The page elements: text blocks, figures and shapes (src/ReadingOrderDetection.cpp:101-106); figures and shapes
    are PdfNonTextElements (src/Types.h:817, 883). *)
Inductive relem := RBlock (b : block) | RFigure (e : elem) | RShape (e : elem).
Definition re_pos (r : relem) : position := match r with RBlock b => b_pos b | RFigure e | RShape e => e_pos e end.
Definition re_block (r : relem) : option block := match r with RBlock b => Some b | _ => None end.
Definition re_nontext (r : relem) : option position := match r with RBlock _ => None | RFigure e | RShape e => Some (e_pos e) end.

(** The values of the enum SemanticRole used here (src/Types.h:69-84). *)
Definition ROLE_MARGINAL := 2.
Definition ROLE_TITLE := 6.
Definition ROLE_AUTHOR_INFO := 7.

Section RO.
  Context (impl : (relem -> relem -> bool) -> list relem -> list relem)
          (topi : (relem -> relem -> bool) -> list relem -> nat).
  (** _doc->avgCharWidth, _doc->avgCharHeight *)
  Context (avgCharWidth avgCharHeight : double).
  Notation cut := (cut relem).

  (** src/ReadingOrderDetection.h: _minXCutGapWidth = _minYCutGapHeight = 0. *)
  Definition minCutGap : double := dzero.

  (** src/ReadingOrderDetection.cpp:158-164 *)
  Definition ro_chooseXCuts : chooser relem := fun cuts _ => Ok (map (fun _ => true) cuts).

  (** src/ReadingOrderDetection.cpp:180-249 for one cut; [minY], [maxY] are _pageElementsMinY/MaxY. *)
  Definition rotated (r : relem) : bool :=
    match re_block r with
    | Some b => negb (wMode (b_pos b) =? 0)%Z || negb (rotation (b_pos b) =? 0)%Z
    | None => false
    end.
  Definition separates_vertically (mid : double) (r : relem) : bool :=
    match re_nontext r with
    | Some p => dgt (getHeight p) (dmul (dZ 10) avgCharHeight) && dlt (upperY p) mid && dgt (lowerY p) mid
    | None => false
    end.
  Definition primary_x (minY maxY : double) (c : cut) : bool :=
    let mid := dadd minY (ddiv (dsub maxY minY) (dZ 2)) in
    rotated (cut_before c) || rotated (cut_after c) ||
    match re_block (cut_before c), re_block (cut_after c) with
    | Some b1, Some b2 => negb (wMode (b_pos b1) =? wMode (b_pos b2))%Z || negb (rotation (b_pos b1) =? rotation (b_pos b2))%Z
    | _, _ => false
    end ||
    separates_vertically mid (cut_before c) || separates_vertically mid (cut_after c).
  (** src/ReadingOrderDetection.cpp:167-253 *)
  Definition choosePrimaryXCuts (minY maxY : double) : chooser relem := fun cuts elements =>
    match elements with [] => Ok [] | _ :: _ => Ok (map (primary_x minY maxY) cuts) end.

  (** src/ReadingOrderDetection.cpp:269-333 for one cut. *)
  Definition has_role (role : nat) (r : relem) : bool :=
    match re_block r with Some b => b_role b =? role | None => false end.
  Definition separates_horizontally (mid : double) (r : relem) : bool :=
    match re_nontext r with
    | Some p => dgt (getWidth p) (dmul (dZ 10) avgCharWidth) && dlt (leftX p) mid && dgt (rightX p) mid
    | None => false
    end.
  Definition primary_y (minX maxX : double) (c : cut) : bool :=
    let mid := dadd minX (ddiv (dsub maxX minX) (dZ 2)) in
    xorb (has_role ROLE_TITLE (cut_before c)) (has_role ROLE_TITLE (cut_after c)) ||
    xorb (has_role ROLE_AUTHOR_INFO (cut_before c)) (has_role ROLE_AUTHOR_INFO (cut_after c)) ||
    xorb (has_role ROLE_MARGINAL (cut_before c)) (has_role ROLE_MARGINAL (cut_after c)) ||
    separates_horizontally mid (cut_before c) || separates_horizontally mid (cut_after c).
  (** src/ReadingOrderDetection.cpp:256-335 *)
  Definition choosePrimaryYCuts (minX maxX : double) : chooser relem := fun cuts elements =>
    match elements with [] => Ok [] | _ :: _ => Ok (map (primary_y minX maxX) cuts) end.

  (** The lookahead of src/ReadingOrderDetection.cpp:360-361, 374-375, 391-393. *)
  Definition divisible (elements : list relem) (beginPos endPos : nat) : outcome bool :=
    if (beginPos <=? endPos) && (endPos <=? length elements) then
      do r <- xCut re_pos impl topi minCutGap 0 ro_chooseXCuts (firstn (endPos - beginPos) (skipn beginPos elements)) ;
      Ok (fst (fst r))
    else UB "invalid iterator range".
  (** The position of cut number [i] ([cuts[i]->posInElements]). *)
  Definition pos_at (ps : list nat) (i : nat) : outcome nat :=
    match nth_error ps i with Some p => Ok p | None => UB "vector index out of range" end.
  (** The first index of [is] for which [test] holds. *)
  Fixpoint find_index (test : nat -> outcome bool) (is : list nat) : outcome (option nat) :=
    match is with
    | [] => Ok None
    | i :: t => do b <- test i ; if b : bool then Ok (Some i) else find_index test t
    end.
  (** src/ReadingOrderDetection.cpp:386-402: indices from [i] to below [lst]; [i = j] and then [i++] after a success. *)
  Fixpoint pair_loop (fuel : nat) (elements : list relem) (ps : list nat) (lst i : nat) : outcome (list nat) :=
    match fuel with
    | 0 => Ok []
    | S fuel' =>
        if i <? lst then
          do r <- find_index (fun j => do hi <- pos_at ps i ; do lo <- pos_at ps j ; divisible elements hi lo)
                    (rev (seq i (lst + 1 - i))) ;
          match r with
          | Some j => do l <- pair_loop fuel' elements ps lst (S j) ; Ok (i :: j :: l)
          | None => pair_loop fuel' elements ps lst (S i)
          end
        else Ok []
    end.
  (** src/ReadingOrderDetection.cpp:338-403; the chosen indices, then the flags. *)
  Definition ro_chosen (elements : list relem) (ps : list nat) : outcome (list nat) :=
    do low <- find_index (fun i => do p <- pos_at ps i ; divisible elements p (length elements)) (seq 0 (length ps)) ;
    let lastCut := match low with Some i => i | None => length ps - 1 end in
    do high <- find_index (fun i => do p <- pos_at ps i ; divisible elements 0 p) (rev (seq 0 (lastCut + 1))) ;
    let firstCut := match high with Some i => i | None => 0 end in
    do pairs <- pair_loop (S (length ps)) elements ps lastCut firstCut ;
    Ok (opt_list low ++ opt_list high ++ pairs).
  Definition ro_chooseYCuts : chooser relem := fun cuts elements =>
    match elements, cuts with
    | [], _ | _, [] => Ok []
    | _, _ =>
        do chosen <- ro_chosen elements (map cut_pos cuts) ;
        Ok (map (fun i => existsb (Nat.eqb i) chosen) (seq 0 (length cuts)))
    end.

  (** src/ReadingOrderDetection.cpp:127-138: the loops over the groups of the primary cuts. *)
  Definition ro_groups (elements : list relem) : run (list (list relem) * list cut) :=
    let minX := fold_left (fun m e => minimum m (leftX (re_pos e))) elements DBL_MAX in
    let minY := fold_left (fun m e => minimum m (upperY (re_pos e))) elements DBL_MAX in
    let maxX := fold_left (fun m e => maximum m (rightX (re_pos e))) elements DBL_MIN in
    let maxY := fold_left (fun m e => maximum m (lowerY (re_pos e))) elements DBL_MIN in
    rbind (Some (xCut re_pos impl topi minCutGap 0 (choosePrimaryXCuts minY maxY) elements)) (fun rx =>
      let '(_, xGroups, xCuts) := rx in
      rbind (for_groups (fun xGroup =>
          rbind (Some (yCut re_pos impl minCutGap (choosePrimaryYCuts minX maxX) xGroup)) (fun ry =>
            let '(_, yGroups, yCuts) := ry in
            rbind (for_groups (fun g => xyCut re_pos impl topi (length g) minCutGap minCutGap 0 ro_chooseXCuts ro_chooseYCuts g)
                     yGroups)
              (fun r => Some (Ok (fst r, yCuts ++ snd r)))))
          xGroups)
        (fun r => Some (Ok (fst r, xCuts ++ snd r)))).

  (** src/ReadingOrderDetection.cpp:140-151: sort each group from top to bottom (exact comparison) and keep the blocks. *)
  Definition upperYLess (a b : relem) : bool := dlt (upperY (re_pos a)) (upperY (re_pos b)).
  Definition blocks_of (l : list relem) : list block := flat_map (fun r => match re_block r with Some b => [b] | None => [] end) l.
  Fixpoint sort_groups (gs : list (list relem)) : outcome (list block) :=
    match gs with
    | [] => Ok []
    | g :: t => do s <- std_sort impl upperYLess g ; do r <- sort_groups t ; Ok (blocks_of s ++ r)
    end.
  (** src/ReadingOrderDetection.cpp:100-154 for one page: the new blocks of the page. *)
  Definition ro_elements (p : page) : list relem := map RBlock (p_blocks p) ++ map RFigure (p_figures p) ++ map RShape (p_shapes p).
  Definition order_page (p : page) : run page :=
    rbind (ro_groups (ro_elements p)) (fun r =>
      rbind (Some (sort_groups (fst r))) (fun bs =>
        Some (Ok (mkPage (p_num p) (p_width p) (p_height p) (p_figures p) (p_shapes p) bs)))).
  (** src/ReadingOrderDetection.cpp:76-155 *)
  Fixpoint order_pages (ps : list page) : run (list page) :=
    match ps with
    | [] => Some (Ok [])
    | p :: t => rbind (order_page p) (fun p' => rbind (order_pages t) (fun t' => Some (Ok (p' :: t'))))
    end.
End RO.
