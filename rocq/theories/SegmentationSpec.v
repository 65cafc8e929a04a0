(** SegmentationSpec.v - specification of the cut choice of the page segmentation and of the reading order,
    independent of the loops of the model. *)
From Coq Require Import ZArith NArith.
From Verif Require Import Base Double MathUtils Sort Elements Counter XYCut PageSegmentation.

(** The four rules against an x-cut (src/PageSegmentation.h:130-200). *)
Definition rule_overlapping (cfg : ps_config) (c : cut pelem) (elements : list pelem) : Prop :=
  cut_overlap c <> [] /\
  (length elements < overlappingMinNumElements cfg \/
   exists e, In e (cut_overlap c) /\
     (smaller (dsub (upperY (pe_pos e)) (cut_y1 c)) (overlappingMargin cfg) TOL = true \/
      smaller (dsub (cut_y2 c) (lowerY (pe_pos e))) (overlappingMargin cfg) TOL = true)).
Definition rule_small_gap (cfg : ps_config) (c : cut pelem) : Prop :=
  smaller (cut_gapWidth c) (smallGapWidth cfg) TOL = true /\ smaller (cut_gapHeight c) (smallGapHeight cfg) TOL = true.
Definition rule_contiguous_words (cfg : ps_config) (c : cut pelem) (elements : list pelem) : Prop :=
  exists r e, pe_word (cut_before c) = Some r /\ In e (skipn (cut_pos c) elements) /\ pe_word e = Some (r + 1)%Z /\
    smaller (computeMaxYOverlapRatio (pe_pos (cut_before c)) (pe_pos e)) (contiguousYOverlap cfg) TOL = false.
(** The group between the previously chosen cut (or the first element) and the cut, or the group from the cut to the
    last element, is too slim. *)
Definition rule_slim_groups (cfg : ps_config) (prev : option (cut pelem)) (c : cut pelem) (elements : list pelem) : Prop :=
  exists e0 l en, elements = e0 :: l /\ last_opt elements = Some en /\
  let leftmost := match prev with Some pc => cut_after pc | None => e0 end in
  (smaller (dsub (rightX (pe_pos (cut_before c))) (leftX (pe_pos leftmost))) (slimGroupWidth cfg) TOL = true \/
   smaller (dsub (rightX (pe_pos en)) (leftX (pe_pos (cut_after c)))) (slimGroupWidth cfg) TOL = true).

(** [prev] is the last cut in front of cut number [i] that is chosen. *)
Definition previous_chosen {C} (cuts : list C) (flags : list bool) (i : nat) (prev : option C) : Prop :=
  match prev with
  | None => forall j, j < i -> nth j flags false = false
  | Some c => exists j, j < i /\ nth_error cuts j = Some c /\ nth j flags false = true /\
                forall k, j < k < i -> nth k flags false = false
  end.

(** The choice of y-cuts: going through the boundaries from top to bottom, a boundary [p] is paired with the last
    boundary [q] of the maximal run of directly following boundaries such that the stripe from [p] to each of them is
    divisible; both are chosen, those in between are not, and the search goes on behind [q]. A boundary without such a
    follower is not chosen. *)
Inductive stripe_choice (div : nat -> nat -> Prop) : list nat -> list bool -> Prop :=
| sc_end : stripe_choice div [] []
| sc_skip p rest fl : (forall q, hd_error rest = Some q -> ~ div p q) -> stripe_choice div rest fl ->
    stripe_choice div (p :: rest) (false :: fl)
| sc_pair p mid q rest fl : (forall r, In r (mid ++ [q]) -> div p r) -> (forall r, hd_error rest = Some r -> ~ div p r) ->
    stripe_choice div rest fl ->
    stripe_choice div (p :: mid ++ q :: rest) (true :: map (fun _ => false) mid ++ true :: fl).

(** The elements from position [lo] to below position [hi]. *)
Definition stripe {A} (elements : list A) (lo hi : nat) : list A := firstn (hi - lo) (skipn lo elements).
