(** StatisticsSpec.v - vocabulary for C51: which values the statistics of a document are taken from. *)
From Coq Require Import ZArith NArith Reals.
From Verif Require Import Base Double DoubleFacts MathUtils Elements UtilsSpec Document LinesSpec Statistics.

(** [v'] is a most frequent value of [l], or still [v] if [l] is empty. *)
Definition frequent_or (v' v : double) (l : list double) : Prop :=
  (l = [] -> v' = v) /\
  (l <> [] -> (N.of_nat (length l) < 2 ^ 32)%N -> (forall x, In x l -> is_nan_d x = false) -> most_frequent deq v' l).
(** The pairs of consecutive members of each of the lists. *)
Definition neighbours {A} (ls : list (list A)) : list (A * A) := flat_map (fun l => combine l (tl l)) ls.

(** ** Words *)
(** Words at least as large as the text body. *)
Definition body_size (mf : double) (w : word) : bool := negb (smaller (w_fontSize w) mf (dZ 1)).
Definition comparable (p q : position) : bool := (rotation p =? rotation q)%Z && (wMode p =? wMode q)%Z.
(** Neighbouring words with the same rotation and writing mode, the first in the size of the text body, the second not smaller. *)
Definition body_pair (mf : double) (e : word * word) : bool :=
  let '(p, w) := e in body_size mf w && comparable (w_pos p) (w_pos w) && equal (w_fontSize p) mf (dZ 1).
(** One word overlaps at least half of the other's height / they do not overlap vertically. *)
Definition side_by_side (e : word * word) : bool := equalOrLarger (computeMaxYOverlapRatio (w_pos (fst e)) (w_pos (snd e))) (dec 5 1) TOL.
Definition one_below (e : word * word) : bool := equalOrSmaller (computeMaxYOverlapRatio (w_pos (fst e)) (w_pos (snd e))) dzero TOL.
Definition word_heights (mf : double) (pages : list (list word)) : list double :=
  map (fun w => getHeight (w_pos w)) (filter (body_size mf) (concat pages)).
Definition word_gaps (mf : double) (pages : list (list word)) : list double :=
  map (fun e => computeHorizontalGap (w_pos (fst e)) (w_pos (snd e))) (filter (fun e => body_pair mf e && side_by_side e) (neighbours pages)).
Definition word_leadings (mf : double) (pages : list (list word)) : list double :=
  map (fun e => computeVerticalGap (w_pos (fst e)) (w_pos (snd e))) (filter (fun e => body_pair mf e && one_below e) (neighbours pages)).

(** ** Lines *)
(** The distance from the bottom of a line to the top of the next (sub- and superscripts ignored), rounded to one decimal, at
    least 0. *)
Definition distance (e : stline * stline) : double :=
  maximum dzero (dround (dsub (sn_baseUpper (snd e)) (sn_baseLower (fst e))) 1).
Definition counted (e : stline * stline) : bool := comparable (sn_pos (fst e)) (sn_pos (snd e)).
Definition same_size (e : stline * stline) : bool := equal (sn_fontSize (fst e)) (sn_fontSize (snd e)) (dZ 1).
(** The pairs of consecutive lines of a segment that are compared. *)
Definition line_pairs (segments : list (list stline)) : list (stline * stline) := filter counted (neighbours segments).
Definition line_distances (segments : list (list stline)) : list double := map distance (line_pairs segments).
(** The distances of lines with the (same) font size [fs]. *)
Definition distances_at (fs : double) (segments : list (list stline)) : list double :=
  map distance (filter (fun e => same_size e && deq fs (sn_fontSize (snd e))) (line_pairs segments)).

(** The sum of real numbers. *)
Definition rsum (l : list R) : R := fold_right Rplus 0%R l.
(** A number of moderate size, and: [v] is, up to 0.001, the average of [l] ([E d] is the real number denoted by [d]). *)
Definition moderate (d : double) : Prop := is_fin d = true /\ (Rabs (E d) <= 65536)%R.
Definition average_of (v : double) (l : list double) : Prop :=
  (Z.of_nat (length l) <= 16777216)%Z -> Forall moderate l -> (Rabs (E v - rsum (map E l) / IZR (Z.of_nat (length l))) <= 1 / 1000)%R.
