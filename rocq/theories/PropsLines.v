(** PropsLines.v - property theorems C25 (text lines), C26 (hierarchy of lines), C59 (trim boxes). *)
From Coq Require Import ZArith NArith.
From Verif Require Import Base Double DoubleFacts MathUtils Sort Elements Counter UtilsSpec GeometrySpec GridProofs Document
  Lines LinesSpec LinesProofs LineMergeProofs LinesDefined HierarchySpec HierarchyProofs TrimProofs.
Local Open Scope nat_scope.
Local Opaque TOL dadd dsub ddiv dmul dec DBL_MAX DBL_MIN.

(** ** C25 Text lines *)

(** For any implementation of std::sort and any iteration orders of the hash maps: the lines of a segment are, rotation by
    rotation, what [lines_with_rotation] describes (grouping by baseline, order from top to bottom, merging until no two
    consecutive lines can be merged), numbered consecutively with consistent references to the neighbours; there is one group
    per rotation that occurs among the words. *)
Theorem C25_lines : forall implW implL ordS ordD ordR ordY acw h n ws gs,
  sort_ok implW -> sort_ok implL -> (forall m, Permutation m (ordS m)) -> (forall m, Permutation m (ordD m)) ->
  (forall m, Permutation m (ordR m)) -> (forall m, Permutation m (ordY m)) ->
  finite_words h ws -> finite_words h (flat_map (with_parts h) ws) ->
  segment_lines implW implL ordS ordD ordR ordY acw h n ws = Ok gs ->
  exists rs, NoDup rs /\ (forall r, In r rs <-> exists w, In w ws /\ w_partOf (h w) = None /\ rotation (pos_of h w) = r) /\
    grouped_lines h acw ws n rs gs.
Proof.
  intros implW implL ordS ordD ordR ordY acw h n ws gs HW HL HS HD HR HY F1 F2 H.
  apply (segment_lines_ok implW implL ordS ordD ordR ordY acw h HW HL HS HD HR HY n ws gs (conj F1 F2) H).
Qed.
Print Assumptions C25_lines.

(** If the stacked math symbols of the segment do not overlap, every word of the segment is in exactly one line, exactly once. *)
Theorem C25_partition : forall implW implL ordS ordD ordR ordY acw h n ws gs,
  sort_ok implW -> sort_ok implL -> (forall m, Permutation m (ordS m)) -> (forall m, Permutation m (ordD m)) ->
  (forall m, Permutation m (ordR m)) -> (forall m, Permutation m (ordY m)) ->
  finite_words h ws -> separate_symbols h ws ->
  segment_lines implW implL ordS ordD ordR ordY acw h n ws = Ok gs ->
  Permutation ws (flat_map l_words (concat gs)).
Proof.
  intros implW implL ordS ordD ordR ordY acw h n ws gs HW HL HS HD HR HY F1 SEP H.
  pose proof (separate_perm h ws SEP) as P. transitivity (flat_map (with_parts h) ws); [exact P|].
  apply (segment_lines_ok implW implL ordS ordD ordR ordY acw h HW HL HS HD HR HY n ws gs); [|exact H]. split; [exact F1|].
  intros w Hw. apply F1. apply (Permutation_in _ (Permutation_sym P)), Hw.
Qed.
Print Assumptions C25_partition.

(** The merging loop ends: whatever the geometry, with more rounds allowed than there are lines it never runs out of rounds,
    and the number of rounds allowed does not matter. *)
Theorem C25_terminates : forall implW ordS ordD acw h ls f1 f2, length ls < f1 -> length ls < f2 ->
  merge_rounds implW ordS ordD acw h f1 ls <> None /\
  merge_rounds implW ordS ordD acw h f1 ls = merge_rounds implW ordS ordD acw h f2 ls.
Proof.
  intros implW ordS ordD acw h ls f1 f2 L1 L2. split; [apply merge_rounds_fuel, L1|apply merge_rounds_enough; assumption].
Qed.
Print Assumptions C25_terminates.

(** On documents whose words have coordinates as the parser stores them and font sizes of at least 0.1, the detection runs
    to the end: no undefined behaviour and no exception. *)
Theorem C25_defined : forall implW implL ordS ordD ordR ordY acw absd h n pages,
  sort_ok implW -> sort_ok implL -> (forall m, Permutation m (ordS m)) -> (forall m, Permutation m (ordD m)) ->
  (forall m, Permutation m (ordR m)) -> (forall m, Permutation m (ordY m)) ->
  (forall segs b ws w, In segs pages -> In (b, ws) segs -> In w (ws ++ flat_map (with_parts h) ws) -> regular_word (h w)) ->
  exists r, detectTextLines implW implL ordS ordD ordR ordY acw absd h n pages = Ok r.
Proof.
  intros implW implL ordS ordD ordR ordY acw absd h n pages HW HL HS HD HR HY H.
  apply (detect_defined implW implL ordS ordD ordR ordY acw h HW HL HS HD HR HY absd pages n).
  intros segs b ws Hs Hb. split; intros w Hw; apply (H segs b ws w Hs Hb), in_or_app; [left|right]; exact Hw.
Qed.
Print Assumptions C25_defined.

(** The lines of the whole document, in order, are ranked n, n + 1, n + 2, ... *)
Theorem C25_ranks : forall implW implL ordS ordD ordR ordY acw absd h n pages r i l,
  detectTextLines implW implL ordS ordD ordR ordY acw absd h n pages = Ok r ->
  nth_error (flat_map (fun p => page_lines (fst p)) r) i = Some l -> l_rank l = (n + Z.of_nat i)%Z.
Proof. intros implW implL ordS ordD ordR ordY acw absd h n pages r i l H. apply (detect_ranked _ _ _ _ _ _ _ _ _ _ _ _ H). Qed.
Print Assumptions C25_ranks.

(** One rotation, left to right, from a list of words. *)
Definition lwd (x0 x1 y0 y1 fs : Z) (t : string) (po : option nat) (pa : list nat) : word :=
  mkWord (S_ "w") 0 (mkPos 1 (dZ x0) (dZ y0) (dZ x1) (dZ y1) 0 0) (S_ t) (S_ "f") (dZ fs)
    [mkChar 0 (S_ "i") 0 (mkPos 1 (dZ x0) (dZ y0) (dZ x1) (dZ y1) 0 0) (S_ t) (S_ "n") [] (S_ "f") (dZ fs) (dzero, dzero, dzero) done (dZ y1)
         false false None None []] po pa None None.
Definition heap_of (l : list word) : heap := fun i => nth i l (lwd 0 1 0 1 1 "" None []).
Definition run_lines (l : list word) : outcome (list (list tline)) :=
  segment_lines isort isort (fun m => m) (fun m => m) (fun m => m) (fun m => m) (dZ 5) (heap_of l) 0 (seq 0 (length l)).
Definition line_words (o : outcome (list (list tline))) : option (list (list nat)) :=
  match o with Ok gs => Some (map l_words (concat gs)) | _ => None end.

(** A word that is a part of two stacked math symbols is in two lines; and the parts of a symbol that is itself a part of
    another symbol are in no line (C24 shows that the word detection produces such symbols). *)
Theorem C25_partition_without_separation_refuted :
  line_words (run_lines [lwd 0 10 0 10 12 "sup" None [1]; lwd 0 10 11 15 8 "n" (Some 0) []; lwd 0 10 40 50 12 "lim" None [1]])
    = Some [[0; 1]; [2; 1]] /\
  line_words (run_lines [lwd 0 10 0 10 16 "sup" None [1]; lwd 0 10 0 10 12 "lim" (Some 0) [2]; lwd 0 10 0 10 8 "n" (Some 1) []])
    = Some [[0; 1]].
Proof. split; vm_compute; reflexivity. Qed.
Print Assumptions C25_partition_without_separation_refuted.

(** A word whose characters have the font size zero makes the detection throw (the exception is not caught). *)
Theorem C25_always_defined_refuted : exists w, parsed_coordinates (w_pos w) /\
  match run_lines [w] with Throw _ => true | _ => false end = true.
Proof. exists (lwd 0 10 0 10 0 "a" None []). split; [apply parsed_check; vm_compute; reflexivity|vm_compute; reflexivity]. Qed.
Print Assumptions C25_always_defined_refuted.

Definition words1 : list word :=
  [lwd 0 10 0 10 10 "first" None []; lwd 0 10 20 30 10 "next" None []; lwd 15 25 0 10 10 "line" None []; lwd 30 35 2 11 10 "sup" None [4];
   lwd 30 35 12 16 6 "n" (Some 3) []].
Example C25_example :
  line_words (run_lines words1) = Some [[0; 2; 3; 4]; [1]] /\
  match run_lines words1 with Ok gs => map l_text (concat gs) | _ => [] end = [S_ "first line sup n"; S_ "next"] /\
  (forall w, In w words1 -> regular_word w) /\ separate_symbols (heap_of words1) (seq 0 5).
Proof.
  split; [vm_compute; reflexivity|]. split; [vm_compute; reflexivity|]. split.
  - intros w Hw. assert (F : forallb (fun w => parsed_b (w_pos w) && forallb (fun c => dle (dec 1 1) (c_fontSize c)) (w_chars w)) words1 = true) by (vm_compute; reflexivity).
    rewrite forallb_forall in F. specialize (F w Hw). apply andb_true_iff in F as [F1 F2]. split; [apply parsed_check, F1|].
    rewrite forallb_forall in F2. exact F2.
  - split; [apply seq_NoDup|]. split; [|split].
    + intros w p Hw. apply in_seq in Hw. destruct w as [|[|[|[|[|w]]]]]; [..|lia]; cbn [heap_of words1 nth lwd w_partOf w_parts]; intros N I;
        [destruct I|destruct I|destruct I| |discriminate]. destruct I as [<-|[]]. split; [apply in_seq; lia|reflexivity].
    + intros w Hw. apply in_seq in Hw. destruct w as [|[|[|[|[|w]]]]]; [..|lia]; cbn [heap_of words1 nth lwd w_parts]; constructor; [intros []|constructor].
    + intros p b Hp. apply in_seq in Hp. destruct p as [|[|[|[|[|p]]]]]; [..|lia]; cbn [heap_of words1 nth lwd w_partOf]; intros E; try discriminate.
      injection E as <-. split; [apply in_seq; lia|]. split; [reflexivity|left; reflexivity].
Qed.

(** ** C26 The hierarchy of text lines *)

(** For any lines of a page: the parent and the previous sibling of a line are earlier lines of the page; [b] is the next
    sibling of [a] exactly if [a] is the previous sibling of [b]; siblings have the same parent, start at the same x and lie
    below each other; a line with a parent but without a previous sibling is indented compared to its parent and lies below
    it; and there is no large gap between a line and its parent or previous sibling. *)
Theorem C26_links : forall acw absd ps, let s := computeTextLineHierarchy acw absd ps in
  (forall a b, nextS s a = Some b <-> prevS s b = Some a) /\
  (forall a b, prevS s b = Some a -> a < b < length ps /\ parent s b = parent s a /\ no_gap absd ps a b /\
     exists q p, nth_error ps a = Some q /\ nth_error ps b = Some p /\ aligned acw q p /\ below q p) /\
  (forall a b, parent s b = Some a -> a < b < length ps /\ no_gap absd ps a b /\
     (prevS s b = None -> exists q p, nth_error ps a = Some q /\ nth_error ps b = Some p /\ indented acw q p /\ below q p)).
Proof.
  intros acw absd ps s. pose proof (hierarchy_inv acw absd ps) as I. split; [apply (i_sib _ _ _ _ _ I)|]. split.
  - intros a b. apply (i_prev _ _ _ _ _ I).
  - intros a b. apply (i_par _ _ _ _ _ I).
Qed.
Print Assumptions C26_links.

(** If the lines start in columns, the hierarchy is completely determined: with [placed] the set of lines that take part, a
    line without a reference line takes part and has neither parent nor previous sibling; a line below its reference line takes
    part, and the reference line is its previous sibling (same column) or its parent (column further left); a line that is not
    below its reference line takes no part and has neither. *)
Theorem C26_columns : forall acw absd ps col, in_columns acw ps col ->
  let s := computeTextLineHierarchy acw absd ps in
  exists placed, forall i p, nth_error ps i = Some p ->
    ((forall j, ~ reference absd ps col placed i j) -> placed i = true /\ parent s i = None /\ prevS s i = None) /\
    (forall j q, reference absd ps col placed i j -> nth_error ps j = Some q ->
       (below q p -> placed i = true /\
          (col j = col i -> prevS s i = Some j /\ parent s i = parent s j) /\
          ((col j < col i)%Z -> parent s i = Some j /\ prevS s i = None)) /\
       (~ below q p -> placed i = false /\ parent s i = None /\ prevS s i = None)).
Proof.
  intros acw absd ps col HC s. destruct (hierarchy_columns acw absd ps col HC) as [placed H]. exists placed.
  intros i p Hp. apply (H i); [apply nth_error_Some; congruence|exact Hp].
Qed.
Print Assumptions C26_columns.

Definition lpos (x y : Z) : position := mkPos 1 (ddiv (dZ x) (dZ 10)) (dZ y) (dZ 100) (dZ (y + 4)) 0 0.
(** The documentation of prevSiblingLine says that no line between a line and its previous sibling starts further left. Without
    columns this is false, since the tolerance accumulates: line 0 is the previous sibling of line 9, although line 5 starts
    further left than both by more than the threshold. *)
Theorem C26_no_line_further_left_refuted : exists ps,
  prevS (computeTextLineHierarchy (dZ 1) dabs ps) 9 = Some 0 /\
  exists q p, nth_error ps 5 = Some q /\ nth_error ps 9 = Some p /\ indented (dZ 1) q p.
Proof.
  exists [lpos 100 0; lpos 115 5; lpos 106 10; lpos 97 15; lpos 88 20; lpos 79 25; lpos 88 30; lpos 97 35; lpos 106 40; lpos 95 45].
  split; [vm_compute; reflexivity|]. exists (lpos 79 25), (lpos 95 45). split; [reflexivity|]. split; [reflexivity|]. vm_compute. reflexivity.
Qed.
Print Assumptions C26_no_line_further_left_refuted.

Definition ex_lines : list position := [lpos 100 0; lpos 300 5; lpos 300 10; lpos 100 15; lpos 100 40].
Definition ex_col (i : nat) : Z := match i with 1 | 2 => 1 | _ => 0 end.
Example C26_example : in_columns (dZ 1) ex_lines ex_col /\
  map (prevS (computeTextLineHierarchy (dZ 1) dabs ex_lines)) (seq 0 5) = [None; None; Some 1; Some 0; None] /\
  map (parent (computeTextLineHierarchy (dZ 1) dabs ex_lines)) (seq 0 5) = [None; Some 0; Some 0; None; None].
Proof.
  split; [|split; vm_compute; reflexivity].
  assert (F : forallb (fun i => forallb (fun j => match nth_error ex_lines i, nth_error ex_lines j with
     | Some p, Some q => Bool.eqb (larger (leftX p) (leftX q) (dmul (dZ 1) (dZ 1))) (ex_col j <? ex_col i)%Z &&
        (Bool.eqb (smaller (leftX p) (leftX q) (dmul (dZ 1) (dZ 1))) (ex_col i <? ex_col j)%Z &&
        Bool.eqb (equal (leftX p) (leftX q) (dmul (dZ 1) (dZ 1))) (ex_col i =? ex_col j)%Z)
     | _, _ => true end) (seq 0 5)) (seq 0 5) = true) by (vm_compute; reflexivity).
  intros i j p q Hp Hq. rewrite forallb_forall in F.
  assert (Li : i < 5) by (change 5 with (length ex_lines); apply nth_error_Some; congruence).
  assert (Lj : j < 5) by (change 5 with (length ex_lines); apply nth_error_Some; congruence).
  specialize (F i ltac:(apply in_seq; lia)). rewrite forallb_forall in F. specialize (F j ltac:(apply in_seq; lia)). rewrite Hp, Hq in F.
  apply andb_true_iff in F as [F1 F2]. apply andb_true_iff in F2 as [F2 F3]. apply eqb_prop in F1, F2, F3. split; [exact F1|]. split; assumption.
Qed.

(** ** C59 Trim boxes *)

(** The trim box of a segment is its box, except for the right side: if at least half of the lines have the same right side
    (rounded to integers), it is that; if less than half of at most 2000 lines do, the right side is that of the segment. *)
Theorem C59_trim_box : forall ordD seg ls lx uy rx ly, (forall m, Permutation m (ordD m)) ->
  (forall l, In l ls -> is_nan_d (dround (getRotRightX (l_pos l)) 0) = false) -> (Z.of_nat (length ls) < 2 ^ 31)%Z -> ls <> [] ->
  computeTrimBox ordD seg ls = Ok (lx, uy, rx, ly) ->
  lx = leftX seg /\ uy = upperY seg /\ ly = lowerY seg /\
  let rights := map (fun l => dround (getRotRightX (l_pos l)) 0) ls in
  exists x, most_frequent deq x rights /\
    (length ls <= 2 * occ deq x rights -> rx = x) /\
    (2 * occ deq x rights < length ls -> length ls <= 2000 -> rx = rightX seg) /\
    (rx = x \/ rx = rightX seg).
Proof. exact trim_box_ok. Qed.
Print Assumptions C59_trim_box.
Theorem C59_defined : forall ordD seg ls, (forall m, Permutation m (ordD m)) -> exists b, computeTrimBox ordD seg ls = Ok b.
Proof. intros ordD seg ls _. apply trim_defined. Qed.
Print Assumptions C59_defined.
Example C59_example : match run_lines words1 with
  | Ok gs => (forallb (fun l => negb (is_nan_d (dround (getRotRightX (l_pos l)) 0))) (concat gs),
              match computeTrimBox (fun m => m) (lpos 0 0) (concat gs) with Ok (_, _, r, _) => deq r (dZ 35) || deq r (dZ 10) | _ => false end)
  | _ => (false, false) end = (true, true).
Proof. vm_compute. reflexivity. Qed.
