(** PropsBlocks.v - property theorems C33 (text blocks partition the lines), C34 (where blocks begin), C60 (attributes of blocks)
    and C61 (footnote labels). *)
From Coq Require Import ZArith NArith.
From Verif Require Import Base Double MathUtils Elements Counter UtilsSpec TextUtils Document LinesSpec Blocks BlocksSpec BlocksProofs BlocksPasses BlocksRules BlocksDefined BlocksCuts.
Local Open Scope nat_scope.
Local Opaque TOL dadd dsub ddiv dmul dec DBL_MAX DBL_MIN.

(** The run of the module: per page the lines of its segments; the result: per segment the preliminary blocks, per page the
    blocks, and the lines. [ordS], [ordD]: any orders in which hash maps are iterated. *)
Definition perms {A} (o : list A -> list A) : Prop := forall m, Permutation m (o m).
Notation all_of pages := (concat (map (@concat _) pages)).

(** Every line of a segment is in exactly one preliminary block of the segment and in exactly one block of the page, in the given
    order; no block is empty; and every preliminary block is split into blocks, i.e. no block crosses the border of a preliminary
    block or of a segment. *)
Theorem C33_partition : forall ordS ordD absd label_regex h doc fuel pages lh pre fin lh', perms ordS -> perms ordD ->
  NoDup (all_of pages) -> detectTextBlocks ordS ordD absd label_regex h doc fuel pages lh = Ok (pre, fin, lh') ->
  Forall2 (Forall2 (fun lines blocks => concat (map tb_lines blocks) = lines)) pages pre /\
  Forall2 (fun segs blocks => concat (map tb_lines blocks) = concat segs) pages fin /\
  (forall b, In b (all_of pre) \/ In b (concat fin) -> tb_lines b <> []) /\
  Forall2 (fun segs blocks => exists parts, blocks = concat parts /\
    Forall2 (fun b part => concat (map tb_lines part) = tb_lines b) (concat segs) parts) pre fin.
Proof.
  intros ordS ordD absd lr h doc fuel pages lh pre fin lh' HS HD ND H.
  destruct (detect_spec ordS ordD absd lr h doc HS HD fuel pages lh lh' pre fin ND H) as (lh1 & _ & _ & _ & D & _ & _ & _ & F & _).
  assert (R : Forall2 (fun segs blocks => exists parts, blocks = concat parts /\
    Forall2 (fun b part => concat (map tb_lines part) = tb_lines b /\ Forall (fun c => tb_lines c <> []) part) (concat segs) parts) pre fin).
  { clear -F. induction F as [|segs bs pre fin (gss & E & F2) _ IH]; constructor; [|exact IH]. clear IH. revert bs E.
    induction F2 as [|b gs bl gss [C N] _ IH]; intros bs E.
    - cbn [concat] in E. exists []. split; [destruct bs; [reflexivity|discriminate]|constructor].
    - cbn [concat] in E. apply map_split in E as (b1 & b2 & -> & E1 & E2). destruct (IH b2 E2) as (parts & -> & P). exists (b1 :: parts). split; [reflexivity|].
      constructor; [|exact P]. rewrite E1. split; [exact C|]. clear -N E1. subst gs. induction b1; [constructor|]. cbn [map] in N. inversion N; subst. constructor; auto. }
  split; [|split; [|split]].
  - clear -D. induction D as [|? ? ? ? F _ IH]; constructor; [|exact IH]. induction F as [|? ? ? ? (E & _) _ IH']; constructor; [exact E|exact IH'].
  - clear -D R. revert fin R. induction D as [|segs bss pages pre F _ IH]; intros fin R; inversion R as [|? bs ? fin' (parts & -> & P) R']; subst; constructor; [|apply IH, R'].
    transitivity (concat (map tb_lines (concat bss))).
    + clear -P. induction P as [|b p bl parts (E & _) _ IH]; [reflexivity|]. cbn [concat map]. rewrite map_app, concat_app, E, IH. reflexivity.
    + clear -F. induction F as [|ls bs segs bss (E & _) _ IH]; [reflexivity|]. cbn [concat]. rewrite map_app, concat_app, IH. unfold block_lines in E. rewrite E. reflexivity.
  - intros b [Hb|Hb].
    + clear -D Hb. induction D as [|segs bss pages pre F _ IH]; cbn [map concat] in Hb; [destruct Hb|]. apply in_app_or in Hb as [Hb|Hb]; [|apply IH, Hb]. clear -F Hb.
      induction F as [|ls bs segs bss (_ & N & _) _ IH]; cbn [concat] in Hb; [destruct Hb|]. apply in_app_or in Hb as [Hb|Hb]; [|apply IH, Hb].
      rewrite Forall_forall in N. apply N, Hb.
    + clear -R Hb. induction R as [|segs bs pre fin (parts & -> & P) _ IH]; cbn [concat] in Hb; [destruct Hb|]. apply in_app_or in Hb as [Hb|Hb]; [|apply IH, Hb]. clear -P Hb.
      induction P as [|q p bl parts (_ & N) _ IH]; cbn [concat] in Hb; [destruct Hb|]. apply in_app_or in Hb as [Hb|Hb]; [|apply IH, Hb].
      rewrite Forall_forall in N. apply N, Hb.
  - clear -R. induction R as [|segs bs pre fin (parts & -> & P) _ IH]; constructor; [|exact IH]. exists parts. split; [reflexivity|]. clear -P.
    induction P as [|b p bl parts (E & _) _ IH]; constructor; [exact E|exact IH].
Qed.
Print Assumptions C33_partition.

(** The blocks of a page (and the preliminary blocks of a segment) are numbered from 0, refer to their neighbours and are made
    from their lines: see [block_of] for the page, text, box, font etc. *)
Theorem C33_blocks : forall ordS ordD absd label_regex h doc fuel pages lh pre fin lh', perms ordS -> perms ordD ->
  NoDup (all_of pages) -> detectTextBlocks ordS ordD absd label_regex h doc fuel pages lh = Ok (pre, fin, lh') ->
  (forall segs blocks, In segs pre -> In blocks segs -> good_blocks absd h doc lh blocks) /\
  (forall blocks, In blocks fin -> good_blocks absd h doc lh blocks).
Proof.
  intros ordS ordD absd lr h doc fuel pages lh pre fin lh' HS HD ND H.
  destruct (detect_spec ordS ordD absd lr h doc HS HD fuel pages lh lh' pre fin ND H) as (lh1 & _ & B & _ & _ & _ & B' & _). split.
  - intros segs bs H1 H2. apply (inv_good _ _ _ _ _ _ (proj1 (Forall_forall _ _) (proj1 (Forall_forall _ _) B segs H1) bs H2)).
  - intros bs H1. apply (inv_good _ _ _ _ _ _ (proj1 (Forall_forall _ _) B' bs H1)).
Qed.
Print Assumptions C33_blocks.

(** Of the lines, only the references to the neighbours and the margins change, and only for the lines of the segments: they are
    those in the final blocks. *)
Theorem C33_lines : forall ordS ordD absd label_regex h doc fuel pages lh pre fin lh', perms ordS -> perms ordD ->
  NoDup (all_of pages) -> detectTextBlocks ordS ordD absd label_regex h doc fuel pages lh = Ok (pre, fin, lh') ->
  (forall l, same_content (lh l) (lh' l)) /\ (forall l, ~ In l (all_of pages) -> lh' l = lh l) /\
  (forall blocks, In blocks fin -> lines_placed doc lh lh' blocks).
Proof.
  intros ordS ordD absd lr h doc fuel pages lh pre fin lh' HS HD ND H.
  destruct (detect_spec ordS ordD absd lr h doc HS HD fuel pages lh lh' pre fin ND H) as (lh1 & _ & _ & _ & _ & A & B' & C & _).
  split; [exact A|]. split; [exact C|]. intros bs H1. apply (inv_placed _ _ _ _ _ _ (proj1 (Forall_forall _ _) B' bs H1)).
Qed.
Print Assumptions C33_lines.

(** The module is defined (and its result does not depend on the recursion depth) if the page of every line exists, every line
    with at least three bytes has a word, and the parents of lines form no cycle ([m]: the depth of a line, below [B]). *)
Theorem C33_defined : forall ordS ordD absd label_regex h doc pages lh m B, perms ordS -> perms ordD ->
  NoDup (all_of pages) -> (forall l p, bl_parent (lh l) = Some p -> m p < m l) -> (forall l, m l < B) ->
  (forall l, In l (all_of pages) -> (1 <= pageNum (bl_pos (lh l)) <= Z.of_nat (length (bd_figures doc)))%Z /\
     ((3 <= N.of_nat (length (bl_text (lh l))))%N -> bl_words (lh l) <> [])) ->
  exists r, forall fuel, B <= fuel -> detectTextBlocks ordS ordD absd label_regex h doc fuel pages lh = Ok r.
Proof.
  intros ordS ordD absd lr h doc pages lh m B HS HD ND HM HB W. exact (detect_defined ordS ordD absd lr h doc HS HD lh m B HM HB pages ND W).
Qed.
Print Assumptions C33_defined.

(** ** Where blocks begin *)
(** Let [a] and [b] be consecutive lines of a segment in which every line refers to the line before it (or to none). If [b] refers to none,
    it begins a preliminary block; otherwise it does exactly if the first rule that applies says so. *)
Theorem C34_preliminary : forall ordS ordD absd label_regex h doc fuel pages lh pre fin lh' i j segs lines bss blocks blk x y a b,
  perms ordS -> perms ordD -> NoDup (all_of pages) -> detectTextBlocks ordS ordD absd label_regex h doc fuel pages lh = Ok (pre, fin, lh') ->
  nth_error pages i = Some segs -> nth_error segs j = Some lines -> nth_error pre i = Some bss -> nth_error bss j = Some blocks ->
  (forall a b, consecutive a b lines -> bl_prev (lh b) = Some a \/ bl_prev (lh b) = None) ->
  consecutive a b lines -> In blk blocks -> tb_lines blk = x ++ a :: y ->
  (bl_prev (lh b) = None -> y = []) /\
  (bl_prev (lh b) = Some a ->
   first_rule (preliminary_rules doc (match bl_prev (lh a) with Some pp => Some (lh pp) | None => None end) (lh a) (lh b))
              (match y with [] => true | _ :: _ => false end)).
Proof.
  intros ordS ordD absd lr h doc fuel pages lh pre fin lh' i j segs ls bss bs blk x y a b HS HD ND H H1 H2 H3 H4 NB CA HB E.
  pose proof (preliminary_cut ordS ordD absd lr h doc HS HD fuel pages lh lh' pre fin ND H i j segs ls bss bs blk x y a b H1 H2 H3 H4 NB CA HB E) as D. split.
  - intros N. unfold startsPreliminaryBlock in D. rewrite N in D. cbn [line_at] in D. destruct y; [reflexivity|discriminate].
  - intros P. exact (prelim_rules_spec doc lh (lh b) a _ P D).
Qed.
Print Assumptions C34_preliminary.

(** Let [a] and [b] be consecutive lines of a preliminary block [pb]; let [a] be in the block [blk], and let [B1] be the blocks
    before it in the document. [b] begins a block exactly if the first rule that applies says so. The rules are applied to the lines
    as they are at this time: those of [B1] are in their final state [lh'], all others in the state [lh1] after the first pass, in which
    they refer to their neighbours in the preliminary blocks. *)
Theorem C34_blocks : forall ordS ordD absd label_regex h doc fuel pages lh pre fin lh',
  perms ordS -> perms ordD -> NoDup (all_of pages) -> detectTextBlocks ordS ordD absd label_regex h doc fuel pages lh = Ok (pre, fin, lh') ->
  exists lh1, (forall l, same_content (lh l) (lh1 l)) /\ (forall segs blocks, In segs pre -> In blocks segs -> lines_placed doc lh lh1 blocks) /\
  forall P1 pb P2 u a b v B1 blk B2 x y,
    all_of pre = P1 ++ pb :: P2 -> tb_lines pb = u ++ a :: b :: v ->
    concat fin = B1 ++ blk :: B2 -> tb_lines blk = x ++ a :: y ->
    let done := concat (map tb_lines B1) in
    first_rule (block_rules absd label_regex h doc (mixed done lh1 lh') (labels_in h lh (done ++ x ++ [a; b])) pb (lh1 a) (lh1 b))
               (match y with [] => true | _ :: _ => false end).
Proof.
  intros ordS ordD absd lr h doc fuel pages lh pre fin lh' HS HD ND H.
  destruct (final_cut ordS ordD absd lr h doc HS HD fuel pages lh lh' pre fin ND H) as (lh1 & A & B & C). exists lh1. split; [exact A|]. split.
  - intros segs bs H1 H2. apply (inv_placed _ _ _ _ _ _ (proj1 (Forall_forall _ _) (proj1 (Forall_forall _ _) B segs H1) bs H2)).
  - intros P1 pb P2 u a b v B1 blk B2 x y E1 E2 E3 E4 dn. destruct (C P1 pb P2 u a b v B1 blk B2 x y E1 E2 E3 E4) as (Na & Nb & EP & D). cbv zeta in D.
    apply (block_rules_spec absd lr h doc fuel _ _ pb (lh1 b) a _ EP) in D. rewrite (mixed_out _ _ _ _ Na) in D. exact D.
Qed.
Print Assumptions C34_blocks.

(** Consecutive lines of a block have the same rotation and writing mode, or are in the same figure. *)
Theorem C34_rotation : forall ordS ordD absd label_regex h doc fuel pages lh pre fin lh' blk a b,
  perms ordS -> perms ordD -> NoDup (all_of pages) -> detectTextBlocks ordS ordD absd label_regex h doc fuel pages lh = Ok (pre, fin, lh') ->
  (forall segs lines, In segs pages -> In lines segs -> forall a b, consecutive a b lines -> bl_prev (lh b) = Some a \/ bl_prev (lh b) = None) ->
  In blk (concat fin) -> consecutive a b (tb_lines blk) ->
  (rotation (bl_pos (lh a)) = rotation (bl_pos (lh b)) /\ wMode (bl_pos (lh a)) = wMode (bl_pos (lh b))) \/ same_figure doc (lh a) (lh b).
Proof.
  intros ordS ordD absd lr h doc fuel pages lh pre fin lh' blk a b HS HD ND H NB HB CA.
  destruct (C33_partition ordS ordD absd lr h doc fuel pages lh pre fin lh' HS HD ND H) as (P1 & _ & _ & P4).
  assert (X : exists segs i, nth_error pre i = Some segs /\ exists pb, In pb (concat segs) /\ consecutive a b (tb_lines pb)).
  { clear -P4 HB CA. induction P4 as [|segs bs pre fin (parts & -> & F) _ IH]; cbn [concat] in HB; [destruct HB|].
    apply in_app_or in HB as [HB|HB]; [|destruct (IH HB) as (s & i & Hi & R); exists s, (S i); split; [exact Hi|exact R]].
    exists segs, 0. split; [reflexivity|]. clear IH. induction F as [|pb part bl parts E _ IH]; cbn [concat] in HB; [destruct HB|].
    apply in_app_or in HB as [HB|HB]; [|destruct (IH HB) as (q & Q1 & Q2); exists q; split; [right; exact Q1|exact Q2]].
    exists pb. split; [left; reflexivity|]. rewrite <- E. apply in_split in HB as (p1 & p2 & ->). destruct CA as (x & y & CA).
    rewrite map_app, concat_app. cbn [map concat]. rewrite CA. exists (concat (map tb_lines p1) ++ x), (y ++ concat (map tb_lines p2)). rewrite <- !app_assoc. reflexivity. }
  destruct X as (bss & i & Hi & pb & Hpb & CP). apply in_concat in Hpb as (bs & Hbs & Hpb). apply In_nth_error in Hbs as (j & Hj).
  assert (Y : exists segs, nth_error pages i = Some segs /\ Forall2 (fun lines blocks => concat (map tb_lines blocks) = lines) segs bss).
  { clear -P1 Hi. revert i Hi. induction P1; intros [|i] Hi; try discriminate; cbn [nth_error] in *; [injection Hi as ->; eexists; split; [reflexivity|assumption]|apply IHP1, Hi]. }
  destruct Y as (segs & Hs & F). assert (Z : exists lines, nth_error segs j = Some lines /\ concat (map tb_lines bs) = lines).
  { clear -F Hj. revert j Hj. induction F; intros [|j] Hj; try discriminate; cbn [nth_error] in *; [injection Hj as ->; eexists; split; [reflexivity|assumption]|apply IHF, Hj]. }
  destruct Z as (lines & Hl & EL). destruct CP as (x & y & EP).
  assert (CL : consecutive a b lines).
  { rewrite <- EL. apply in_split in Hpb as (p1 & p2 & ->). rewrite map_app, concat_app. cbn [map concat]. rewrite EP.
    exists (concat (map tb_lines p1) ++ x), (y ++ concat (map tb_lines p2)). rewrite <- !app_assoc. reflexivity. }
  assert (NB' : forall a b, consecutive a b lines -> bl_prev (lh b) = Some a \/ bl_prev (lh b) = None) by (apply (NB segs); apply nth_error_In in Hs, Hl; assumption).
  destruct (C34_preliminary ordS ordD absd lr h doc fuel pages lh pre fin lh' i j segs lines bss bs pb x (b :: y) a b HS HD ND H Hs Hl Hi Hj NB' CL Hpb EP) as [R1 R2].
  destruct (NB' a b CL) as [E|E]; [|discriminate (R1 E)]. specialize (R2 E). cbn iota in R2.
  inversion R2 as [|? ? ? C|? ? ? ? N1 R3]; subst; [right; exact C|]. inversion R3 as [|? ? ? C|? ? ? ? N2 R4]; subst.
  inversion R4 as [|? ? ? C|? ? ? ? N3 R5]; subst. left. split; [destruct (Z.eq_dec (rotation (bl_pos (lh a))) (rotation (bl_pos (lh b))))|destruct (Z.eq_dec (wMode (bl_pos (lh a))) (wMode (bl_pos (lh b))))]; tauto.
Qed.
Print Assumptions C34_rotation.

(** ** Attributes of blocks *)
(** The hanging indent of a block is the one of its lines, given their final margins. *)
Theorem C60_hanging_indent : forall ordS ordD absd label_regex h doc fuel pages lh pre fin lh' blk,
  perms ordS -> perms ordD -> NoDup (all_of pages) -> detectTextBlocks ordS ordD absd label_regex h doc fuel pages lh = Ok (pre, fin, lh') ->
  In blk (concat fin) -> (N.of_nat (length (tb_lines blk)) < 2 ^ 32)%N -> (forall l, In l (tb_lines blk) -> is_nan_d (bl_left (lh' l)) = false) ->
  hanging_indent h doc lh' (tb_lines blk) (tb_hang blk).
Proof.
  intros ordS ordD absd lr h doc fuel pages lh pre fin lh' blk HS HD ND H HB L NN.
  destruct (detect_spec ordS ordD absd lr h doc HS HD fuel pages lh lh' pre fin ND H) as (lh1 & _ & _ & _ & _ & _ & B' & _).
  apply in_concat in HB as (bs & Hbs & HB). pose proof (inv_hang _ _ _ _ _ _ (proj1 (Forall_forall _ _) B' bs Hbs)) as IH. rewrite Forall_forall in IH. exact (IH blk HB L NN).
Qed.
Print Assumptions C60_hanging_indent.
(** A block is emphasized exactly if its text, font and font size are; it is centered exactly if its lines are. *)
Theorem C60_emphasis_and_centering : forall ordS ordD absd label_regex h doc fuel pages lh pre fin lh' blk,
  perms ordS -> perms ordD -> NoDup (all_of pages) -> detectTextBlocks ordS ordD absd label_regex h doc fuel pages lh = Ok (pre, fin, lh') ->
  In blk (all_of pre) \/ In blk (concat fin) ->
  (tb_emph blk = true <-> emphasized doc (tb_text blk) (tb_fontName blk) (tb_fontSize blk)) /\
  (tb_centered blk = true <-> lines_centered absd doc lh (tb_lines blk)).
Proof.
  intros ordS ordD absd lr h doc fuel pages lh pre fin lh' blk HS HD ND H HB.
  destruct (C33_blocks ordS ordD absd lr h doc fuel pages lh pre fin lh' HS HD ND H) as [G1 G2].
  assert (X : exists bs, In blk bs /\ good_blocks absd h doc lh bs).
  { destruct HB as [HB|HB]; apply in_concat in HB as (bs & Hbs & HB).
    - apply in_map_iff in Hbs as (segs & <- & Hs). apply in_concat in HB as (bs & Hb & HB). exists bs. split; [exact HB|apply (G1 segs bs Hs Hb)].
    - exists bs. split; [exact HB|apply G2, Hbs]. }
  destruct X as (bs & Hb & G). apply In_nth_error in Hb as (i & Hi). destruct (G i blk Hi) as (_ & _ & _ & l0 & rest & _ & _ & _ & _ & _ & _ & _ & _ & _ & E & C). split; [exact E|exact C].
Qed.
Print Assumptions C60_emphasis_and_centering.

(** ** Potential footnote labels *)
Theorem C61_labels : forall h lh ls label, In label (labels_in h lh ls) <->
  exists l w, In l ls /\ In w (bl_words (lh l)) /\ label_of (w_chars (h w)) label.
Proof.
  intros h lh ls label. unfold labels_in. rewrite in_flat_map. split.
  - intros (l & Hl & H). apply in_flat_map in H as (w & Hw & H). exists l, w. split; [exact Hl|]. split; [exact Hw|apply word_labels_spec, H].
  - intros (l & w & Hl & Hw & H). exists l. split; [exact Hl|]. apply in_flat_map. exists w. split; [exact Hw|apply word_labels_spec, H].
Qed.
Print Assumptions C61_labels.

Definition bch (t : str) (super : bool) : character :=
  mkChar 0 (S_ "i") 0 (mkPos 1 (dZ 0) (dZ 0) (dZ 5) (dZ 5) 0 0) t (S_ "n") [] (S_ "f") (dZ 10) (dzero, dzero, dzero) done (dZ 5) false super None None [].
Definition en_dash : str := map ascii_of_nat [226; 128; 147].
(** The alphabet of special labels is searched for bytes instead of characters: an en dash, which is not in the alphabet, shares its
    first byte with "‡" (among others), so that it is taken for a footnote label. *)
Theorem C61_only_label_characters_refuted : label_of [bch (S_ "a") false; bch en_dash false] en_dash /\
  ~ exists x y, map ascii_of_nat FOOTNOTE_BYTES = x ++ en_dash ++ y.
Proof.
  split; [|rewrite <- substringb_spec; vm_compute; discriminate]. apply word_labels_spec. vm_compute. left. reflexivity.
Qed.
Print Assumptions C61_only_label_characters_refuted.

(** ** An example: five lines in one segment; the last one is far below the others, and the third one is indented. *)
Definition ex_word (x0 x1 y : Z) (t : string) : word :=
  mkWord (S_ "w") 0 (mkPos 1 (dZ x0) (dZ y) (dZ x1) (dZ (y + 8)) 0 0) (S_ t) (S_ "f") (dZ 10) [bch (S_ t) false] None [] None None.
Definition ex_heap : heap := fun i => nth i
  [ex_word 0 200 0 "Some text"; ex_word 0 200 10 "more text."; ex_word 10 200 20 "Another paragraph"; ex_word 0 100 30 "ends here."; ex_word 0 200 60 "Far below"]
  (ex_word 0 0 0 "").
Definition ex_line (x0 x1 y : Z) (t : string) (w : nat) (p n : option nat) : bline :=
  mkBLine (mkPos 1 (dZ x0) (dZ y) (dZ x1) (dZ (y + 8)) 0 0) (S_ t) (S_ "f") (dZ 10) (dZ 10) [w] 0 p n None None None dzero dzero.
Definition ex_lines : lheap := fun i => nth i
  [ex_line 0 200 0 "Some text" 0 None (Some 1); ex_line 0 200 10 "more text." 1 (Some 0) (Some 2); ex_line 10 200 20 "Another paragraph" 2 (Some 1) (Some 3);
   ex_line 0 100 30 "ends here." 3 (Some 2) (Some 4); ex_line 0 200 60 "Far below" 4 (Some 3) None]
  (ex_line 0 0 0 "" 9 None None).
Definition ex_doc : bdoc :=
  mkBDoc (dZ 5) (S_ "f") (dZ 10) (dZ 8) (dZ 2) [] [(S_ "f", mkFont 400 false false)]
    (fun _ => (mkPos 1 (dZ 0) (dZ 0) (dZ 200) (dZ 70) 0 0, (dZ 0, dZ 0, dZ 200, dZ 70))) [[]].
Definition ex_run := detectTextBlocks (fun m => m) (fun m => m) dabs (fun _ => false) ex_heap ex_doc 1 [[[0; 1; 2; 3; 4]]] ex_lines.
Example C33_example :
  match ex_run with
  | Ok (pre, fin, lh') => Some (map (map (map tb_lines)) pre, map (map (fun b => (tb_lines b, tb_rank b, tb_prev b, tb_next b))) fin, map (fun l => bl_prev (lh' l)) [0; 1; 2; 3; 4])
  | _ => None end
  = Some ([[[[0; 1; 2; 3]; [4]]]],
          [[([0; 1], 0%Z, None, Some 1); ([2; 3], 1%Z, Some 0, Some 2); ([4], 2%Z, Some 1, None)]],
          [None; Some 0; None; Some 2; None]) /\
  match ex_run with Ok (_, fin, _) => map (map tb_text) fin | _ => [] end = [[S_ "Some text more text."; S_ "Another paragraph ends here."; S_ "Far below"]] /\
  perms (fun m : list (str * N) => m) /\ perms (fun m : list (double * N) => m) /\ NoDup (all_of [[[0; 1; 2; 3; 4]]]) /\
  (forall a b, consecutive a b [0; 1; 2; 3; 4] -> bl_prev (ex_lines b) = Some a \/ bl_prev (ex_lines b) = None) /\
  (forall l, In l (all_of [[[0; 1; 2; 3; 4]]]) -> (1 <= pageNum (bl_pos (ex_lines l)) <= Z.of_nat (length (bd_figures ex_doc)))%Z /\
     ((3 <= N.of_nat (length (bl_text (ex_lines l))))%N -> bl_words (ex_lines l) <> [])).
Proof.
  split; [vm_compute; reflexivity|]. split; [vm_compute; reflexivity|]. split; [intros m; apply Permutation_refl|]. split; [intros m; apply Permutation_refl|]. split; [|split].
  - cbn [map concat app]. repeat (constructor; [intros X; cbn [In] in X; lia|]). constructor.
  - intros a b C. left. repeat (apply consecutive_cons in C as [[-> ->]|C]; [reflexivity|]). destruct (consecutive_one _ _ _ C).
  - intros l Hl. cbn [map concat app In] in Hl. repeat (destruct Hl as [<-|Hl]; [split; [cbn; lia|intros _; discriminate]|]). destruct Hl.
Qed.
(** With figures: two lines with different rotations in the same figure are in one block. *)
Definition ex_line_r (x0 x1 y r : Z) (w : nat) (p : option nat) : bline :=
  mkBLine (mkPos 1 (dZ x0) (dZ y) (dZ x1) (dZ (y + 8)) r 0) (S_ "Some text") (S_ "f") (dZ 10) (dZ 10) [w] 0 p None None None None dzero dzero.
Example C34_example :
  let lh := (fun i => nth i [ex_line_r 0 200 0 0 0 None; ex_line_r 0 200 10 1 1 (Some 0)] (ex_line_r 0 0 0 0 9 None)) : lheap in
  let groups doc := match detectTextBlocks (fun m => m) (fun m => m) dabs (fun _ => false) ex_heap doc 1 [[[0; 1]]] lh with Ok (pre, _, _) => map (map (map tb_lines)) pre | _ => [] end in
  groups ex_doc = [[[[0]; [1]]]] /\
  groups (mkBDoc (bd_acw ex_doc) (bd_fontName ex_doc) (bd_fontSize ex_doc) (bd_wordHeight ex_doc) (bd_dist ex_doc) (bd_distPer ex_doc) (bd_fonts ex_doc) (bd_seg ex_doc)
     [[mkPos 1 (dZ 0) (dZ 0) (dZ 300) (dZ 300) 0 0]]) = [[[[0; 1]]]].
Proof. split; vm_compute; reflexivity. Qed.
Example C61_example :
  label_of [bch (S_ "1") true; bch (S_ "a") false; bch (S_ "1") true; bch [] false; bch (S_ "2") true; bch (S_ "x") false; bch (S_ "*") false] (S_ "12") /\
  label_of [bch (S_ "1") true; bch (S_ "a") false; bch (S_ "1") true; bch [] false; bch (S_ "2") true; bch (S_ "x") false; bch (S_ "*") false] (S_ "*") /\
  ~ label_of [bch (S_ "1") true; bch (S_ "a") false; bch (S_ "2") true] (S_ "1").
Proof.
  split; [|split]; rewrite <- word_labels_spec; [vm_compute; left; reflexivity|vm_compute; right; left; reflexivity|].
  vm_compute. intros [H|[]]. discriminate.
Qed.
(** A block with a hanging indent of 10, and a centered block in capital letters. *)
Example C60_example :
  let lh := (fun i => nth i [ex_line 0 200 0 "Some text" 0 None (Some 1); ex_line 10 200 10 "more text" 1 (Some 0) (Some 2); ex_line 10 200 20 "another text" 2 (Some 1) (Some 3)]
                            (ex_line 0 0 0 "" 9 None None)) : lheap in
  match detectTextBlocks (fun m => m) (fun m => m) dabs (fun _ => false) ex_heap ex_doc 1 [[[0; 1; 2]]] lh with
  | Ok (pre, _, _) => Some (map (fun b => (tb_lines b, deq (tb_hang b) (dZ 10), tb_centered b, tb_emph b)) (all_of pre))
  | _ => None end = Some [([0; 1; 2], true, false, false)] /\
  let lh := (fun i => nth i [ex_line 20 180 0 "SOME TEXT" 0 None (Some 1); ex_line 40 160 10 "MORE" 1 (Some 0) None] (ex_line 0 0 0 "" 9 None None)) : lheap in
  let hp := (fun i => nth i [ex_word 20 180 0 "SOME TEXT"; ex_word 40 160 10 "MORE"] (ex_word 0 0 0 "")) : heap in
  match detectTextBlocks (fun m => m) (fun m => m) dabs (fun _ => false) hp ex_doc 1 [[[0; 1]]] lh with
  | Ok (_, fin, _) => Some (map (fun b => (tb_lines b, tb_centered b, tb_emph b)) (concat fin))
  | _ => None end = Some [([0; 1], true, true)].
Proof. split; vm_compute; reflexivity. Qed.
