(** PropsScripts.v - property theorems C27 (sub- and superscripts). *)
From Coq Require Import ZArith NArith.
From Verif Require Import Base Double DoubleFacts MathUtils Elements ElementsProofs GeometrySpec Document Scripts ScriptsSpec ScriptsProofs.
Local Open Scope nat_scope.
Local Opaque TOL dadd dsub ddiv dmul dec DBL_MAX DBL_MIN.

(** For any lines: nothing but the flags of characters and the base boxes of lines changes; a character of a word is flagged as
    superscript (subscript) exactly if it was before or if it is small and raised (lowered) with respect to the baseline of some
    line that contains the word. *)
Theorem C27_flags : forall mf ls h h' out, detectScripts mf ls h = (h', out) ->
  (forall w, exists cs, h' w = set_chars (h w) cs /\
     Forall2 (fun c c' => flagged c (c_isSub c || existsb (fun b => is_sub mf b c) (bases_of ls w))
                                    (c_isSuper c || existsb (fun b => is_super mf b c) (bases_of ls w)) c') (w_chars (h w)) cs) /\
  map sl_base out = map sl_base ls /\ map sl_words out = map sl_words ls.
Proof.
  intros mf ls h h' out H. destruct (detect_spec _ _ _ _ _ H) as [A B]. split; [|split].
  - intros w. exists (map (mark_all mf (bases_of ls w)) (w_chars (h w))). split; [apply A|].
    induction (w_chars (h w)) as [|c cs IH]; constructor; [reflexivity|exact IH].
  - clear -B. induction B as [|l l' t t' (X & _) F IH]; [reflexivity|]. cbn [map]. rewrite X, IH. reflexivity.
  - clear -B. induction B as [|l l' t t' (_ & X & _) F IH]; [reflexivity|]. cbn [map]. rewrite X, IH. reflexivity.
Qed.
Print Assumptions C27_flags.

(** If no character is flagged before, and all lines that contain a word have the same baseline [b] (for instance, because there
    is only one), no character of the word is flagged as both; a superscript (subscript) has a font size strictly smaller than
    the most frequent one, and its baseline is strictly above (below) [b]. *)
Theorem C27_exclusive : forall mf ls h h' out w b, detectScripts mf ls h = (h', out) ->
  (forall c, In c (w_chars (h w)) -> c_isSub c = false /\ c_isSuper c = false) ->
  (forall b', In b' (bases_of ls w) -> b' = b) ->
  forall c, In c (w_chars (h' w)) ->
    (c_isSub c && c_isSuper c)%bool = false /\
    (c_isSuper c = true -> dlt (c_fontSize c) mf = true /\ dlt (c_base c) b = true) /\
    (c_isSub c = true -> dlt (c_fontSize c) mf = true /\ dlt b (c_base c) = true).
Proof.
  intros mf ls h h' out w b H F B c Hc. destruct (detect_spec _ _ _ _ _ H) as [A _]. rewrite A in Hc. cbn [mark_all_word set_chars w_chars] in Hc.
  apply in_map_iff in Hc as (c0 & <- & H0). destruct (F c0 H0) as [F1 F2].
  assert (X : forall f : double -> bool, existsb f (bases_of ls w) = true -> f b = true).
  { intros f E. apply existsb_exists in E as (x & Hx & E). rewrite (B x Hx) in E. exact E. }
  assert (SUP : c_isSuper (mark_all mf (bases_of ls w) c0) = true -> is_super mf b c0 = true).
  { cbn [mark_all with_flags c_isSuper]. rewrite F2. cbn [orb]. apply X. }
  assert (SUB : c_isSub (mark_all mf (bases_of ls w) c0) = true -> is_sub mf b c0 = true).
  { cbn [mark_all with_flags c_isSub]. rewrite F1. cbn [orb]. apply X. }
  set (c := mark_all mf (bases_of ls w) c0) in *. change (c_fontSize c) with (c_fontSize c0). change (c_base c) with (c_base c0). split; [|split].
  - destruct (c_isSub c) eqn:E1, (c_isSuper c) eqn:E2; try reflexivity. specialize (SUP eq_refl). specialize (SUB eq_refl).
    unfold is_super, is_sub in *. apply andb_true_iff in SUP as [_ R]. apply andb_true_iff in SUB as [_ L]. rewrite (raised_lowered _ _ R) in L. discriminate.
  - intros E. specialize (SUP E). apply andb_true_iff in SUP as [S R]. split; [|apply raised_lt, R].
    apply (MathUtilsProofs.smaller_lt _ _ _ fs_tol_pos S).
  - intros E. specialize (SUB E). apply andb_true_iff in SUB as [S R]. split; [|apply lowered_gt, R].
    apply (MathUtilsProofs.smaller_lt _ _ _ fs_tol_pos S).
Qed.
Print Assumptions C27_exclusive.

(** The base box of a line is the smallest box around its old base box and the characters that are neither superscript nor
    subscript with respect to this line. *)
Theorem C27_base_box : forall mf ls h h' out i l l', detectScripts mf ls h = (h', out) ->
  nth_error ls i = Some l -> nth_error out i = Some l' -> sl_box l = bbox_default ->
  (forall w c, In w (sl_words l) -> In c (w_chars (h w)) -> nn_pos (c_pos c)) ->
  extended_box (mkBox DBL_MAX DBL_MAX DBL_MIN DBL_MIN)
    (map c_pos (filter (fun c => negb (is_script mf (sl_base l) c)) (flat_map (fun w => w_chars (h w)) (sl_words l)))) (sl_box l').
Proof.
  intros mf ls h h' out i l l' H Hl Hl' D NN. destruct (detect_spec _ _ _ _ _ H) as [_ B].
  assert (E : sl_box l' = fold_left box_grow (flat_map (fun w => plain mf (sl_base l) (w_chars (h w))) (sl_words l)) (sl_box l)).
  { clear -B Hl Hl'. revert i Hl Hl'. induction B as [|a a' t t' (_ & _ & Z) F IH]; intros [|i] Hl Hl'; try discriminate.
    - injection Hl as ->. injection Hl' as ->. exact Z.
    - apply (IH i); assumption. }
  assert (P : flat_map (fun w => plain mf (sl_base l) (w_chars (h w))) (sl_words l) =
              map c_pos (filter (fun c => negb (is_script mf (sl_base l) c)) (flat_map (fun w => w_chars (h w)) (sl_words l)))).
  { clear. induction (sl_words l) as [|w ws IH]; [reflexivity|]. cbn [flat_map]. rewrite filter_app, map_app, IH. reflexivity. }
  rewrite E, P, D. apply grow_box; [repeat split|]. intros p Hp. apply in_map_iff in Hp as (c & <- & Hc). apply filter_In in Hc as [Hc _].
  apply in_flat_map in Hc as (w & Hw & Hc). apply (NN w c Hw Hc).
Qed.
Print Assumptions C27_base_box.

Definition sch (fs base : Z) : character :=
  mkChar 0 (S_ "i") 0 (mkPos 1 (dZ 0) (dZ (base - 5)) (dZ 5) (dZ base) 0 0) (S_ "x") (S_ "n") [] (S_ "f") (dZ fs) (dzero, dzero, dzero) done (dZ base)
         false false None None [].
Definition swd (cs : list character) : word := mkWord (S_ "w") 0 (mkPos 1 (dZ 0) (dZ 0) (dZ 10) (dZ 10) 0 0) (S_ "w") (S_ "f") (dZ 10) cs None [] None None.
(** A word that is in two lines (possible for the parts of stacked math symbols, see C25) can be flagged as both. *)
Theorem C27_exclusive_across_lines_refuted : exists ls h h' out, detectScripts (dZ 10) ls h = (h', out) /\
  map (fun c => (c_isSub c, c_isSuper c)) (w_chars (h' 0)) = [(true, true)].
Proof.
  exists [mkSLine (dZ 100) [0] bbox_default; mkSLine (dZ 120) [0] bbox_default], (fun _ => swd [sch 7 110]).
  destruct (detectScripts _ _ _) as [h' out] eqn:E. exists h', out. split; [reflexivity|].
  change h' with (fst (h', out)). rewrite <- E. vm_compute. reflexivity.
Qed.
Print Assumptions C27_exclusive_across_lines_refuted.

Example C27_example : let r := detectScripts (dZ 10) [mkSLine (dZ 100) [0] bbox_default] (fun _ => swd [sch 10 100; sch 7 95; sch 7 103; sch 7 100]) in
  map (fun c => (c_isSub c, c_isSuper c)) (w_chars (fst r 0)) = [(false, false); (false, true); (true, false); (false, false)] /\
  map (fun l => deq (bx_lower (sl_box l)) (dZ 100)) (snd r) = [true] /\ bases_of [mkSLine (dZ 100) [0] bbox_default] 0 = [dZ 100].
Proof. split; [vm_compute; reflexivity|]. split; [vm_compute; reflexivity|reflexivity]. Qed.
