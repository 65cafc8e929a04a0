(** PropsConfiguration.v - C31: the configuration of the segmentation of pages that the program ships with (src/Config.h:291-420). *)
From Coq Require Import ZArith NArith Reals Lra.
From Flocq Require Import Core IEEE754.BinarySingleNaN.
From Verif Require Import Base Double DoubleFacts PageSegmentation ImagingProofs.
Local Open Scope R_scope.

(** [d] is the number [x], up to rounding. *)
Definition about (d : double) (x : R) : Prop := is_finite d = true /\ Rabs (B2R d - x) <= / 1000000.
Lemma times k d : (Z.abs k <= 100)%Z -> is_finite d = true -> Rabs (B2R d) <= 1000000 -> about (dmul (dZ k) d) (IZR k * B2R d).
Proof.
  intros K F M. destruct (near_Z k ltac:(lia)) as (FK & AK & _).
  assert (N1 : near (dZ k) (IZR k) 0 100). { split; [exact FK|]. split; [exact AK|]. rewrite <- abs_IZR. apply IZR_le. exact K. }
  assert (N2 : near d (B2R d) 0 1000000). { split; [exact F|]. split; [rewrite Rminus_diag_eq by reflexivity; rewrite Rabs_R0; lra|exact M]. }
  destruct (near_mul _ _ _ _ _ _ _ _ N1 N2 ltac:(num)) as (F3 & A3 & _). split; [exact F3|]. eapply Rle_trans; [exact A3|num].
Qed.
Lemma number k : (Z.abs k <= 100)%Z -> about (dZ k) (IZR k).
Proof. intros K. destruct (near_Z k ltac:(lia)) as (FK & AK & _). split; [exact FK|]. eapply Rle_trans; [exact AK|lra]. Qed.

(** A gap between columns is twice as wide as the usual distance between words, one between paragraphs at least two units high; a vertical
    cut may go through one element at most, only on pages parts with 500 elements at least and only if the element lies within five
    character heights of the end of the cut; gaps are small below two character widths and six character heights; words overlap from a
    tenth on; groups are slim below ten character widths. *)
Theorem C31_configuration : forall s, let cfg := default_config s in
  is_finite (ps_wordDist s) = true -> is_finite (ps_charWidth s) = true -> is_finite (ps_charHeight s) = true ->
  Rabs (B2R (ps_wordDist s)) <= 1000000 -> Rabs (B2R (ps_charWidth s)) <= 1000000 -> Rabs (B2R (ps_charHeight s)) <= 1000000 ->
  about (xCutMinGapWidth cfg) (2 * B2R (ps_wordDist s)) /\ about (yCutMinGapHeight cfg) 2 /\
  xCutMaxNumOverlappingElements cfg = 1%Z /\ overlappingMinNumElements cfg = 500%nat /\
  about (overlappingMargin cfg) (5 * B2R (ps_charHeight s)) /\
  about (smallGapWidth cfg) (2 * B2R (ps_charWidth s)) /\ about (smallGapHeight cfg) (6 * B2R (ps_charHeight s)) /\
  about (contiguousYOverlap cfg) (/ 10) /\ about (slimGroupWidth cfg) (10 * B2R (ps_charWidth s)).
Proof.
  intros s cfg F1 F2 F3 B1 B2 B3. unfold cfg, default_config. cbn [xCutMinGapWidth yCutMinGapHeight xCutMaxNumOverlappingElements overlappingMinNumElements overlappingMargin smallGapWidth smallGapHeight contiguousYOverlap slimGroupWidth].
  split; [apply times; [lia|assumption|assumption]|]. split; [apply number; lia|]. split; [reflexivity|]. split; [reflexivity|].
  split; [apply times; [lia|assumption|assumption]|]. split; [apply times; [lia|assumption|assumption]|]. split; [apply times; [lia|assumption|assumption]|].
  split; [|apply times; [lia|assumption|assumption]].
  split; [vm_compute; reflexivity|]. rewrite <- SF2R_B2SF. match goal with |- Rabs (SF2R _ ?x - _) <= _ => let y := eval vm_compute in x in change x with y end. unfold SF2R, Defs.F2R. cbn. apply Rabs_le. lra.
Qed.
Print Assumptions C31_configuration.
Example C31_configuration_example : let s := mkPS (dZ 4) (dZ 5) (dZ 8) in
  is_finite (ps_wordDist s) = true /\ is_finite (ps_charWidth s) = true /\ is_finite (ps_charHeight s) = true /\ about (smallGapHeight (default_config s)) 48.
Proof.
  cbv zeta. split; [vm_compute; reflexivity|]. split; [vm_compute; reflexivity|]. split; [vm_compute; reflexivity|].
  pose proof (times 6 (dZ 8) ltac:(lia) ltac:(vm_compute; reflexivity)) as T. destruct (number 8 ltac:(lia)) as [_ A].
  assert (E : B2R (dZ 8) = 8). { rewrite <- SF2R_B2SF. match goal with |- SF2R _ ?x = _ => let y := eval vm_compute in x in change x with y end. unfold SF2R, Defs.F2R. cbn. lra. }
  unfold default_config. cbn [smallGapHeight ps_charHeight]. rewrite E in T. replace 48 with (6 * 8) by ring. apply T. rewrite Rabs_pos_eq; lra.
Qed.
