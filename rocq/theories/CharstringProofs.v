(** CharstringProofs.v - the interpretation of charstrings (C46, C47). *)
From Coq Require Import ZArith NArith Reals Lra Psatz.
From Verif Require Import Base Fonts FontsSpec CipherProofs.
Open Scope Z_scope.

Definition rel (s : cs_state) (m : machine) : Prop :=
  cs_args s = m_stack m /\ cs_ps s = m_ps m /\ (cs_x s, cs_y s) = m_at m.
(** After the side bearing is set. *)
Definition piece_seen (seen : list point) (c : piece) : Prop :=
  match c with Line p q => In p seen /\ In q seen | Curve p a b q => In p seen /\ In a seen /\ In b seen /\ In q seen end.
Definition good (s : cs_state) (m : machine) : Prop :=
  tight_box (cs_box s) (m_seen m) /\ In (m_at m) (m_seen m) /\ Forall (piece_seen (m_seen m)) (m_drawn m).

Lemma tight_x b ps x y : tight_box b ps -> (exists x', In (x', y) ps) -> tight_box (see_x x b) ((x, y) :: ps).
Proof.
  destruct b as [[[l u] r] d]. cbn [see_x tight_box]. intros [C [[y1 L] [[y2 R] [[x1 U] [x2 D]]]]] [x' Hy].
  split; [|split; [|split; [|split]]].
  - intros a c [E|I].
    + inversion E; subst. pose proof (C _ _ Hy). lia.
    + pose proof (C _ _ I). lia.
  - destruct (Z.min_spec l x) as [[_ ->]|[_ ->]]; [exists y1; now right|exists y; now left].
  - destruct (Z.max_spec r x) as [[_ ->]|[_ ->]]; [exists y; now left|exists y2; now right].
  - exists x1. now right.
  - exists x2. now right.
Qed.
Lemma tight_y b ps x y : tight_box b ps -> (exists y', In (x, y') ps) -> tight_box (see_y y b) ((x, y) :: ps).
Proof.
  destruct b as [[[l u] r] d]. cbn [see_y tight_box]. intros [C [[y1 L] [[y2 R] [[x1 U] [x2 D]]]]] [x' Hy].
  split; [|split; [|split; [|split]]].
  - intros a c [E|I].
    + inversion E; subst. pose proof (C _ _ Hy). lia.
    + pose proof (C _ _ I). lia.
  - exists y1. now right.
  - exists y2. now right.
  - destruct (Z.min_spec u y) as [[_ ->]|[_ ->]]; [exists x1; now right|exists x; now left].
  - destruct (Z.max_spec d y) as [[_ ->]|[_ ->]]; [exists x; now left|exists x2; now right].
Qed.
Lemma tight_xy b ps x y : tight_box b ps -> tight_box (see_y y (see_x x b)) ((x, y) :: ps).
Proof.
  destruct b as [[[l u] r] d]. cbn [see_x see_y tight_box]. intros [C [[y1 L] [[y2 R] [[x1 U] [x2 D]]]]].
  split; [|split; [|split; [|split]]].
  - intros a c [E|I].
    + inversion E; subst. lia.
    + pose proof (C _ _ I). lia.
  - destruct (Z.min_spec l x) as [[_ ->]|[_ ->]]; [exists y1; now right|exists y; now left].
  - destruct (Z.max_spec r x) as [[_ ->]|[_ ->]]; [exists y; now left|exists y2; now right].
  - destruct (Z.min_spec u y) as [[_ ->]|[_ ->]]; [exists x1; now right|exists x; now left].
  - destruct (Z.max_spec d y) as [[_ ->]|[_ ->]]; [exists x; now left|exists x2; now right].
Qed.
Lemma tight_start x y : int_range x -> int_range y -> tight_box (see_y y (see_x x (INT_MAX, INT_MAX, INT_MIN, INT_MIN))) [(x, y)].
Proof.
  unfold int_range, INT_MAX, INT_MIN. intros X Y. cbn [see_x see_y tight_box].
  rewrite !Z.min_r, !Z.max_r by lia. repeat split; try (eexists; left; reflexivity).
  all: destruct H as [E|[]]; inversion E; lia.
Qed.
Lemma see_comm x y b : see_x x (see_y y b) = see_y y (see_x x b).
Proof. destruct b as [[[l u] r] d]. reflexivity. Qed.
Lemma curve_box b x1 y1 x2 y2 x3 y3 :
  see_y y3 (see_y y2 (see_y y1 (see_x x3 (see_x x2 (see_x x1 b))))) =
  see_y y3 (see_x x3 (see_y y2 (see_x x2 (see_y y1 (see_x x1 b))))).
Proof. destruct b as [[[l u] r] d]. reflexivity. Qed.
Lemma piece_seen_mono s1 s2 c : (forall p, In p s1 -> In p s2) -> piece_seen s1 c -> piece_seen s2 c.
Proof. intros H. destruct c; cbn; intuition. Qed.
Lemma pieces_seen_mono s1 s2 cs : (forall p, In p s1 -> In p s2) -> Forall (piece_seen s1) cs -> Forall (piece_seen s2) cs.
Proof. intros H F. eapply Forall_impl; [|exact F]. intros c. apply piece_seen_mono, H. Qed.

(** The effect of an operator's bytes. *)
Definition op_model (w : bool) (o : cs_op) (s : cs_state) : outcome cs_state :=
  match op_bytes o with [b] => command w b s | [_; b] => escape w b s | _ => Ok s end.

Lemma transfer_spec : forall n a ps, (n <= length a)%nat -> transfer n a ps = Ok (skipn n a, rev (firstn n a) ++ ps).
Proof.
  induction n as [|n IH]; intros [|x a] ps H; cbn [length] in H; try lia.
  - reflexivity.
  - reflexivity.
  - cbn [transfer skipn firstn rev]. rewrite IH by lia. rewrite <- app_assoc. reflexivity.
Qed.
Lemma transfer_args_spec n a ps : n <= Z.of_nat (length a) ->
  transfer_args n a ps = Ok (skipn (Z.to_nat n) a, rev (firstn (Z.to_nat n) a) ++ ps).
Proof.
  intro H. unfold transfer_args. rewrite (proj2 (Z.leb_le _ _) H). apply transfer_spec. lia.
Qed.


Lemma good_to a ps x y b s m st ps' p drawn :
  cs_box s = b -> good s m -> tight_box (cs_box (mkCs a ps (fst p) (snd p) (see_y y (see_x x b)))) (p :: m_seen m) ->
  drawn = m_drawn m \/ drawn = Line (m_at m) p :: m_drawn m ->
  good (mkCs a ps (fst p) (snd p) (see_y y (see_x x b))) (mkM st ps' p (p :: m_seen m) drawn).
Proof.
  intros EB [T [I F]] T' D. split; [exact T'|]. split; [left; reflexivity|]. cbn [m_seen m_drawn].
  assert (F' : Forall (piece_seen (p :: m_seen m)) (m_drawn m)) by (eapply pieces_seen_mono; [|exact F]; intros; now right).
  destruct D as [->| ->]; [exact F'|]. constructor; [|exact F']. split; [now right|now left].
Qed.
Lemma good_xy s m a ps st ps' x y drawn : good s m ->
  drawn = m_drawn m \/ drawn = Line (m_at m) (x, y) :: m_drawn m ->
  good (mkCs a ps x y (see_y y (see_x x (cs_box s)))) (mkM st ps' (x, y) ((x, y) :: m_seen m) drawn).
Proof.
  intros G D. apply (good_to a ps x y (cs_box s) s m st ps' (x, y) drawn eq_refl G); [|exact D].
  cbn [cs_box]. apply tight_xy. apply G.
Qed.
Lemma see_x_id x b : (let '(l, u, r, d) := b in l <= x <= r) -> see_x x b = b.
Proof. destruct b as [[[l u] r] d]. intro H. cbn. rewrite Z.min_l, Z.max_l by lia. reflexivity. Qed.
Lemma see_y_id y b : (let '(l, u, r, d) := b in u <= y <= d) -> see_y y b = b.
Proof. destruct b as [[[l u] r] d]. intro H. cbn. rewrite Z.min_l, Z.max_l by lia. reflexivity. Qed.
Lemma good_at s m : good s m -> see_x (fst (m_at m)) (cs_box s) = cs_box s /\ see_y (snd (m_at m)) (cs_box s) = cs_box s.
Proof.
  intros [T [I _]]. destruct (cs_box s) as [[[l u] r] d] eqn:B. cbn [tight_box] in T. destruct T as [C _].
  destruct (m_at m) as [x y]. pose proof (C _ _ I) as [X Y]. cbn [fst snd].
  split; [apply see_x_id|apply see_y_id]; assumption.
Qed.
Lemma good_x s m a ps st ps' x drawn : good s m ->
  drawn = m_drawn m \/ drawn = Line (m_at m) (x, snd (m_at m)) :: m_drawn m ->
  good (mkCs a ps x (snd (m_at m)) (see_x x (cs_box s))) (mkM st ps' (x, snd (m_at m)) ((x, snd (m_at m)) :: m_seen m) drawn).
Proof.
  intros G D. rewrite <- (proj2 (good_at s m G)) at 1. rewrite see_comm. apply good_xy; assumption.
Qed.
Lemma good_y s m a ps st ps' y drawn : good s m ->
  drawn = m_drawn m \/ drawn = Line (m_at m) (fst (m_at m), y) :: m_drawn m ->
  good (mkCs a ps (fst (m_at m)) y (see_y y (cs_box s))) (mkM st ps' (fst (m_at m), y) ((fst (m_at m), y) :: m_seen m) drawn).
Proof.
  intros G D. rewrite <- (proj1 (good_at s m G)) at 1. apply good_xy; assumption.
Qed.
Lemma good_curve s m a ps st ps' x1 y1 x2 y2 x3 y3 : good s m ->
  good (mkCs a ps x3 y3 (see_y y3 (see_y y2 (see_y y1 (see_x x3 (see_x x2 (see_x x1 (cs_box s))))))))
    (mkM st ps' (x3, y3) ((x3, y3) :: (x2, y2) :: (x1, y1) :: m_seen m) (Curve (m_at m) (x1, y1) (x2, y2) (x3, y3) :: m_drawn m)).
Proof.
  intros [T [I F]]. split; [|split].
  - cbn [cs_box m_seen]. rewrite curve_box. apply tight_xy, tight_xy, tight_xy, T.
  - left. reflexivity.
  - cbn [m_seen m_drawn]. constructor.
    + cbn. tauto.
    + eapply pieces_seen_mono; [|exact F]. intros. do 3 right. assumption.
Qed.
Lemma good_same s m a ps x y st ps' : good s m -> (x, y) = m_at m -> good (mkCs a ps x y (cs_box s)) (mkM st ps' (m_at m) (m_seen m) (m_drawn m)).
Proof. intros [T [I F]] E. split; [exact T|]. split; assumption. Qed.

Lemma rel_intro a ps x y b seen drawn : rel (mkCs a ps x y b) (mkM a ps (x, y) seen drawn).
Proof. repeat split. Qed.
Ltac range R := destruct R as [_ R]; unfold go, line, curve, shift in R; cbn [m_seen fst snd] in R;
  repeat match type of R with
  | Forall _ (_ :: _) => let A := fresh "A" in apply Forall_cons_iff in R; cbn [fst snd] in R; destruct R as [A R]; destruct A
  end; rewrite ?Z.add_0_r in *.

Lemma op_sim w o m m1 s : o <> Callsubr -> o <> Return -> o <> Endchar -> rel s m -> apply_op o m = Some m1 -> in_range m1 ->
  exists s1, op_model w o s = Ok s1 /\ rel s1 m1 /\ (good s m -> good s1 m1).
Proof.
  intros N1 N2 N3 [RA [RP RX]] E R.
  destruct m as [st ps [x y] seen drawn]. destruct s as [args sps sx sy b]. cbn [cs_args cs_ps cs_x cs_y m_stack m_ps m_at] in *.
  inversion RX; subst sx sy; clear RX. subst args sps.
  assert (DROP : forall n, drop n (mkM st ps (x, y) seen drawn) = Some m1 ->
            exists a, (n <= length st)%nat /\ a = skipn n st /\ m1 = mkM a ps (x, y) seen drawn).
  { intros n D. unfold drop in D. cbn [m_stack] in D. destruct (n <=? length st)%nat eqn:L; [|discriminate].
    apply Nat.leb_le in L. inversion D. eexists. split; [exact L|]. split; reflexivity. }
  assert (SAME : forall a ps', good (mkCs st ps x y b) (mkM st ps (x, y) seen drawn) ->
            good (mkCs a ps' x y b) (mkM a ps' (x, y) seen drawn)).
  { intros a ps' G. exact (good_same _ _ a ps' x y a ps' G eq_refl). }
  destruct o; try contradiction; unfold op_model; cbn [op_bytes].
  all: unfold apply_op in E; cbn [m_stack m_ps m_at m_seen m_drawn] in E.
  all: try (apply DROP in E; destruct E as [a [L [-> ->]]];
    match type of L with
    | (2 <= _)%nat => do 2 (destruct st as [|? st]; [cbn [length] in L; lia|])
    | (5 <= _)%nat => do 5 (destruct st as [|? st]; [cbn [length] in L; lia|])
    | (6 <= _)%nat => do 6 (destruct st as [|? st]; [cbn [length] in L; lia|])
    end;
    eexists; split; [reflexivity|]; split; [apply rel_intro|apply SAME]).
  (* movements and lines *)
  all: repeat match type of E with
       | match ?l with _ => _ end = _ => is_var l; match type of l with list Z => destruct l as [|? ?]; try discriminate end
       end.
  all: try (inversion E; subst m1; clear E; range R; eexists; split;
    [cbn [command escape Z.eqb Pos.eqb orb cs_args cs_x cs_y]; repeat (rewrite int_op_ok by assumption; cbn [obind]); reflexivity|];
    unfold go, line, curve, shift, move_to, curve_to; cbn [fst snd m_at m_seen m_ps m_drawn cs_ps cs_box with_args cs_x cs_y]; rewrite ?Z.add_0_r; split; [apply rel_intro|]; intro G).
  all: try (first [exact (good_y _ _ _ _ _ _ _ _ G (or_introl eq_refl))
             | exact (good_x _ _ _ _ _ _ _ _ G (or_introl eq_refl))
             | exact (good_xy _ _ _ _ _ _ _ _ _ G (or_introl eq_refl))
             | exact (good_y _ _ _ _ _ _ _ _ G (or_intror eq_refl))
             | exact (good_x _ _ _ _ _ _ _ _ G (or_intror eq_refl))
             | exact (good_xy _ _ _ _ _ _ _ _ _ G (or_intror eq_refl))
             | exact (good_curve _ _ _ _ _ _ _ _ _ _ _ _ G)
             | exact (SAME _ _ G)]).
  - (* div *)
    destruct (z =? 0) eqn:Z0; [discriminate|]. inversion E; subst m1; clear E.
    assert (Q : in_int (Z.quot z0 z) = true).
    { apply in_int_iff. destruct R as [R _]. cbn [m_stack] in R. apply Forall_inv in R. exact R. }
    exists (mkCs (Z.quot z0 z :: st) ps x y b). split.
    { cbn [escape Z.eqb Pos.eqb orb cs_args]. rewrite Z0, Q. reflexivity. }
    split; [apply rel_intro|]. intro G. exact (SAME _ _ G).
  - (* callothersubr *)
    assert (CASES :
      (exists n py px q a, z = 0 /\ st = n :: py :: px :: q :: a /\ m1 = mkM a [px; py] (x, y) seen drawn) \/
      (exists n a, z = 1 /\ st = n :: a /\ m1 = mkM a [] (x, y) seen drawn) \/
      (exists n v a, z = 3 /\ st = n :: v :: a /\ m1 = mkM a [v] (x, y) seen drawn) \/
      (exists n a, z <> 0 /\ z <> 1 /\ z <> 3 /\ st = n :: a /\ n <= Z.of_nat (length a) /\
         m1 = mkM (skipn (Z.to_nat n) a) (rev (firstn (Z.to_nat n) a)) (x, y) seen drawn)).
    { clear DROP SAME R.
      assert (GEN : forall n a, st = n :: a ->
        (if (z =? 0) || (z =? 1) || (z =? 3) || negb (n <=? Z.of_nat (length a)) then None
         else Some (mkM (skipn (Z.to_nat n) a) (rev (firstn (Z.to_nat n) a)) (x, y) seen drawn)) = Some m1 ->
        z <> 0 /\ z <> 1 /\ z <> 3 /\ n <= Z.of_nat (length a) /\
         m1 = mkM (skipn (Z.to_nat n) a) (rev (firstn (Z.to_nat n) a)) (x, y) seen drawn).
      { intros n a _ H. destruct (Z.eqb_spec z 0); [discriminate|]. destruct (Z.eqb_spec z 1); [discriminate|].
        destruct (Z.eqb_spec z 3); [discriminate|]. destruct (Z.leb_spec n (Z.of_nat (length a))); [|discriminate].
        cbn [orb negb] in H. inversion H. repeat split; assumption. }
      destruct z as [|[[p|p|]|p|]|p].
      - destruct st as [|n [|py [|px [|q a]]]]; try discriminate. left. inversion E. exists n, py, px, q, a. repeat split.
      - do 3 right. destruct st as [|n a]; [discriminate|]. exists n, a. destruct (GEN n a eq_refl E) as [A [B [C [D F]]]]. repeat split; assumption.
      - do 3 right. destruct st as [|n a]; [discriminate|]. exists n, a. destruct (GEN n a eq_refl E) as [A [B [C [D F]]]]. repeat split; assumption.
      - destruct st as [|n [|v a]]; try discriminate. do 2 right. left. inversion E. exists n, v, a. repeat split.
      - do 3 right. destruct st as [|n a]; [discriminate|]. exists n, a. destruct (GEN n a eq_refl E) as [A [B [C [D F]]]]. repeat split; assumption.
      - destruct st as [|n a]; try discriminate. do 1 right. left. inversion E. exists n, a. repeat split.
      - do 3 right. destruct st as [|n a]; [discriminate|]. exists n, a. destruct (GEN n a eq_refl E) as [A [B [C [D F]]]]. repeat split; assumption. }
    destruct CASES as [(n & py & px & q & a & -> & -> & ->)|[(n & a & -> & -> & ->)|[(n & v & a & -> & -> & ->)|(n & a & Z0 & Z1 & Z3 & -> & L & ->)]]].
    + exists (mkCs a [px; py] x y b). split.
      { cbn [escape Z.eqb Pos.eqb orb cs_args]. rewrite transfer_args_spec by (cbn [length]; lia). reflexivity. } split; [apply rel_intro|]. intro G. exact (SAME _ _ G).
    + exists (mkCs a [] x y b). split; [reflexivity|]. split; [apply rel_intro|]. intro G. exact (SAME _ _ G).
    + exists (mkCs a [v] x y b). split; [|split; [apply rel_intro|]; intro G; exact (SAME _ _ G)].
      cbn [escape Z.eqb Pos.eqb orb cs_args]. rewrite transfer_args_spec by (cbn [length]; lia). reflexivity.
    + exists (mkCs (skipn (Z.to_nat n) a) (rev (firstn (Z.to_nat n) a)) x y b). split; [|split; [apply rel_intro|]; intro G; exact (SAME _ _ G)].
      cbn [escape Z.eqb Pos.eqb orb cs_args]. rewrite (proj2 (Z.eqb_neq _ _) Z0), (proj2 (Z.eqb_neq _ _) Z1), (proj2 (Z.eqb_neq _ _) Z3).
      rewrite transfer_args_spec by exact L. cbn [obind]. rewrite app_nil_r. reflexivity.
Qed.

(** ** The loop *)
Lemma loop_number w table call z bs rest cs s : number_bytes z bs -> bytes_of cs = bs ++ rest ->
  exists cs', bytes_of cs' = rest /\ cs_loop w table call cs s = cs_loop w table call cs' (push z s).
Proof.
  intros N E. inversion N; subst; unfold bytes_of in E; cbn [app] in E.
  - destruct cs as [|c cs]; [discriminate|]. cbn [map] in E. inversion E as [[E1 E2]]. exists cs. split; [reflexivity|].
    cbn [cs_loop]. fold (cs_loop w table call). rewrite E1.
    rewrite !(proj2 (Z.eqb_neq _ _)) by lia. rewrite (proj2 (Z.ltb_ge _ _)) by lia. rewrite (proj2 (Z.leb_le _ _)) by lia.
    replace (z + 139 - 139) with z by lia. reflexivity.
  - destruct cs as [|c [|c1 cs]]; try discriminate. cbn [map] in E. inversion E as [[E1 E2 E3]]. subst. exists cs. split; [reflexivity|].
    cbn [cs_loop]. fold (cs_loop w table call).
    rewrite !(proj2 (Z.eqb_neq (byte c) _)) by lia. rewrite (proj2 (Z.ltb_ge _ _)) by lia.
    rewrite (proj2 (Z.leb_gt (byte c) 246)) by lia. rewrite (proj2 (Z.leb_le (byte c) 250)) by lia. reflexivity.
  - destruct cs as [|c [|c1 cs]]; try discriminate. cbn [map] in E. inversion E as [[E1 E2 E3]]. subst. exists cs. split; [reflexivity|].
    cbn [cs_loop]. fold (cs_loop w table call).
    rewrite !(proj2 (Z.eqb_neq (byte c) _)) by lia. rewrite (proj2 (Z.ltb_ge _ _)) by lia.
    rewrite (proj2 (Z.leb_gt (byte c) 246)) by lia. rewrite (proj2 (Z.leb_gt (byte c) 250)) by lia. rewrite (proj2 (Z.leb_le (byte c) 254)) by lia.
    f_equal. f_equal. lia.
  - destruct cs as [|c [|c1 [|c2 [|c3 [|c4 cs]]]]]; try discriminate. cbn [map] in E. inversion E as [[E1 E2 E3 E4 E5 E6]]. subst.
    exists cs. split; [reflexivity|]. cbn [cs_loop]. fold (cs_loop w table call). rewrite E1.
    cbn [Z.eqb Pos.eqb Z.ltb Z.leb Z.compare Pos.compare Pos.compare_cont]. f_equal. f_equal. unfold int_of_bytes.
    replace (byte c1 * 2 ^ 24 + byte c2 * 2 ^ 16 + byte c3 * 2 ^ 8 + byte c4) with (z mod 2 ^ 32) by (symmetry; assumption).
    unfold wrap32. rewrite Z.add_mod_idemp_l by lia. rewrite Z.mod_small by lia. lia.
Qed.
Lemma loop_op w table call o rest cs s : o <> Callsubr -> bytes_of cs = op_bytes o ++ rest ->
  exists cs', bytes_of cs' = rest /\ cs_loop w table call cs s = rbind (Some (op_model w o s)) (cs_loop w table call cs').
Proof.
  intros N E. unfold bytes_of in E.
  destruct (op_bytes o) as [|b1 [|b2 [|b3 r]]] eqn:B; try (destruct o; discriminate).
  - cbn [app] in E. destruct cs as [|c cs]; [discriminate|]. cbn [map] in E. inversion E as [[E1 E2]]. subst. exists cs. split; [reflexivity|].
    unfold op_model. rewrite B. cbn [cs_loop]. fold (cs_loop w table call).
    assert (R : byte c <> 10 /\ byte c <> 12 /\ byte c < 32) by (destruct o; try contradiction; inversion B; repeat split; lia).
    destruct R as [R1 [R2 R3]]. rewrite (proj2 (Z.eqb_neq _ _) R1), (proj2 (Z.eqb_neq _ _) R2), (proj2 (Z.ltb_lt _ _) R3). reflexivity.
  - cbn [app] in E. destruct cs as [|c [|c2 cs]]; try discriminate. cbn [map] in E. inversion E as [[E1 E2 E3]]. subst. exists cs. split; [reflexivity|].
    unfold op_model. rewrite B. cbn [cs_loop]. fold (cs_loop w table call).
    assert (R : byte c = 12) by (destruct o; try contradiction; inversion B; reflexivity). rewrite R. reflexivity.
Qed.
Lemma return_ok w s : op_model w Return s = Ok s.
Proof. reflexivity. Qed.
Lemma endchar_ok w s : op_model w Endchar s = Ok s.
Proof. reflexivity. Qed.

Lemma charstring_inv_number z ts bs : charstring (Number z :: ts) bs -> exists b rest, bs = b ++ rest /\ number_bytes z b /\ charstring ts rest.
Proof. intro H. inversion H; subst. eexists. eexists. split; [reflexivity|]. split; assumption. Qed.
Lemma charstring_inv_op o ts bs : charstring (Op o :: ts) bs -> exists rest, bs = op_bytes o ++ rest /\ charstring ts rest.
Proof. intro H. inversion H; subst. eexists. split; [reflexivity|assumption]. Qed.

(** The table of decrypted subroutines contains the subroutines. *)
Definition has_subrs (table : list (Z * str)) (subrs : Z -> option (list token)) : Prop :=
  forall i body, subrs i = Some body -> exists s, subr_of i table = Some s /\ charstring body (bytes_of s).

Lemma exec_sim w table subrs : has_subrs table subrs -> forall ts m m', exec subrs ts m m' ->
  forall cs s, charstring ts (bytes_of cs) -> rel s m ->
  exists n s', (forall fuel, (n <= fuel)%nat -> parseCharString w table fuel cs s = Some (Ok s')) /\ rel s' m' /\ (good s m -> good s' m').
Proof.
  intros HS ts m m' X. induction X; intros cs s C R.
  - inversion C as [E | |]. destruct cs; [|discriminate]. exists 1%nat, s. split; [|tauto].
    intros [|fuel] L; [lia|]. reflexivity.
  - apply charstring_inv_number in C. destruct C as [b [rest [EC [NB CR]]]].
    assert (R' : rel (push z s) (mkM (z :: m_stack m) (m_ps m) (m_at m) (m_seen m) (m_drawn m))).
    { destruct R as [RA [RP RX]]. repeat split; cbn; congruence. }
    destruct (loop_number w table (fun _ _ => None) z b rest cs s NB EC) as [cs' [EC' _]].
    rewrite <- EC' in CR. destruct (IHX cs' (push z s) CR R') as [n [s' [P [R1 G1]]]].
    exists (S n), s'. split; [|split; [exact R1|]].
    + intros [|fuel] L; [lia|]. cbn [parseCharString].
      destruct (loop_number w table (parseCharString w table fuel) z b rest cs s NB EC) as [cs2 [EC2 EQ]]. rewrite EQ.
      assert (cs2 = cs').
      { unfold bytes_of in *. rewrite <- EC' in EC2. clear - EC2. revert cs' EC2. induction cs2 as [|a l IH]; intros [|a' l'] E; try discriminate; [reflexivity|].
        cbn in E. inversion E as [[E1 E2]]. apply byte_inj in E1. subst. f_equal. apply IH, E2. }
      subst cs2. specialize (P (S fuel) ltac:(lia)). exact P.
    + intro G. apply G1. destruct G as [T [I F]]. split; [exact T|]. split; assumption.
  - apply charstring_inv_op in C. destruct C as [rest [EC CR]].
    destruct (op_sim w o m m1 s H H0 H1 R H2 H3) as [s1 [E1 [R1 G1]]].
    destruct (loop_op w table (fun _ _ => None) o rest cs s H EC) as [cs' [EC' _]].
    rewrite <- EC' in CR. destruct (IHX cs' s1 CR R1) as [n [s' [P [R2 G2]]]].
    exists (S n), s'. split; [|split; [exact R2|tauto]].
    intros [|fuel] L; [lia|]. cbn [parseCharString].
    destruct (loop_op w table (parseCharString w table fuel) o rest cs s H EC) as [cs2 [EC2 EQ]]. rewrite EQ, E1. cbn [rbind].
    assert (cs2 = cs').
    { unfold bytes_of in *. rewrite <- EC' in EC2. clear - EC2. revert cs' EC2. induction cs2 as [|a l IH]; intros [|a' l'] E; try discriminate; [reflexivity|].
      cbn in E. inversion E as [[E1 E2]]. apply byte_inj in E1. subst. f_equal. apply IH, E2. }
    subst cs2. exact (P (S fuel) ltac:(lia)).
  - apply charstring_inv_op in C. destruct C as [rest [EC CR]]. cbn [op_bytes app] in EC.
    destruct cs as [|c cs]; [discriminate|]. unfold bytes_of in EC. cbn [map] in EC. inversion EC as [[E1 E2]].
    destruct (HS _ _ H0) as [sub [Hsub Csub]]. destruct R as [RA [RP RX]].
    assert (R' : rel (with_args st s) (mkM st (m_ps m) (m_at m) (m_seen m) (m_drawn m))) by (repeat split; assumption).
    destruct (IHX1 sub (with_args st s) Csub R') as [n1 [s1 [P1 [R1 G1]]]].
    rewrite <- E2 in CR. destruct (IHX2 cs s1 CR R1) as [n2 [s2 [P2 [R2 G2]]]].
    exists (S (Nat.max n1 n2)), s2. split; [|split; [exact R2|]].
    + intros [|fuel] L; [lia|]. cbn [parseCharString cs_loop]. fold (cs_loop w table (parseCharString w table fuel)).
      rewrite E1. cbn [Z.eqb Pos.eqb]. rewrite RA, H, Hsub, (P1 fuel) by lia. cbn [rbind]. exact (P2 (S fuel) ltac:(lia)).
    + intro G. apply G2, G1. destruct G as [T [I F]]. split; [exact T|]. split; assumption.
  - apply charstring_inv_op in C. destruct C as [rest [EC CR]]. inversion CR; subst rest. rewrite app_nil_r in EC.
    destruct cs as [|c [|? ?]]; try discriminate. unfold bytes_of in EC. cbn in EC. inversion EC as [E1].
    exists 1%nat, s. split; [|tauto]. intros [|fuel] L; [lia|]. cbn [parseCharString cs_loop]. rewrite E1. reflexivity.
  - apply charstring_inv_op in C. destruct C as [rest [EC CR]]. inversion CR; subst rest. rewrite app_nil_r in EC.
    destruct cs as [|c [|? ?]]; try discriminate. unfold bytes_of in EC. cbn in EC. inversion EC as [E1].
    exists 1%nat, s. split; [|tauto]. intros [|fuel] L; [lia|]. cbn [parseCharString cs_loop]. rewrite E1. reflexivity.
Qed.

(** ** From the beginning of a glyph program *)
Lemma bytes_inj : forall a b, bytes_of a = bytes_of b -> a = b.
Proof.
  induction a as [|x a IH]; intros [|y b] E; try discriminate; [reflexivity|]. cbn in E. inversion E as [[E1 E2]].
  apply byte_inj in E1. subst. f_equal. apply IH, E2.
Qed.
Lemma step_number w table z ts cs s : charstring (Number z :: ts) (bytes_of cs) ->
  exists cs', charstring ts (bytes_of cs') /\ forall fuel, parseCharString w table (S fuel) cs s = parseCharString w table (S fuel) cs' (push z s).
Proof.
  intro C. apply charstring_inv_number in C. destruct C as [b [rest [EC [NB CR]]]].
  destruct (loop_number w table (fun _ _ => None) z b rest cs s NB EC) as [cs' [EC' _]].
  exists cs'. split; [rewrite EC'; exact CR|]. intro fuel. cbn [parseCharString].
  destruct (loop_number w table (parseCharString w table fuel) z b rest cs s NB EC) as [cs2 [EC2 EQ]]. rewrite EQ.
  assert (cs2 = cs') by (apply bytes_inj; congruence). subst. reflexivity.
Qed.
Lemma step_op w table o ts cs s : o <> Callsubr -> charstring (Op o :: ts) (bytes_of cs) ->
  exists cs', charstring ts (bytes_of cs') /\
    forall fuel, parseCharString w table (S fuel) cs s = rbind (Some (op_model w o s)) (parseCharString w table (S fuel) cs').
Proof.
  intros N C. apply charstring_inv_op in C. destruct C as [rest [EC CR]].
  destruct (loop_op w table (fun _ _ => None) o rest cs s N EC) as [cs' [EC' _]].
  exists cs'. split; [rewrite EC'; exact CR|]. intro fuel. cbn [parseCharString].
  destruct (loop_op w table (parseCharString w table fuel) o rest cs s N EC) as [cs2 [EC2 EQ]]. rewrite EQ.
  assert (cs2 = cs') by (apply bytes_inj; congruence). subst. reflexivity.
Qed.

Lemma sidebearing_good w o m m1 s s1 : o = Hsbw \/ o = Sbw -> rel s m -> cs_box s = cs_box cs_start -> m_seen m = [] -> m_drawn m = [] ->
  apply_op o m = Some m1 -> in_range m1 -> op_model w o s = Ok s1 -> good s1 m1.
Proof.
  intros O [RA [RP RX]] B SE DR E R M. destruct R as [_ R].
  destruct m as [st ps at_ seen drawn]. cbn in SE, DR, RA, RP, RX. subst seen drawn ps.
  destruct O as [-> | ->]; cbn [apply_op m_stack] in E; unfold op_model in M; cbn [op_bytes command escape Z.eqb Pos.eqb orb] in M; rewrite RA in M.
  - destruct st as [|wx [|sbx st]]; try discriminate. inversion E; subst m1; clear E. inversion M; subst s1; clear M.
    unfold go in *. cbn [m_seen] in R. apply Forall_inv in R. destruct R as [R1 R2]. cbn [fst snd] in R1, R2.
    split; [|split].
    + unfold move_to. cbn [cs_box m_seen]. rewrite B. apply tight_start; assumption.
    + left. reflexivity.
    + constructor.
  - destruct st as [|wy [|wx [|sby [|sbx st]]]]; try discriminate. inversion E; subst m1; clear E. inversion M; subst s1; clear M.
    unfold go in *. cbn [m_seen] in R. apply Forall_inv in R. destruct R as [R1 R2]. cbn [fst snd] in R1, R2.
    split; [|split].
    + unfold move_to. cbn [cs_box m_seen]. rewrite B. apply tight_start; assumption.
    + left. reflexivity.
    + constructor.
Qed.

Lemma glyph_good w table subrs o rest m' : has_subrs table subrs -> o = Hsbw \/ o = Sbw -> forall pre m s cs,
  (forall t, In t pre -> t = Op Div \/ exists z, t = Number z) -> exec subrs (pre ++ Op o :: rest) m m' ->
  charstring (pre ++ Op o :: rest) (bytes_of cs) -> rel s m -> cs_box s = cs_box cs_start -> m_seen m = [] -> m_drawn m = [] ->
  exists n s', (forall fuel, (n <= fuel)%nat -> parseCharString w table fuel cs s = Some (Ok s')) /\ rel s' m' /\ good s' m'.
Proof.
  intros HS O. induction pre as [|t pre IH]; intros m s cs SP X C R B SE DR.
  - cbn [app] in *. inversion X as [| |? ? ? m1 ? NC NR NE A RG X1| | |]; subst; try (destruct O; discriminate).
    destruct (op_sim w o m m1 s NC NR NE R A RG) as [s1 [E1 [R1 _]]].
    pose proof (sidebearing_good w o m m1 s s1 O R B SE DR A RG E1) as G1.
    destruct (step_op w table o rest cs s NC C) as [cs' [C' ST]].
    destruct (exec_sim w table subrs HS _ _ _ X1 cs' s1 C' R1) as [n [s' [P [R2 G2]]]].
    exists (S n), s'. split; [|split; [exact R2|apply G2, G1]].
    intros [|fuel] L; [lia|]. rewrite ST, E1. cbn [rbind]. apply P. lia.
  - cbn [app] in *. destruct (SP t (or_introl eq_refl)) as [-> | [z ->]].
    + inversion X as [| |? ? ? m1 ? NC NR NE A RG X1| | |]; subst.
      destruct (op_sim w Div m m1 s NC NR NE R A RG) as [s1 [E1 [R1 _]]].
      destruct (step_op w table Div _ cs s NC C) as [cs' [C' ST]].
      assert (K : cs_box s1 = cs_box cs_start /\ m_seen m1 = [] /\ m_drawn m1 = []).
      { cbn [apply_op] in A. destruct (m_stack m) as [|b0 [|a0 st]] eqn:ST'; try discriminate.
        destruct (b0 =? 0) eqn:Z0; [discriminate|]. inversion A; subst m1. cbn [m_seen m_drawn]. split; [|split; assumption].
        unfold op_model in E1. cbn [op_bytes escape Z.eqb Pos.eqb orb] in E1. destruct R as [RA _]. rewrite RA, ST', Z0 in E1.
        destruct (in_int _); [|discriminate]. inversion E1. exact B. }
      destruct K as [K1 [K2 K3]].
      destruct (IH m1 s1 cs' ltac:(intros; apply SP; now right) X1 C' R1 K1 K2 K3) as [n [s' [P Q]]].
      exists (S n), s'. split; [|exact Q]. intros [|fuel] L; [lia|]. rewrite ST, E1. cbn [rbind]. apply P. lia.
    + inversion X as [|? ? ? ? X1| | | |]; subst.
      destruct (step_number w table z _ cs s C) as [cs' [C' ST]].
      assert (R' : rel (push z s) (mkM (z :: m_stack m) (m_ps m) (m_at m) (m_seen m) (m_drawn m))).
      { destruct R as [RA [RP RX]]. repeat split; cbn; congruence. }
      destruct (IH _ (push z s) cs' ltac:(intros; apply SP; now right) X1 C' R' B SE DR) as [n [s' [P Q]]].
      exists (S n), s'. split; [|exact Q]. intros [|fuel] L; [lia|]. rewrite ST. apply P. lia.
Qed.

(** ** The outline lies in the box *)
Lemma line_between lo hi p q t : (lo <= p <= hi)%R -> (lo <= q <= hi)%R -> (0 <= t <= 1)%R -> (lo <= on_line p q t <= hi)%R.
Proof. unfold on_line. intros. split; nra. Qed.
Lemma curve_between lo hi p a b q t : (lo <= p <= hi)%R -> (lo <= a <= hi)%R -> (lo <= b <= hi)%R -> (lo <= q <= hi)%R -> (0 <= t <= 1)%R ->
  (lo <= on_curve p a b q t <= hi)%R.
Proof.
  intros P A B Q T. unfold on_curve.
  assert (W0 : (0 <= (1 - t) * (1 - t) * (1 - t))%R) by (repeat apply Rmult_le_pos; lra).
  assert (W1 : (0 <= 3 * t * (1 - t) * (1 - t))%R) by (repeat apply Rmult_le_pos; lra).
  assert (W2 : (0 <= 3 * t * t * (1 - t))%R) by (repeat apply Rmult_le_pos; lra).
  assert (W3 : (0 <= t * t * t)%R) by (repeat apply Rmult_le_pos; lra).
  assert (W : ((1 - t) * (1 - t) * (1 - t) + 3 * t * (1 - t) * (1 - t) + 3 * t * t * (1 - t) + t * t * t = 1)%R) by ring.
  set (w0 := ((1 - t) * (1 - t) * (1 - t))%R) in *. set (w1 := (3 * t * (1 - t) * (1 - t))%R) in *.
  set (w2 := (3 * t * t * (1 - t))%R) in *. set (w3 := (t * t * t)%R) in *.
  assert (D : forall v, (lo <= v <= hi)%R -> forall k, (0 <= k)%R -> (k * lo <= k * v <= k * hi)%R) by (intros; split; apply Rmult_le_compat_l; lra).
  pose proof (D p P w0 W0). pose proof (D a A w1 W1). pose proof (D b B w2 W2). pose proof (D q Q w3 W3).
  assert (L : (w0 * lo + w1 * lo + w2 * lo + w3 * lo = lo)%R) by (rewrite <- !Rmult_plus_distr_r, W; ring).
  assert (U : (w0 * hi + w1 * hi + w2 * hi + w3 * hi = hi)%R) by (rewrite <- !Rmult_plus_distr_r, W; ring).
  lra.
Qed.
Lemma good_contains s m c t : good s m -> In c (m_drawn m) -> (0 <= t <= 1)%R -> box_contains (cs_box s) (piece_x c t) (piece_y c t).
Proof.
  intros [T [_ F]] I Ht. rewrite Forall_forall in F. specialize (F c I).
  destruct (cs_box s) as [[[l u] r] d]. cbn [tight_box] in T. destruct T as [C _].
  assert (K : forall p, In p (m_seen m) -> (IZR l <= IZR (fst p) <= IZR r)%R /\ (IZR u <= IZR (snd p) <= IZR d)%R).
  { intros [x y] Hp. destruct (C _ _ Hp) as [[? ?] [? ?]]. cbn [fst snd]. repeat split; apply IZR_le; assumption. }
  cbn [box_contains]. destruct c as [p q|p a b q]; cbn [piece_seen piece_x piece_y] in *.
  - destruct F as [Fp Fq]. destruct (K _ Fp), (K _ Fq). split; apply line_between; assumption.
  - destruct F as [Fp [Fa [Fb Fq]]]. destruct (K _ Fp), (K _ Fa), (K _ Fb), (K _ Fq). split; apply curve_between; assumption.
Qed.

(** ** Arbitrary bytes *)
Definition no_byte (bs : list Z) (s : str) : Prop := forall c, In c s -> ~ In (byte c) bs.
Lemma command_ok op s : exists s', command true op s = Ok s'.
Proof.
  assert (I : forall z, exists v, int_op true z = Ok v) by (intro z; destruct (int_op_wrap z) as [v [E _]]; now exists v).
  unfold command.
  repeat match goal with
  | |- exists s', (if ?b then _ else _) = Ok s' => destruct b
  | |- exists s', (match ?l with _ => _ end) = Ok s' => destruct l
  | |- exists s', obind (int_op true ?z) _ = Ok s' => let v := fresh "v" in let E := fresh "E" in destruct (I z) as [v E]; rewrite E; cbn [obind]
  | |- exists s', Ok ?x = Ok s' => exists x; reflexivity
  end.
Qed.
Lemma loop_safe table call : (forall i sub s, subr_of i table = Some sub -> exists s', call sub s = Some (Ok s')) ->
  forall n cs s, (length cs <= n)%nat -> no_byte [12; 255] cs -> exists s', cs_loop true table call cs s = Some (Ok s').
Proof.
  intro C. induction n as [|n IH]; intros cs s L N.
  - destruct cs; [|cbn in L; lia]. exists s. reflexivity.
  - destruct cs as [|c r]; [exists s; reflexivity|]. cbn [length] in L. cbn [cs_loop]. fold (cs_loop true table call).
    assert (NR : no_byte [12; 255] r) by (intros x I; apply N; now right).
    assert (IHr : forall s, exists s', cs_loop true table call r s = Some (Ok s')) by (intro; apply IH; [lia|exact NR]).
    pose proof (N c (or_introl eq_refl)) as NC. cbn in NC. pose proof (byte_range c) as BR.
    destruct (byte c =? 10).
    { destruct (cs_args s) as [|i a]; [apply IHr|]. destruct (subr_of i table) as [sub|] eqn:E; [|apply IHr].
      destruct (C i sub (with_args a s) E) as [s1 ->]. cbn [rbind]. apply IHr. }
    rewrite (proj2 (Z.eqb_neq (byte c) 12)) by (intro; apply NC; left; congruence).
    destruct (byte c <? 32). { destruct (command_ok (byte c) s) as [s1 ->]. cbn [rbind]. apply IHr. }
    destruct (byte c <=? 246); [apply IHr|].
    destruct (byte c <=? 250). { destruct r as [|c1 r1]; [eexists; reflexivity|]. cbn [length] in L. apply IH; [lia|]. intros x I; apply NR; now right. }
    destruct (Z.leb_spec (byte c) 254) as [|G]. { destruct r as [|c1 r1]; [eexists; reflexivity|]. cbn [length] in L. apply IH; [lia|]. intros x I; apply NR; now right. }
    exfalso. apply NC. right. left. lia.
Qed.
Lemma subr_of_in i m s : subr_of i m = Some s -> In (i, s) m.
Proof.
  induction m as [|[j t] m IH]; [discriminate|]. cbn [subr_of]. destruct (Z.eqb_spec i j) as [->|].
  - intro E. inversion E. now left.
  - intro E. right. apply IH, E.
Qed.
Lemma rbind_some {A B} (m : run A) (k : A -> run B) : m <> None -> (forall a, k a <> None) -> rbind m k <> None.
Proof. intros M K. destruct m as [[a|x|x]|]; cbn; [apply K|discriminate|discriminate|contradiction]. Qed.
Lemma loop_ends w table call : (forall i sub s, subr_of i table = Some sub -> call sub s <> None) ->
  forall n cs s, (length cs <= n)%nat -> cs_loop w table call cs s <> None.
Proof.
  intro C. induction n as [|n IH]; intros cs s L.
  - destruct cs; [|cbn in L; lia]. discriminate.
  - destruct cs as [|c r]; [discriminate|]. cbn [length] in L. cbn [cs_loop]. fold (cs_loop w table call).
    assert (IHr : forall s, cs_loop w table call r s <> None) by (intro; apply IH; lia).
    destruct (byte c =? 10).
    { destruct (cs_args s) as [|i a]; [apply IHr|]. destruct (subr_of i table) as [sub|] eqn:E; [|apply IHr].
      apply rbind_some; [exact (C i sub _ E)|exact IHr]. }
    destruct (byte c =? 12). { destruct r as [|c2 r2]; [discriminate|]. cbn [length] in L. apply rbind_some; [discriminate|]. intro; apply IH; lia. }
    destruct (byte c <? 32). { apply rbind_some; [discriminate|exact IHr]. }
    destruct (byte c <=? 246); [apply IHr|].
    destruct (byte c <=? 250). { destruct r as [|c1 r1]; [discriminate|]. cbn [length] in L. apply IH; lia. }
    destruct (byte c <=? 254). { destruct r as [|c1 r1]; [discriminate|]. cbn [length] in L. apply IH; lia. }
    destruct r as [|c1 [|c2 [|c3 [|c4 r4]]]]; try discriminate. cbn [length] in L. apply IH; lia.
Qed.
(** A byte string without "callsubr" doesn't call. *)
Lemma loop_no_call w table : forall n cs s call, (length cs <= n)%nat -> no_byte [10] cs -> cs_loop w table call cs s <> None.
Proof.
  induction n as [|n IH]; intros cs s call L N.
  - destruct cs; [|cbn in L; lia]. discriminate.
  - destruct cs as [|c r]; [discriminate|]. cbn [length] in L. cbn [cs_loop]. fold (cs_loop w table call).
    assert (NR : no_byte [10] r) by (intros x I; apply N; now right).
    assert (IHr : forall s, cs_loop w table call r s <> None) by (intro; apply IH; [lia|exact NR]).
    rewrite (proj2 (Z.eqb_neq (byte c) 10)) by (intro; apply (N c (or_introl eq_refl)); left; congruence).
    destruct (byte c =? 12).
    { destruct r as [|c2 r2]; [discriminate|]. cbn [length] in L. apply rbind_some; [discriminate|]. intro; apply IH; [lia|]. intros x I; apply NR; now right. }
    destruct (byte c <? 32). { apply rbind_some; [discriminate|exact IHr]. }
    destruct (byte c <=? 246); [apply IHr|].
    destruct (byte c <=? 250). { destruct r as [|c1 r1]; [discriminate|]. cbn [length] in L. apply IH; [lia|]. intros x I; apply NR; now right. }
    destruct (byte c <=? 254). { destruct r as [|c1 r1]; [discriminate|]. cbn [length] in L. apply IH; [lia|]. intros x I; apply NR; now right. }
    destruct r as [|c1 [|c2 [|c3 [|c4 r4]]]]; try discriminate. cbn [length] in L. apply IH; [lia|]. intros x I; apply NR. do 4 right. exact I.
Qed.
Lemma flat_subrs_end w table : (forall i sub, In (i, sub) table -> no_byte [10] sub) -> forall fuel cs s, (2 <= fuel)%nat ->
  parseCharString w table fuel cs s <> None.
Proof.
  intros F [|[|fuel]] cs s L; try lia. cbn [parseCharString]. eapply loop_ends; [|reflexivity].
  intros i sub s1 E. apply subr_of_in in E. cbn [parseCharString]. eapply loop_no_call; [reflexivity|]. exact (F i sub E).
Qed.
Lemma flat_subrs_safe table : (forall i sub, In (i, sub) table -> no_byte [10; 12; 255] sub) -> forall fuel cs s, (2 <= fuel)%nat ->
  no_byte [12; 255] cs -> exists s', parseCharString true table fuel cs s = Some (Ok s').
Proof.
  intros F [|[|fuel]] cs s L N; try lia. cbn [parseCharString]. eapply loop_safe; [|reflexivity|exact N].
  intros i sub s1 E. apply subr_of_in in E. cbn [parseCharString].
  assert (NB : no_byte [10; 12; 255] sub) by exact (F i sub E).
  assert (G : forall n cs s, (length cs <= n)%nat -> no_byte [10; 12; 255] cs -> exists s', cs_loop true table (parseCharString true table fuel) cs s = Some (Ok s')).
  { clear. induction n as [|n IH]; intros cs s L N.
    - destruct cs; [|cbn in L; lia]. exists s. reflexivity.
    - destruct cs as [|c r]; [exists s; reflexivity|]. cbn [length] in L. cbn [cs_loop]. fold (cs_loop true table (parseCharString true table fuel)).
      assert (NR : no_byte [10; 12; 255] r) by (intros x I; apply N; now right).
      assert (IHr : forall s, exists s', cs_loop true table (parseCharString true table fuel) r s = Some (Ok s')) by (intro; apply IH; [lia|exact NR]).
      pose proof (N c (or_introl eq_refl)) as NC. cbn in NC. pose proof (byte_range c) as BR.
      rewrite (proj2 (Z.eqb_neq (byte c) 10)) by (intro; apply NC; left; congruence).
      rewrite (proj2 (Z.eqb_neq (byte c) 12)) by (intro; apply NC; right; left; congruence).
      destruct (byte c <? 32). { destruct (command_ok (byte c) s) as [s1 ->]. cbn [rbind]. apply IHr. }
      destruct (byte c <=? 246); [apply IHr|].
      destruct (byte c <=? 250). { destruct r as [|c1 r1]; [eexists; reflexivity|]. cbn [length] in L. apply IH; [lia|]. intros x I; apply NR; now right. }
      destruct (Z.leb_spec (byte c) 254) as [|G]. { destruct r as [|c1 r1]; [eexists; reflexivity|]. cbn [length] in L. apply IH; [lia|]. intros x I; apply NR; now right. }
      exfalso. apply NC. right. right. left. lia. }
  eapply G; [reflexivity|exact NB].
Qed.

(** More depth doesn't change a result. *)
Lemma rbind_mono {A B} (m m' : run A) (k k' : A -> run B) r : (forall x, m = Some x -> m' = Some x) ->
  (forall a x, k a = Some x -> k' a = Some x) -> rbind m k = Some r -> rbind m' k' = Some r.
Proof. intros M K H. destruct m as [x|]; [|discriminate]. rewrite (M x eq_refl). destruct x as [a|e|e]; cbn in *; [now apply K|exact H|exact H]. Qed.
Lemma loop_mono w table (call call' : str -> cs_state -> run cs_state) : (forall cs s r, call cs s = Some r -> call' cs s = Some r) ->
  forall n cs s r, (length cs <= n)%nat -> cs_loop w table call cs s = Some r -> cs_loop w table call' cs s = Some r.
Proof.
  intro C. induction n as [|n IH]; intros cs s res L.
  - destruct cs; [|cbn in L; lia]. exact (fun H => H).
  - destruct cs as [|c r]; [exact (fun H => H)|]. cbn [length] in L. cbn [cs_loop]. fold (cs_loop w table call). fold (cs_loop w table call').
    assert (IHr : forall s res, cs_loop w table call r s = Some res -> cs_loop w table call' r s = Some res) by (intros ? ?; apply IH; lia).
    destruct (byte c =? 10).
    { destruct (cs_args s) as [|i a]; [apply IHr|]. destruct (subr_of i table) as [sub|] eqn:E; [|apply IHr].
      apply rbind_mono; [apply C|exact IHr]. }
    destruct (byte c =? 12). { destruct r as [|c2 r2]; [exact (fun H => H)|]. cbn [length] in L. apply rbind_mono; [tauto|]. intros ? ?; apply IH; lia. }
    destruct (byte c <? 32). { apply rbind_mono; [tauto|exact IHr]. }
    destruct (byte c <=? 246); [apply IHr|].
    destruct (byte c <=? 250). { destruct r as [|c1 r1]; [exact (fun H => H)|]. cbn [length] in L. apply IH; lia. }
    destruct (byte c <=? 254). { destruct r as [|c1 r1]; [exact (fun H => H)|]. cbn [length] in L. apply IH; lia. }
    destruct r as [|c1 [|c2 [|c3 [|c4 r4]]]]; try exact (fun H => H). cbn [length] in L. apply IH; lia.
Qed.
Lemma fuel_mono w table : forall n m cs s r, (n <= m)%nat -> parseCharString w table n cs s = Some r -> parseCharString w table m cs s = Some r.
Proof.
  induction n as [|n IH]; intros [|m] cs s r L H; try discriminate; [lia|]. cbn [parseCharString] in *.
  eapply loop_mono; [|reflexivity|exact H]. intros cs1 s1 r1. apply IH. lia.
Qed.

(** What can go wrong: the operations with an escape byte, numbers of five bytes, overflow; nothing is ever thrown. *)
Definition cs_error (w : bool) (x : string) : Prop :=
  In x ["division by zero"; "INT_MIN / -1"; "back() of an empty vector"; "pop_back() of an empty vector"; "read behind the end of a string"]%string \/
  (w = false /\ x = "signed integer overflow"%string).
Definition cs_fine {A} (w : bool) (r : outcome A) : Prop := match r with Ok _ => True | UB x => cs_error w x | Throw _ => False end.
Lemma obind_fine {A B} w (m : outcome A) (k : A -> outcome B) : cs_fine w m -> (forall a, cs_fine w (k a)) -> cs_fine w (obind m k).
Proof. intros M K. destruct m; cbn in *; [apply K|exact M|exact M]. Qed.
Lemma int_op_fine w z : cs_fine w (int_op w z).
Proof. unfold int_op. destruct (in_int z); [exact I|]. destruct w; [exact I|]. right. now split. Qed.
Lemma transfer_fine w : forall n a ps, cs_fine w (transfer n a ps).
Proof. induction n as [|n IH]; intros a ps; [exact I|]. cbn [transfer]. destruct a; [left; cbn; tauto|apply IH]. Qed.
Lemma transfer_args_fine w n a ps : cs_fine w (transfer_args n a ps).
Proof. unfold transfer_args. destruct (n <=? _); [apply transfer_fine|]. left. cbn. tauto. Qed.
Ltac fine :=
  repeat match goal with
  | |- cs_fine _ (if ?b then _ else _) => destruct b
  | |- cs_fine _ (match ?l with _ => _ end) => destruct l
  | |- cs_fine _ (obind (int_op _ _) _) => apply obind_fine; [apply int_op_fine|intro]
  | |- cs_fine _ (obind (transfer_args _ _ _) _) => apply obind_fine; [apply transfer_args_fine|intro]
  | |- cs_fine _ (Ok _) => exact I
  | |- cs_fine _ (UB _) => left; cbn; tauto
  end.
Lemma command_fine w op s : cs_fine w (command w op s).
Proof. unfold command. fine. Qed.
Lemma escape_fine w op s : cs_fine w (escape w op s).
Proof. unfold escape. fine. Qed.
Definition run_fine {A} (w : bool) (r : run A) : Prop := match r with Some o => cs_fine w o | None => True end.
Lemma rbind_fine {A B} w (m : run A) (k : A -> run B) : run_fine w m -> (forall a, run_fine w (k a)) -> run_fine w (rbind m k).
Proof. intros M K. destruct m as [[a|x|x]|]; cbn in *; [apply K|exact M|exact M|exact I]. Qed.
Lemma loop_fine w table call : (forall cs s, run_fine w (call cs s)) -> forall n cs s, (length cs <= n)%nat -> run_fine w (cs_loop w table call cs s).
Proof.
  intro C. induction n as [|n IH]; intros cs s L.
  - destruct cs; [exact I|cbn in L; lia].
  - destruct cs as [|c r]; [exact I|]. cbn [length] in L. cbn [cs_loop]. fold (cs_loop w table call).
    assert (IHr : forall s, run_fine w (cs_loop w table call r s)) by (intro; apply IH; lia).
    destruct (byte c =? 10).
    { destruct (cs_args s) as [|i a]; [apply IHr|]. destruct (subr_of i table) as [sub|] eqn:E; [|apply IHr]. apply rbind_fine; [apply C|exact IHr]. }
    destruct (byte c =? 12).
    { destruct r as [|c2 r2]; [apply escape_fine|]. cbn [length] in L. apply rbind_fine; [apply escape_fine|]. intro; apply IH; lia. }
    destruct (byte c <? 32). { apply rbind_fine; [apply command_fine|exact IHr]. }
    destruct (byte c <=? 246); [apply IHr|].
    destruct (byte c <=? 250). { destruct r as [|c1 r1]; [exact I|]. cbn [length] in L. apply IH; lia. }
    destruct (byte c <=? 254). { destruct r as [|c1 r1]; [exact I|]. cbn [length] in L. apply IH; lia. }
    destruct r as [|c1 [|c2 [|c3 [|c4 r4]]]]; try (left; cbn; tauto); [exact I|]. cbn [length] in L. apply IH; lia.
Qed.
Lemma parse_fine w table : forall fuel cs s, run_fine w (parseCharString w table fuel cs s).
Proof. induction fuel as [|fuel IH]; intros cs s; [exact I|]. cbn [parseCharString]. eapply loop_fine; [exact IH|reflexivity]. Qed.
