(** BlocksPasses.v - proofs about the two passes of the detection of text blocks. *)
From Coq Require Import ZArith NArith.
From Verif Require Import Base Double MathUtils Elements Counter UtilsSpec TextUtils Document LinesSpec Blocks BlocksSpec BlocksProofs.
Local Open Scope nat_scope.
Local Opaque TOL dZ dadd dsub ddiv dmul dec DBL_MAX DBL_MIN.

Definition is_nil {A} (l : list A) : bool := match l with [] => true | _ :: _ => false end.

(** ** Splitting a list of lines *)
Section Split.
  Context (dc : list nat -> list nat -> nat -> outcome bool).
  (** [done]: the lines in closed blocks, [cur]: those of the current block; [dc done before l]: does [l] start a block? *)
  Inductive splits : list nat -> list nat -> list nat -> list (list nat) -> Prop :=
  | sp_nil dn : splits dn [] [] []
  | sp_end dn cur : cur <> [] -> splits dn cur [] [cur]
  | sp_cut dn cur l t gs : cur <> [] -> dc dn (dn ++ cur) l = Ok true -> splits (dn ++ cur) [l] t gs -> splits dn cur (l :: t) (cur :: gs)
  | sp_join dn cur l t gs : (cur = [] \/ dc dn (dn ++ cur) l = Ok false) -> splits dn (cur ++ [l]) t gs -> splits dn cur (l :: t) gs.

  Lemma splits_spec dn cur ls gs : splits dn cur ls gs ->
    concat gs = cur ++ ls /\ Forall (fun g => g <> []) gs /\ (cur <> [] -> exists z rest, gs = (cur ++ z) :: rest) /\
    forall g1 x a y g2 b v, gs = g1 ++ (x ++ a :: y) :: g2 -> concat gs = concat g1 ++ x ++ a :: b :: v ->
      length cur < length (concat g1 ++ x ++ [a; b]) -> dc (dn ++ concat g1) (dn ++ concat g1 ++ x ++ [a]) b = Ok (is_nil y).
  Proof.
    induction 1 as [dn|dn cur NE|dn cur l t gs NE D SP (I1 & I2 & I3 & I4)|dn cur l t gs D SP (I1 & I2 & I3 & I4)].
    - split; [reflexivity|]. split; [constructor|]. split; [congruence|]. intros [|? ?] x a y g2 b v E; discriminate.
    - cbn [concat]. rewrite !app_nil_r. split; [reflexivity|]. split; [constructor; [exact NE|constructor]|].
      split; [intros _; exists [], []; rewrite app_nil_r; reflexivity|].
      intros g1 x a y g2 b v E1 E2 L. exfalso. rewrite E2, !app_length in L. cbn [length] in L. lia.
    - cbn [concat]. rewrite I1. split; [reflexivity|]. split; [constructor; assumption|].
      split; [intros _; exists [], gs; rewrite app_nil_r; reflexivity|].
      intros g1 x a y g2 b v E1 E2 L. destruct g1 as [|g g1].
      + cbn [concat app] in *. injection E1 as E1 ->. rewrite E1 in E2, L. rewrite <- app_assoc in E2. apply app_inv_head in E2. cbn [app] in E2.
        injection E2 as E2. destruct y as [|c y].
        * cbn [is_nil app] in *. injection E2 as <- _. rewrite app_nil_r, <- E1. exact D.
        * exfalso. rewrite !app_length in L. cbn [length] in L. lia.
      + cbn [app] in E1. injection E1 as <- ->. cbn [concat] in E2, L |- *. rewrite <- app_assoc in E2. apply app_inv_head in E2.
        rewrite !app_assoc. rewrite <- (app_assoc (dn ++ cur)), <- (app_assoc (dn ++ cur)).
        rewrite <- (app_assoc (concat g1)). apply (I4 g1 x a y g2 b v); [reflexivity| |].
        * cbn [app] in I1. rewrite I1. exact E2.
        * rewrite !app_length. cbn [length]. lia.
    - rewrite <- app_assoc in I1. cbn [app] in I1. split; [exact I1|]. split; [exact I2|].
      destruct (I3 ltac:(destruct cur; discriminate)) as (z & rest & EZ). split.
      { intros _. exists (l :: z), rest. rewrite EZ, <- app_assoc. reflexivity. }
      intros g1 x a y g2 b v E1 E2 L.
      destruct (Nat.eq_dec (length (concat g1 ++ x ++ [a; b])) (S (length cur))) as [EQ|NEQ].
      2:{ apply (I4 g1 x a y g2 b v E1 E2). rewrite app_length. cbn [length]. lia. }
      assert (EC : cur = concat g1 ++ x ++ [a] /\ b = l).
      { rewrite I1 in E2. rewrite !app_length in EQ. cbn [length] in EQ.
        replace (concat g1 ++ x ++ a :: b :: v) with ((concat g1 ++ x ++ [a]) ++ b :: v) in E2 by (rewrite <- !app_assoc; reflexivity).
        assert (LE : length cur = length (concat g1 ++ x ++ [a])) by (rewrite !app_length; cbn [length]; lia).
        clear -E2 LE. revert E2 LE. generalize (concat g1 ++ x ++ [a]) as p. induction cur as [|c cs IH]; intros [|d p] E LE; try discriminate.
        - injection E as <- _. split; reflexivity.
        - injection E as <- E. destruct (IH p E) as [-> ->]; [cbn [length] in LE; lia|]. split; reflexivity. }
      destruct EC as [EC ->].
      assert (D' : dc dn (dn ++ cur) l = Ok false).
      { destruct D as [->|D]; [|exact D]. exfalso. destruct (concat g1); [destruct x|]; discriminate. }
      destruct g1 as [|g g1].
      + cbn [concat app] in *. rewrite EZ in E1. injection E1 as E1 _. rewrite app_nil_r, <- EC, D'.
        destruct y as [|c y]; [|reflexivity]. exfalso. rewrite <- EC, <- app_assoc in E1. apply (f_equal (@length nat)) in E1. rewrite !app_length in E1. cbn [length] in E1. lia.
      + exfalso. rewrite EZ in E1. cbn [app] in E1. injection E1 as <- _. cbn [concat] in EC. apply (f_equal (@length nat)) in EC.
        rewrite !app_length in EC. cbn [length] in EC. lia.
  Qed.
End Split.

Section P.
  Context (ordS : list (str * N) -> list (str * N)) (ordD : list (double * N) -> list (double * N)).
  Context (absd : double -> double) (label_regex : str -> bool) (h : heap) (doc : bdoc).
  Context (HS : forall m, Permutation m (ordS m)) (HD : forall m, Permutation m (ordD m)).
  Notation create := (createTextBlock ordS ordD absd h doc).
  Notation Inv := (inv absd h doc).

  Lemma block_lines_app a b : block_lines (a ++ b) = block_lines a ++ block_lines b.
  Proof. unfold block_lines. rewrite map_app, concat_app. reflexivity. Qed.
  Lemma NoDup_app_l {A} (a b : list A) : NoDup (a ++ b) -> NoDup a.
  Proof. induction a as [|x a IH]; intros H; [constructor|]. inversion H as [|? ? N D]; subst. constructor; [|apply IH, D]. intros X. apply N, in_or_app. left. exact X. Qed.
  Lemma NoDup_app_r {A} (a b : list A) : NoDup (a ++ b) -> NoDup b.
  Proof. induction a as [|x a IH]; intros H; [exact H|]. inversion H as [|? ? N D]; subst. apply IH, D. Qed.
  Lemma NoDup_app_disj {A} (a b : list A) x : NoDup (a ++ b) -> In x a -> In x b -> False.
  Proof.
    induction a as [|y a IH]; intros H Ha Hb; [destruct Ha|]. inversion H as [|? ? N D]; subst. destruct Ha as [->|Ha].
    - apply N, in_or_app. right. exact Hb.
    - apply (IH D Ha Hb).
  Qed.

  Lemma create_inv lh0 lhc cur bs bs' lh' : create cur bs lhc = Ok (bs', lh') ->
    same_all lh0 lhc -> Inv lh0 lhc bs -> NoDup (block_lines bs ++ cur) ->
    same_all lh0 lh' /\ Inv lh0 lh' bs' /\ (forall j, ~ In j cur -> lh' j = lhc j) /\ map tb_lines bs' = map tb_lines bs ++ [cur].
  Proof.
    intros H SA I ND. destruct (create_spec ordS ordD absd h doc HS HD cur bs lhc bs' lh' (NoDup_app_r _ _ ND) H)
      as (b & -> & E2 & E3 & E4 & E5 & E6 & E7 & E8 & E9 & E10).
    assert (I' : Inv lh0 lh' bs).
    { apply (inv_frame _ _ _ _ lhc); [exact I|]. intros j Hj. apply E8. intros X. apply (NoDup_app_disj _ _ j ND Hj X). }
    destruct I' as [G P F].
    split; [eapply sa_trans; eassumption|]. split; [|split; [exact E8|rewrite map_app, link_last_lines; cbn [map]; rewrite E2; reflexivity]].
    constructor.
    - intros i c Hc. rewrite app_length, link_last_length. cbn [length].
      destruct (Nat.lt_ge_cases i (length bs)) as [L|L].
      + rewrite nth_error_app1 in Hc by (rewrite link_last_length; exact L). apply link_last_nth in Hc as (c0 & H0 & ->).
        destruct (G i c0 H0) as (G1 & G2 & G3 & G4). destruct (Nat.eqb_spec (S i) (length bs)) as [EI|NI].
        * destruct (Nat.eqb_spec (S i) (length bs + 1)); [lia|]. split; [exact G1|]. split; [exact G2|]. split; [cbn [set_next tb_next]; rewrite EI; reflexivity|exact G4].
        * destruct (Nat.eqb_spec (S i) (length bs + 1)); [lia|]. split; [exact G1|]. split; [exact G2|]. split; [exact G3|exact G4].
      + rewrite nth_error_app2 in Hc by (rewrite link_last_length; exact L). rewrite link_last_length in Hc.
        destruct (i - length bs) as [|k] eqn:EK; [|destruct k; discriminate]. injection Hc as <-. assert (i = length bs) as -> by lia.
        split; [exact E3|]. split; [rewrite E4; destruct bs; [reflexivity|]; cbn [length]; f_equal; lia|]. split.
        * rewrite E5. destruct (Nat.eqb_spec (S (length bs)) (length bs + 1)); [reflexivity|lia].
        * apply (block_of_same absd h doc lhc); [apply sa_sym, SA|exact E6].
    - intros i c k l Hc Hl. destruct (Nat.lt_ge_cases i (length bs)) as [L|L].
      + rewrite nth_error_app1 in Hc by (rewrite link_last_length; exact L). apply link_last_nth in Hc as (c0 & H0 & EC).
        assert (Hl0 : nth_error (tb_lines c0) k = Some l) by (rewrite EC in Hl; destruct (S i =? length bs); exact Hl).
        destruct (P i c0 k l H0 Hl0) as (P1 & P2 & P3 & P4).
        assert (X : tb_lines c = tb_lines c0 /\ left_margin c (lh0 l) = left_margin c0 (lh0 l) /\ forall q, right_margin doc q c (lh0 l) = right_margin doc q c0 (lh0 l)).
        { rewrite EC. destruct (S i =? length bs); repeat split. }
        destruct X as (X1 & X2 & X3). rewrite X1, X2, X3. split; [exact P1|]. split; [exact P2|]. split; [exact P3|]. rewrite P4.
        destruct i as [|i]; [reflexivity|]. cbn [elem_before]. rewrite nth_error_app1 by (rewrite link_last_length; lia).
        destruct (nth_error (link_last bs (length bs)) i) as [d|] eqn:ED.
        * apply link_last_nth in ED as (d0 & -> & ->). destruct (S i =? length bs); reflexivity.
        * apply nth_error_None in ED. rewrite link_last_length in ED. lia.
      + rewrite nth_error_app2 in Hc by (rewrite link_last_length; exact L). rewrite link_last_length in Hc.
        destruct (i - length bs) as [|k0] eqn:EK; [|destruct k0; discriminate]. injection Hc as <-. assert (i = length bs) as -> by lia.
        rewrite E2 in Hl |- *. destruct (E9 k l Hl) as (Q1 & Q2 & Q3 & Q4). split; [exact Q1|]. split; [exact Q2|].
        destruct (SA l) as (EP & _). unfold left_margin, right_margin in *. rewrite Q3, Q4, EP. split; [reflexivity|]. f_equal.
        assert (EB : elem_before (link_last bs (length bs) ++ [b]) (length bs) = match last_opt bs with Some c => Some (set_next c (length bs)) | None => None end).
        { destruct (snoc_cases bs) as [->|(t & c & ->)]; [reflexivity|]. rewrite last_opt_snoc, link_last_snoc, app_length, Nat.add_1_r.
          cbn [elem_before]. rewrite <- app_assoc. rewrite nth_error_app2, Nat.sub_diag by lia. reflexivity. }
        rewrite EB. destruct (last_opt bs); reflexivity.
    - apply Forall_app. split; [|constructor; [exact E10|constructor]].
      destruct (snoc_cases bs) as [->|(t & c & ->)]; [constructor|]. rewrite link_last_snoc. apply Forall_app in F as [F1 F2].
      apply Forall_app. split; [exact F1|]. inversion F2 as [|? ? F3 _]; subst. constructor; [exact F3|constructor].
  Qed.

  Lemma nonempty_true {A} (l : list A) : nonempty l = true <-> l <> [].
  Proof. destruct l; split; cbn; congruence. Qed.

  (** ** First pass *)
  Lemma starts_prelim_ext lh lh' l : lh' l = lh l -> (forall p, bl_prev (lh l) = Some p -> lh' p = lh p) -> same_all lh lh' ->
    startsPreliminaryBlock doc lh' (lh' l) = startsPreliminaryBlock doc lh (lh l).
  Proof.
    intros E P SA. unfold startsPreliminaryBlock. rewrite E. destruct (bl_prev (lh l)) as [p|] eqn:EP; [|reflexivity]. cbn [line_at]. rewrite (P p eq_refl).
    destruct (bl_prev (lh p)) as [q|]; [|reflexivity]. cbn [line_at]. unfold rule_increasedLineDistance, line_distance. destruct (SA q) as (-> & _). reflexivity.
  Qed.
  Definition neighbours (lh : lheap) (ls : list nat) : Prop := forall a b, consecutive a b ls -> bl_prev (lh b) = Some a \/ bl_prev (lh b) = None.
  Definition dec1 (lh : lheap) (_ _ : list nat) (l : nat) : outcome bool := startsPreliminaryBlock doc lh (lh l).
  Lemma in_mid {A} (x : A) a b : In x (a ++ x :: b). Proof. apply in_or_app. right. left. reflexivity. Qed.

  Lemma prelim_lines_spec lh0 : forall ls cur bs lhc bs' lh', prelim_lines ordS ordD absd h doc ls cur bs lhc = Ok (bs', lh') ->
    same_all lh0 lhc -> Inv lh0 lhc bs -> NoDup (block_lines bs ++ cur ++ ls) ->
    same_all lh0 lh' /\ Inv lh0 lh' bs' /\ (forall j, ~ In j (cur ++ ls) -> lh' j = lhc j) /\
    exists gs, map tb_lines bs' = map tb_lines bs ++ gs /\ concat gs = cur ++ ls /\ Forall (fun g => g <> []) gs /\
      ((forall l, In l (cur ++ ls) -> lhc l = lh0 l) -> neighbours lh0 (cur ++ ls) -> forall dn, splits (dec1 lh0) dn cur ls gs).
  Proof.
    induction ls as [|l t IH]; intros cur bs lhc bs' lh' H SA I ND; cbn [prelim_lines] in H.
    - rewrite app_nil_r in *. destruct (nonempty cur) eqn:EN.
      + destruct (create_inv lh0 lhc cur bs bs' lh' H SA I ND) as (A & B & C & D). split; [exact A|]. split; [exact B|].
        split; [exact C|]. exists [cur]. split; [exact D|]. cbn [concat]. rewrite app_nil_r. split; [reflexivity|].
        assert (NE : cur <> []) by (apply nonempty_true, EN).
        split; [constructor; [exact NE|constructor]|]. intros _ _ dn. constructor. exact NE.
      + injection H as <- <-. split; [exact SA|]. split; [exact I|]. split; [reflexivity|]. exists []. rewrite app_nil_r. destruct cur; [|discriminate].
        split; [reflexivity|]. split; [reflexivity|]. split; [constructor|]. intros _ _ dn. constructor.
    - destruct (startsPreliminaryBlock doc lhc (lhc l)) as [s| |] eqn:ES; try discriminate. cbn [obind] in H.
      assert (DEC : cur <> [] -> (forall x, In x (cur ++ l :: t) -> lhc x = lh0 x) -> neighbours lh0 (cur ++ l :: t) -> startsPreliminaryBlock doc lh0 (lh0 l) = Ok s).
      { intros NE EQ NB. rewrite <- ES. symmetry. apply starts_prelim_ext; [apply EQ, in_mid| |exact SA].
        intros p EP. destruct (snoc_cases cur) as [->|(c & a & ->)]; [congruence|].
        destruct (NB a l) as [Q|Q]; [exists c, t; rewrite <- app_assoc; reflexivity| |]; rewrite Q in EP; [|discriminate].
        injection EP as <-. apply EQ. rewrite <- app_assoc. apply in_mid. }
      destruct (s && nonempty cur) eqn:EC.
      + apply andb_true_iff in EC as [-> EN]. apply nonempty_true in EN.
        destruct (create cur bs lhc) as [[bs1 lh1]| |] eqn:E1; try discriminate. cbn [obind] in H.
        assert (ND1 : NoDup (block_lines bs ++ cur)) by (rewrite app_assoc in ND; apply (NoDup_app_l _ _ ND)).
        destruct (create_inv lh0 lhc cur bs bs1 lh1 E1 SA I ND1) as (A & B & C & D).
        assert (BL : block_lines bs1 = block_lines bs ++ cur).
        { unfold block_lines. rewrite D, concat_app. cbn [concat]. rewrite app_nil_r. reflexivity. }
        assert (ND2 : NoDup (block_lines bs1 ++ [l] ++ t)) by (rewrite BL, <- app_assoc; exact ND).
        destruct (IH [l] bs1 lh1 bs' lh' H A B ND2) as (A' & B' & C' & gs & D1 & D2 & D3 & D4). split; [exact A'|]. split; [exact B'|]. split.
        { intros j Hj. rewrite C', C; [reflexivity| |]; intros X; apply Hj, in_or_app; [left|right]; exact X. }
        exists (cur :: gs). rewrite D1, D, <- app_assoc. split; [reflexivity|]. cbn [concat]. rewrite D2. split; [reflexivity|]. split; [constructor; assumption|].
        intros EQ NB dn. apply sp_cut; [exact EN|apply (DEC EN EQ NB)|]. apply D4.
        * intros x Hx. rewrite C; [apply EQ, in_or_app; right; exact Hx|]. intros X. rewrite app_assoc in ND. apply NoDup_app_comm_iff in ND.
          apply (NoDup_app_disj _ _ x ND Hx). apply in_or_app. right. exact X.
        * intros a b (p & q & E). apply NB. exists (cur ++ p), q. rewrite <- app_assoc, <- E. reflexivity.
      + assert (AE : (cur ++ [l]) ++ t = cur ++ l :: t) by (rewrite <- app_assoc; reflexivity).
        destruct (IH (cur ++ [l]) bs lhc bs' lh' H SA I) as (A' & B' & C' & gs & D1 & D2 & D3 & D4); [rewrite AE; exact ND|]. rewrite AE in *.
        split; [exact A'|]. split; [exact B'|]. split; [exact C'|]. exists gs. split; [exact D1|]. split; [exact D2|]. split; [exact D3|].
        intros EQ NB dn. apply sp_join; [|apply (D4 EQ NB)]. destruct cur as [|c cs]; [left; reflexivity|right]. cbn [nonempty] in EC. rewrite andb_true_r in EC. subst s.
        apply DEC; [discriminate|exact EQ|exact NB].
  Qed.

  Lemma prelim_segments_spec lh0 : forall segs lhc bss lh', prelim_segments ordS ordD absd h doc segs lhc = Ok (bss, lh') ->
    same_all lh0 lhc -> NoDup (concat segs) -> (forall l, In l (concat segs) -> lhc l = lh0 l) ->
    same_all lh0 lh' /\ Forall (Inv lh0 lh') bss /\ (forall j, ~ In j (concat segs) -> lh' j = lhc j) /\
    Forall2 (fun ls bs => block_lines bs = ls /\ Forall (fun b => tb_lines b <> []) bs /\
      (neighbours lh0 ls -> forall dn, splits (dec1 lh0) dn [] ls (map tb_lines bs))) segs bss.
  Proof.
    induction segs as [|ls t IH]; intros lhc bss lh' H SA ND EQ; cbn [prelim_segments] in H.
    - injection H as <- <-. split; [exact SA|]. split; [constructor|]. split; [reflexivity|constructor].
    - destruct (prelim_lines ordS ordD absd h doc ls [] [] lhc) as [[bs lh1]| |] eqn:E1; try discriminate. cbn [obind] in H.
      destruct (prelim_segments ordS ordD absd h doc t lh1) as [[rest lh2]| |] eqn:E2; try discriminate. cbn [obind] in H. injection H as <- <-.
      cbn [concat] in ND, EQ |- *.
      destruct (prelim_lines_spec lh0 ls [] [] lhc bs lh1 E1 SA (inv_nil _ _ _ _ _)) as (A & B & C & gs & D1 & D2 & D3 & D4); [exact (NoDup_app_l _ _ ND)|].
      cbn [app map] in *. subst gs.
      destruct (IH lh1 rest lh2 E2 A (NoDup_app_r _ _ ND)) as (A' & B' & C' & D').
      { intros l Hl. rewrite C; [apply EQ, in_or_app; right; exact Hl|]. intros X. apply (NoDup_app_disj _ _ l ND X Hl). }
      split; [exact A'|]. split; [|split].
      + constructor; [|exact B']. apply (inv_frame _ _ _ _ lh1); [exact B|]. intros j Hj. apply C'. intros X.
        unfold block_lines in Hj. rewrite D2 in Hj. apply (NoDup_app_disj _ _ j ND Hj X).
      + intros j Hj. rewrite C', C; [reflexivity| |]; intros X; apply Hj, in_or_app; [left|right]; exact X.
      + constructor; [|exact D']. split; [exact D2|]. split; [|intros NB dn; apply D4; [|exact NB]; intros l Hl; apply EQ, in_or_app; left; exact Hl].
        clear -D3. induction bs as [|b t IH]; constructor; inversion D3; subst; [assumption|apply IH; assumption].
  Qed.

  Lemma prelim_pages_spec lh0 : forall pages lhc pre lh', prelim_pages ordS ordD absd h doc pages lhc = Ok (pre, lh') ->
    same_all lh0 lhc -> NoDup (concat (map (@concat nat) pages)) -> (forall l, In l (concat (map (@concat nat) pages)) -> lhc l = lh0 l) ->
    same_all lh0 lh' /\ Forall (Forall (Inv lh0 lh')) pre /\ (forall j, ~ In j (concat (map (@concat nat) pages)) -> lh' j = lhc j) /\
    Forall2 (Forall2 (fun ls bs => block_lines bs = ls /\ Forall (fun b => tb_lines b <> []) bs /\
      (neighbours lh0 ls -> forall dn, splits (dec1 lh0) dn [] ls (map tb_lines bs)))) pages pre.
  Proof.
    induction pages as [|segs t IH]; intros lhc pre lh' H SA ND EQ; cbn [prelim_pages] in H.
    - injection H as <- <-. split; [exact SA|]. split; [constructor|]. split; [reflexivity|constructor].
    - destruct (prelim_segments ordS ordD absd h doc segs lhc) as [[bss lh1]| |] eqn:E1; try discriminate. cbn [obind] in H.
      destruct (prelim_pages ordS ordD absd h doc t lh1) as [[rest lh2]| |] eqn:E2; try discriminate. cbn [obind] in H. injection H as <- <-.
      cbn [map concat] in ND, EQ |- *.
      destruct (prelim_segments_spec lh0 segs lhc bss lh1 E1 SA (NoDup_app_l _ _ ND)) as (A & B & C & D).
      { intros l Hl. apply EQ, in_or_app. left. exact Hl. }
      destruct (IH lh1 rest lh2 E2 A (NoDup_app_r _ _ ND)) as (A' & B' & C' & D').
      { intros l Hl. rewrite C; [apply EQ, in_or_app; right; exact Hl|]. intros X. apply (NoDup_app_disj _ _ l ND X Hl). }
      split; [exact A'|]. split; [|split].
      + constructor; [|exact B']. apply Forall_forall. intros bs Hbs. rewrite Forall_forall in B. apply (inv_frame _ _ _ _ lh1); [apply B, Hbs|].
        intros j Hj. apply C'. intros X. apply (NoDup_app_disj _ _ j ND); [|exact X].
        clear -D Hbs Hj. induction D as [|ls cs segs css (E & _) F IH]; [destruct Hbs|]. cbn [concat]. apply in_or_app.
        destruct Hbs as [->|Hbs]; [left; rewrite <- E; exact Hj|right; apply IH, Hbs].
      + intros j Hj. rewrite C', C; [reflexivity| |]; intros X; apply Hj, in_or_app; [left|right]; exact X.
      + constructor; assumption.
  Qed.

  (** ** Second pass *)
  Section Ext.
    Context (lh lh' : lheap) (E : forall j, lh' j = lh j).
    Lemma line_at_ext o : line_at lh' o = line_at lh o.
    Proof. destruct o; [cbn [line_at]; rewrite E|]; reflexivity. Qed.
    Lemma sibling_ext o l : sibling_item label_regex h lh' o l = sibling_item label_regex h lh o l.
    Proof. destruct o; [cbn [sibling_item]; rewrite E|]; reflexivity. Qed.
    Lemma first_item_ext labels l : computeIsFirstLineOfItem label_regex h doc lh' labels l = computeIsFirstLineOfItem label_regex h doc lh labels l.
    Proof. unfold computeIsFirstLineOfItem. rewrite line_at_ext, !sibling_ext. reflexivity. Qed.
    Lemma continuation_ext fuel labels : forall l, computeIsContinuationOfItem label_regex h doc fuel lh' labels l = computeIsContinuationOfItem label_regex h doc fuel lh labels l.
    Proof.
      induction fuel as [|n IH]; intros l; [reflexivity|]. cbn [computeIsContinuationOfItem]. destruct (bl_parent l); [|reflexivity].
      rewrite E, first_item_ext, IH. reflexivity.
    Qed.
    Lemma starts_block_ext fuel labels b l : startsBlock absd label_regex h doc fuel lh' labels b l = startsBlock absd label_regex h doc fuel lh labels b l.
    Proof.
      unfold startsBlock. rewrite line_at_ext. destruct (line_at lh (bl_prev l)); [|reflexivity].
      unfold rule_centered, rule_item. rewrite !first_item_ext, !continuation_ext. reflexivity.
    Qed.
  End Ext.

  Definition line_labels (l : bline) : list str := flat_map (fun w => word_labels (w_chars (h w)) [] false) (bl_words l).
  Lemma labels_in_app lh a b : labels_in h lh (a ++ b) = labels_in h lh a ++ labels_in h lh b.
  Proof. apply flat_map_app. Qed.
  Lemma labels_one lh lh' l : same_all lh lh' -> flat_map (fun w => word_labels (w_chars (h w)) [] false) (bl_words (lh' l)) = labels_in h lh [l].
  Proof. intros SA. unfold labels_in. cbn [flat_map]. rewrite app_nil_r. destruct (SA l) as (_ & _ & _ & _ & _ & -> & _). reflexivity. Qed.

  (** Only the given lines change. *)
  Lemma final_lines_frame lh0 fuel b : forall ls cur labels bs lhc bs' labels' lh',
    final_lines ordS ordD absd label_regex h doc fuel b ls cur labels bs lhc = Ok (bs', labels', lh') ->
    same_all lh0 lhc -> Inv lh0 lhc bs -> NoDup (block_lines bs ++ cur ++ ls) ->
    same_all lh0 lh' /\ Inv lh0 lh' bs' /\ (forall j, ~ In j (cur ++ ls) -> lh' j = lhc j) /\ labels' = labels ++ labels_in h lh0 ls /\
    exists gs, map tb_lines bs' = map tb_lines bs ++ gs /\ concat gs = cur ++ ls /\ Forall (fun g => g <> []) gs.
  Proof.
    induction ls as [|l t IH]; intros cur labels bs lhc bs' labels' lh' H SA I ND; cbn [final_lines] in H.
    - rewrite app_nil_r in *. destruct (nonempty cur) eqn:EN.
      + destruct (create cur bs lhc) as [[bs1 lh1]| |] eqn:E1; try discriminate. cbn [obind] in H. injection H as <- <- <-.
        destruct (create_inv lh0 lhc cur bs bs1 lh1 E1 SA I ND) as (A & B & C & D). split; [exact A|]. split; [exact B|].
        split; [exact C|]. split; [cbn [labels_in flat_map]; rewrite app_nil_r; reflexivity|].
        exists [cur]. split; [exact D|]. cbn [concat]. rewrite app_nil_r. split; [reflexivity|]. constructor; [apply nonempty_true, EN|constructor].
      + injection H as <- <- <-. split; [exact SA|]. split; [exact I|]. split; [reflexivity|]. split; [cbn [labels_in flat_map]; rewrite app_nil_r; reflexivity|].
        exists []. rewrite app_nil_r. destruct cur; [|discriminate]. split; [reflexivity|]. split; [reflexivity|constructor].
    - set (labels1 := computePotentialFootnoteLabels h (lhc l) labels) in *.
      assert (L1 : labels1 = labels ++ labels_in h lh0 [l]) by (unfold labels1, computePotentialFootnoteLabels; rewrite (labels_one lh0 lhc l SA); reflexivity).
      destruct (startsBlock absd label_regex h doc fuel lhc labels1 b (lhc l)) as [s| |] eqn:ES; try discriminate. cbn [obind] in H.
      assert (L2 : labels ++ labels_in h lh0 (l :: t) = labels1 ++ labels_in h lh0 t).
      { change (l :: t) with ([l] ++ t). rewrite labels_in_app, app_assoc, <- L1. reflexivity. }
      rewrite L2.
      destruct (s && nonempty cur) eqn:EC.
      + destruct (create cur bs lhc) as [[bs1 lh1]| |] eqn:E1; try discriminate. cbn [obind] in H.
        apply andb_true_iff in EC as [_ EN]. apply nonempty_true in EN.
        assert (ND1 : NoDup (block_lines bs ++ cur)) by (rewrite app_assoc in ND; apply (NoDup_app_l _ _ ND)).
        destruct (create_inv lh0 lhc cur bs bs1 lh1 E1 SA I ND1) as (A & B & C & D).
        assert (BL : block_lines bs1 = block_lines bs ++ cur).
        { unfold block_lines. rewrite D, concat_app. cbn [concat]. rewrite app_nil_r. reflexivity. }
        assert (ND2 : NoDup (block_lines bs1 ++ [l] ++ t)) by (rewrite BL, <- app_assoc; exact ND).
        destruct (IH [l] labels1 bs1 lh1 bs' labels' lh' H A B ND2) as (A' & B' & C' & E' & gs & D1 & D2 & D3). split; [exact A'|]. split; [exact B'|]. split.
        { intros j Hj. rewrite C', C; [reflexivity| |]; intros X; apply Hj, in_or_app; [left|right]; exact X. }
        split; [exact E'|]. exists (cur :: gs). rewrite D1, D, <- app_assoc. split; [reflexivity|]. cbn [concat]. rewrite D2. split; [reflexivity|]. constructor; assumption.
      + assert (AE : (cur ++ [l]) ++ t = cur ++ l :: t) by (rewrite <- app_assoc; reflexivity).
        destruct (IH (cur ++ [l]) labels1 bs lhc bs' labels' lh' H SA I) as (A' & B' & C' & E' & gs & D1 & D2 & D3); [rewrite AE; exact ND|]. rewrite AE in *.
        split; [exact A'|]. split; [exact B'|]. split; [exact C'|]. split; [exact E'|]. exists gs. split; [exact D1|]. split; [exact D2|exact D3].
  Qed.

  (** The decision of the second pass about the line [l] of the preliminary block [b]: [lh1] are the lines before the second
      pass, [lhE] after it; [dn] the lines in finished blocks, [before] all lines before [l]. *)
  Definition dec2 (fuel : nat) (lh0 lh1 lhE : lheap) (b : tblock) (dn before : list nat) (l : nat) : outcome bool :=
    startsBlock absd label_regex h doc fuel (mixed dn lh1 lhE) (labels_in h lh0 (before ++ [l])) b (mixed dn lh1 lhE l).
  Lemma mixed_in dn lh1 lhE j : In j dn -> mixed dn lh1 lhE j = lhE j.
  Proof.
    intros H. unfold mixed. replace (existsb (Nat.eqb j) dn) with true; [reflexivity|]. symmetry. apply existsb_exists. exists j. split; [exact H|apply Nat.eqb_refl].
  Qed.
  Lemma mixed_out dn lh1 lhE j : ~ In j dn -> mixed dn lh1 lhE j = lh1 j.
  Proof.
    intros H. unfold mixed. destruct (existsb (Nat.eqb j) dn) eqn:E; [|reflexivity]. apply existsb_exists in E as (k & Hk & E). apply Nat.eqb_eq in E. subst k. contradiction.
  Qed.

  Lemma final_lines_splits lh0 lh1 lhE fuel b : forall ls cur dn labels bs lhc bs' labels' lh',
    final_lines ordS ordD absd label_regex h doc fuel b ls cur labels bs lhc = Ok (bs', labels', lh') ->
    same_all lh0 lhc -> Inv lh0 lhc bs -> NoDup (block_lines bs ++ cur ++ ls) -> NoDup (dn ++ cur ++ ls) ->
    (forall j, In j (cur ++ ls) -> lhE j = lh' j) -> (forall j, In j dn -> lhE j = lhc j) -> (forall j, ~ In j dn -> lhc j = lh1 j) ->
    labels = labels_in h lh0 (dn ++ cur) ->
    exists gs, map tb_lines bs' = map tb_lines bs ++ gs /\ splits (dec2 fuel lh0 lh1 lhE b) dn cur ls gs.
  Proof.
    induction ls as [|l t IH]; intros cur dn labels bs lhc bs' labels' lh' H SA I ND ND' E1 E2 E3 EL; cbn [final_lines] in H.
    - rewrite app_nil_r in *. destruct (nonempty cur) eqn:EN.
      + destruct (create cur bs lhc) as [[bs1 lhx]| |] eqn:EC; try discriminate. cbn [obind] in H. injection H as <- <- <-.
        destruct (create_inv lh0 lhc cur bs bs1 lhx EC SA I ND) as (_ & _ & _ & D). exists [cur]. split; [exact D|]. constructor. apply nonempty_true, EN.
      + injection H as <- <- <-. exists []. rewrite app_nil_r. destruct cur; [|discriminate]. split; [reflexivity|constructor].
    - set (labels1 := computePotentialFootnoteLabels h (lhc l) labels) in *.
      assert (L1 : labels1 = labels_in h lh0 ((dn ++ cur) ++ [l])) by (unfold labels1, computePotentialFootnoteLabels; rewrite (labels_one lh0 lhc l SA), labels_in_app, EL; reflexivity).
      destruct (startsBlock absd label_regex h doc fuel lhc labels1 b (lhc l)) as [s| |] eqn:ES; try discriminate. cbn [obind] in H.
      assert (MX : forall j, lhc j = mixed dn lh1 lhE j).
      { intros j. destruct (in_dec Nat.eq_dec j dn) as [J|J]; [rewrite (mixed_in _ _ _ _ J)|rewrite (mixed_out _ _ _ _ J)]; [symmetry; apply E2, J|apply E3, J]. }
      assert (DEC : dec2 fuel lh0 lh1 lhE b dn (dn ++ cur) l = Ok s).
      { unfold dec2. rewrite <- L1, <- MX, <- ES. symmetry. apply starts_block_ext. exact MX. }
      destruct (s && nonempty cur) eqn:EC.
      + destruct (create cur bs lhc) as [[bs1 lhx]| |] eqn:E4; try discriminate. cbn [obind] in H.
        apply andb_true_iff in EC as [-> EN]. apply nonempty_true in EN.
        assert (ND1 : NoDup (block_lines bs ++ cur)) by (rewrite app_assoc in ND; apply (NoDup_app_l _ _ ND)).
        destruct (create_inv lh0 lhc cur bs bs1 lhx E4 SA I ND1) as (A & B & C & D).
        assert (BL : block_lines bs1 = block_lines bs ++ cur).
        { unfold block_lines. rewrite D, concat_app. cbn [concat]. rewrite app_nil_r. reflexivity. }
        assert (ND2 : NoDup (block_lines bs1 ++ [l] ++ t)) by (rewrite BL, <- app_assoc; exact ND).
        destruct (final_lines_frame lh0 fuel b t [l] labels1 bs1 lhx bs' labels' lh' H A B ND2) as (_ & _ & FR & _).
        destruct (IH [l] (dn ++ cur) labels1 bs1 lhx bs' labels' lh' H A B ND2) as (gs & D1 & D2).
        * rewrite <- app_assoc. exact ND'.
        * intros j Hj. apply E1, in_or_app. right. exact Hj.
        * intros j Hj. apply in_app_or in Hj as [Hj|Hj].
          -- rewrite (E2 j Hj). symmetry. apply C. intros X. apply (NoDup_app_disj _ _ j ND' Hj). apply in_or_app. left. exact X.
          -- rewrite (E1 j) by (apply in_or_app; left; exact Hj). apply FR. intros X. apply NoDup_app_r in ND'. apply (NoDup_app_disj _ _ j ND' Hj X).
        * intros j Hj. rewrite C by (intros X; apply Hj, in_or_app; right; exact X). apply E3. intros X. apply Hj, in_or_app. left. exact X.
        * exact L1.
        * exists (cur :: gs). rewrite D1, D, <- app_assoc. split; [reflexivity|]. apply sp_cut; assumption.
      + assert (AE : (cur ++ [l]) ++ t = cur ++ l :: t) by (rewrite <- app_assoc; reflexivity).
        destruct (IH (cur ++ [l]) dn labels1 bs lhc bs' labels' lh' H SA I) as (gs & D1 & D2).
        * rewrite AE. exact ND.
        * rewrite AE. exact ND'.
        * rewrite AE. exact E1.
        * exact E2.
        * exact E3.
        * rewrite app_assoc. exact L1.
        * exists gs. split; [exact D1|]. apply sp_join; [|exact D2]. destruct cur as [|c cs]; [left; reflexivity|right].
          cbn [nonempty] in EC. rewrite andb_true_r in EC. subst s. exact DEC.
  Qed.

  Lemma final_blocks_frame lh0 fuel : forall pre labels bs lhc bs' labels' lh',
    final_blocks ordS ordD absd label_regex h doc fuel pre labels bs lhc = Ok (bs', labels', lh') ->
    same_all lh0 lhc -> Inv lh0 lhc bs -> NoDup (block_lines bs ++ block_lines pre) ->
    same_all lh0 lh' /\ Inv lh0 lh' bs' /\ (forall j, ~ In j (block_lines pre) -> lh' j = lhc j) /\ labels' = labels ++ labels_in h lh0 (block_lines pre) /\
    exists gss, map tb_lines bs' = map tb_lines bs ++ concat gss /\ Forall2 (fun b gs => concat gs = tb_lines b /\ Forall (fun g => g <> []) gs) pre gss.
  Proof.
    induction pre as [|b t IH]; intros labels bs lhc bs' labels' lh' H SA I ND; cbn [final_blocks] in H.
    - injection H as <- <- <-. split; [exact SA|]. split; [exact I|]. split; [reflexivity|]. split; [cbn; rewrite app_nil_r; reflexivity|].
      exists []. split; [cbn [concat]; rewrite app_nil_r; reflexivity|constructor].
    - destruct (final_lines _ _ _ _ _ _ _ _ _ _ _ _ _) as [[[bs1 labels1] lhx]| |] eqn:E1 in H; try discriminate. cbn [obind] in H.
      change (block_lines (b :: t)) with (tb_lines b ++ block_lines t) in *.
      assert (ND1 : NoDup (block_lines bs ++ [] ++ tb_lines b)) by (rewrite app_assoc in ND; apply (NoDup_app_l _ _ ND)).
      destruct (final_lines_frame lh0 fuel b _ _ _ _ _ _ _ _ E1 SA I ND1) as (A & B & C & D & gs & G1 & G2 & G3). cbn [app] in *.
      assert (BL : block_lines bs1 = block_lines bs ++ tb_lines b).
      { unfold block_lines. rewrite G1, concat_app, G2. reflexivity. }
      destruct (IH labels1 bs1 lhx bs' labels' lh' H A B) as (A' & B' & C' & D' & gss & F1 & F2); [rewrite BL, <- app_assoc; exact ND|].
      split; [exact A'|]. split; [exact B'|]. split.
      { intros j Hj. rewrite C', C; [reflexivity| |]; intros X; apply Hj, in_or_app; [left|right]; exact X. }
      split; [rewrite D', D, labels_in_app, app_assoc; reflexivity|]. exists (gs :: gss). cbn [concat]. rewrite F1, G1, <- app_assoc. split; [reflexivity|].
      constructor; [split; assumption|exact F2].
  Qed.
  (** The groups of lines that the preliminary blocks are split into. *)
  Inductive all_splits (fuel : nat) (lh0 lh1 lhE : lheap) : list nat -> list tblock -> list (list (list nat)) -> Prop :=
  | as_nil dn : all_splits fuel lh0 lh1 lhE dn [] []
  | as_cons dn b bs gs gss : splits (dec2 fuel lh0 lh1 lhE b) dn [] (tb_lines b) gs ->
      all_splits fuel lh0 lh1 lhE (dn ++ tb_lines b) bs gss -> all_splits fuel lh0 lh1 lhE dn (b :: bs) (gs :: gss).
  Lemma all_splits_app fuel lh0 lh1 lhE p gp : forall dn q gq, all_splits fuel lh0 lh1 lhE dn p gp -> all_splits fuel lh0 lh1 lhE (dn ++ block_lines p) q gq ->
    all_splits fuel lh0 lh1 lhE dn (p ++ q) (gp ++ gq).
  Proof.
    revert gp. induction p as [|b t IH]; intros gp dn q gq H1 H2; inversion H1; subst; cbn [app].
    - cbn [block_lines map concat] in H2. rewrite app_nil_r in H2. exact H2.
    - constructor; [assumption|]. apply IH; [assumption|]. change (block_lines (b :: t)) with (tb_lines b ++ block_lines t) in H2. rewrite <- app_assoc. exact H2.
  Qed.

  Lemma final_blocks_splits lh0 lh1 lhE fuel : forall pre dn labels bs lhc bs' labels' lh',
    final_blocks ordS ordD absd label_regex h doc fuel pre labels bs lhc = Ok (bs', labels', lh') ->
    same_all lh0 lhc -> Inv lh0 lhc bs -> NoDup (block_lines bs ++ block_lines pre) -> NoDup (dn ++ block_lines pre) ->
    (forall j, In j (block_lines pre) -> lhE j = lh' j) -> (forall j, In j dn -> lhE j = lhc j) -> (forall j, ~ In j dn -> lhc j = lh1 j) ->
    labels = labels_in h lh0 dn ->
    exists gss, map tb_lines bs' = map tb_lines bs ++ concat gss /\ all_splits fuel lh0 lh1 lhE dn pre gss.
  Proof.
    induction pre as [|b t IH]; intros dn labels bs lhc bs' labels' lh' H SA I ND ND' E1 E2 E3 EL; cbn [final_blocks] in H.
    - injection H as <- <- <-. exists []. split; [cbn [concat]; rewrite app_nil_r; reflexivity|constructor].
    - destruct (final_lines _ _ _ _ _ _ _ _ _ _ _ _ _) as [[[bs1 labels1] lhx]| |] eqn:E4 in H; try discriminate. cbn [obind] in H.
      change (block_lines (b :: t)) with (tb_lines b ++ block_lines t) in *.
      assert (ND1 : NoDup (block_lines bs ++ [] ++ tb_lines b)) by (rewrite app_assoc in ND; apply (NoDup_app_l _ _ ND)).
      destruct (final_lines_frame lh0 fuel b _ _ _ _ _ _ _ _ E4 SA I ND1) as (A & B & C & D & gs & G1 & G2 & G3). cbn [app] in *.
      assert (BL : block_lines bs1 = block_lines bs ++ tb_lines b).
      { unfold block_lines. rewrite G1, concat_app, G2. reflexivity. }
      assert (ND2 : NoDup (block_lines bs1 ++ block_lines t)) by (rewrite BL, <- app_assoc; exact ND).
      destruct (final_blocks_frame lh0 fuel t labels1 bs1 lhx bs' labels' lh' H A B ND2) as (_ & _ & FR & _).
      assert (EB : forall j, In j (tb_lines b) -> lhE j = lhx j).
      { intros j Hj. rewrite (E1 j) by (apply in_or_app; left; exact Hj). apply FR. intros X. apply NoDup_app_r in ND. apply (NoDup_app_disj _ _ j ND Hj X). }
      destruct (final_lines_splits lh0 lh1 lhE fuel b (tb_lines b) [] dn labels bs lhc bs1 labels1 lhx E4 SA I ND1) as (gs' & G1' & SP).
      + cbn [app]. rewrite app_assoc in ND'. apply (NoDup_app_l _ _ ND').
      + exact EB.
      + exact E2.
      + exact E3.
      + rewrite app_nil_r. exact EL.
      + assert (gs' = gs) as -> by (apply (app_inv_head (map tb_lines bs)); rewrite <- G1, <- G1'; reflexivity).
        destruct (IH (dn ++ tb_lines b) labels1 bs1 lhx bs' labels' lh' H A B ND2) as (gss & F1 & F2).
        * rewrite <- app_assoc. exact ND'.
        * intros j Hj. apply E1, in_or_app. right. exact Hj.
        * intros j Hj. apply in_app_or in Hj as [Hj|Hj]; [|apply EB, Hj]. rewrite (E2 j Hj). symmetry. apply C. intros X.
          apply (NoDup_app_disj _ _ j ND' Hj). apply in_or_app. left. exact X.
        * intros j Hj. rewrite C by (intros X; apply Hj, in_or_app; right; exact X). apply E3. intros X. apply Hj, in_or_app. left. exact X.
        * rewrite D, EL, labels_in_app. reflexivity.
        * exists (gs :: gss). cbn [concat]. rewrite F1, G1, <- app_assoc. split; [reflexivity|]. constructor; assumption.
  Qed.

  Notation all_lines := (fun pages : list (list (list tblock)) => concat (map (fun segs => block_lines (concat segs)) pages)).
  Lemma final_pages_frame lh0 fuel : forall pages labels lhc fin lh',
    final_pages ordS ordD absd label_regex h doc fuel pages labels lhc = Ok (fin, lh') ->
    same_all lh0 lhc -> NoDup (all_lines pages) ->
    same_all lh0 lh' /\ Forall (Inv lh0 lh') fin /\ (forall j, ~ In j (all_lines pages) -> lh' j = lhc j) /\
    Forall2 (fun segs bs => exists gss, map tb_lines bs = concat gss /\
      Forall2 (fun b gs => concat gs = tb_lines b /\ Forall (fun g => g <> []) gs) (concat segs) gss) pages fin.
  Proof.
    induction pages as [|segs t IH]; intros labels lhc fin lh' H SA ND; cbn [final_pages] in H.
    - injection H as <- <-. split; [exact SA|]. split; [constructor|]. split; [reflexivity|constructor].
    - destruct (final_blocks _ _ _ _ _ _ _ _ _ _ _) as [[[bs labels1] lhx]| |] eqn:E1 in H; try discriminate. cbn [obind] in H.
      destruct (final_pages _ _ _ _ _ _ _ _ _ _) as [[rest lhy]| |] eqn:E2 in H; try discriminate. cbn [obind] in H. injection H as <- <-.
      cbn [map concat] in ND |- *.
      destruct (final_blocks_frame lh0 fuel _ _ _ _ _ _ _ E1 SA (inv_nil _ _ _ _ _)) as (A & B & C & D & gss & F1 & F2); [exact (NoDup_app_l _ _ ND)|].
      destruct (IH labels1 lhx rest lhy E2 A (NoDup_app_r _ _ ND)) as (A' & B' & C' & D'). split; [exact A'|]. split; [|split].
      + constructor; [|exact B']. apply (inv_frame _ _ _ _ lhx); [exact B|]. intros j Hj. apply C'. intros X. apply (NoDup_app_disj _ _ j ND); [|exact X].
        unfold block_lines in Hj |- *. rewrite F1 in Hj. cbn [map app] in Hj. clear -F2 Hj. revert Hj. induction F2 as [|b gs bs gss [E _] F IH]; [exact (fun H => H)|].
        cbn [concat map]. rewrite concat_app, !in_app_iff, E. intros [H|H]; [left; exact H|right; apply IH, H].
      + intros j Hj. rewrite C', C; [reflexivity| |]; intros X; apply Hj, in_or_app; [left|right]; exact X.
      + constructor; [|exact D']. exists gss. split; [exact F1|exact F2].
  Qed.
  Lemma final_pages_splits lh0 lh1 lhE fuel : forall pages dn labels lhc fin lh',
    final_pages ordS ordD absd label_regex h doc fuel pages labels lhc = Ok (fin, lh') ->
    same_all lh0 lhc -> NoDup (dn ++ all_lines pages) ->
    (forall j, In j (all_lines pages) -> lhE j = lh' j) -> (forall j, In j dn -> lhE j = lhc j) -> (forall j, ~ In j dn -> lhc j = lh1 j) ->
    labels = labels_in h lh0 dn ->
    exists gss, concat (map (map tb_lines) fin) = concat gss /\ all_splits fuel lh0 lh1 lhE dn (concat (map (@concat tblock) pages)) gss.
  Proof.
    induction pages as [|segs t IH]; intros dn labels lhc fin lh' H SA ND E1 E2 E3 EL; cbn [final_pages] in H.
    - injection H as <- <-. exists []. split; [reflexivity|constructor].
    - destruct (final_blocks _ _ _ _ _ _ _ _ _ _ _) as [[[bs labels1] lhx]| |] eqn:E4 in H; try discriminate. cbn [obind] in H.
      destruct (final_pages _ _ _ _ _ _ _ _ _ _) as [[rest lhy]| |] eqn:E5 in H; try discriminate. cbn [obind] in H. injection H as <- <-.
      cbn [map concat] in ND, E1 |- *. set (pre := concat segs) in *.
      assert (ND1 : NoDup (block_lines [] ++ block_lines pre)).
      { apply NoDup_app_r in ND. exact (NoDup_app_l _ _ ND). }
      destruct (final_blocks_frame lh0 fuel _ _ _ _ _ _ _ E4 SA (inv_nil _ _ _ _ _) ND1) as (A & B & C & D & _).
      assert (ND2 : NoDup (all_lines t)) by (apply NoDup_app_r, NoDup_app_r in ND; exact ND).
      destruct (final_pages_frame lh0 fuel _ _ _ _ _ E5 A ND2) as (_ & _ & FR & _).
      assert (EB : forall j, In j (block_lines pre) -> lhE j = lhx j).
      { intros j Hj. rewrite (E1 j) by (apply in_or_app; left; exact Hj). apply FR. intros X. apply NoDup_app_r in ND. apply (NoDup_app_disj _ _ j ND Hj X). }
      destruct (final_blocks_splits lh0 lh1 lhE fuel pre dn labels [] lhc bs labels1 lhx E4 SA (inv_nil _ _ _ _ _) ND1) as (gss & F1 & F2).
      + rewrite app_assoc in ND. apply (NoDup_app_l _ _ ND).
      + exact EB.
      + exact E2.
      + exact E3.
      + exact EL.
      + destruct (IH (dn ++ block_lines pre) labels1 lhx rest lhy E5 A) as (gss2 & X1 & X2).
        * rewrite <- app_assoc. exact ND.
        * intros j Hj. apply E1, in_or_app. right. exact Hj.
        * intros j Hj. apply in_app_or in Hj as [Hj|Hj]; [|apply EB, Hj]. rewrite (E2 j Hj). symmetry. apply C. intros X.
          apply (NoDup_app_disj _ _ j ND Hj). apply in_or_app. left. exact X.
        * intros j Hj. rewrite C by (intros X; apply Hj, in_or_app; right; exact X). apply E3. intros X. apply Hj, in_or_app. left. exact X.
        * rewrite D, EL, labels_in_app. reflexivity.
        * exists (gss ++ gss2). rewrite F1. cbn [map app]. rewrite X1, concat_app. split; [reflexivity|]. apply all_splits_app; assumption.
  Qed.
End P.
