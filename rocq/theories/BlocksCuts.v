(** BlocksCuts.v - where the blocks begin and end: the lemmas behind C33 and C34. *)
From Coq Require Import ZArith NArith.
From Verif Require Import Base Double MathUtils Elements Counter UtilsSpec TextUtils Document LinesSpec Blocks BlocksSpec BlocksProofs BlocksPasses BlocksRules BlocksDefined.
Local Open Scope nat_scope.
Local Opaque TOL dZ dadd dsub ddiv dmul dec DBL_MAX DBL_MIN.

(** ** Lists without duplicates *)
Lemma nodup_cut {A} (a : A) : forall x y x' y', NoDup (x ++ a :: y) -> x ++ a :: y = x' ++ a :: y' -> x = x' /\ y = y'.
Proof.
  induction x as [|c x IH]; intros y [|d x'] y' ND E; cbn [app] in *.
  - injection E as <-. split; reflexivity.
  - injection E as -> ->. exfalso. inversion ND as [|? ? N _]; subst. apply N. apply in_mid.
  - injection E as -> <-. exfalso. inversion ND as [|? ? N _]; subst. apply N. apply in_mid.
  - injection E as -> E. inversion ND as [|? ? _ D]; subst. destruct (IH y x' y' D E) as [-> ->]. split; reflexivity.
Qed.
Lemma nodup_group {A} (a : A) : forall L1 x y L2 L1' x' y' L2', NoDup (concat (L1 ++ (x ++ a :: y) :: L2)) ->
  L1 ++ (x ++ a :: y) :: L2 = L1' ++ (x' ++ a :: y') :: L2' -> L1 = L1' /\ x = x' /\ y = y' /\ L2 = L2'.
Proof.
  induction L1 as [|g L1 IH]; intros x y L2 [|g' L1'] x' y' L2' ND E; cbn [app concat] in *.
  - injection E as E ->. destruct (nodup_cut a x y x' y' (NoDup_app_l _ _ ND) E) as [-> ->]. repeat split.
  - exfalso. injection E as <- ->. apply (NoDup_app_disj _ _ a ND); [apply in_mid|]. rewrite concat_app. apply in_or_app. right. cbn [concat]. apply in_or_app. left. apply in_mid.
  - exfalso. injection E as -> E. apply (NoDup_app_disj _ _ a ND); [apply in_mid|]. rewrite concat_app. apply in_or_app. right. cbn [concat]. apply in_or_app. left. apply in_mid.
  - injection E as <- E. destruct (IH x y L2 L1' x' y' L2' (NoDup_app_r _ _ ND) E) as (-> & -> & -> & ->). repeat split.
Qed.
Lemma in_concat_group {A} (a : A) L : In a (concat L) -> exists L1 x y L2, L = L1 ++ (x ++ a :: y) :: L2.
Proof.
  intros H. apply in_concat in H as (g & Hg & Ha). apply in_split in Hg as (L1 & L2 & ->). apply in_split in Ha as (x & y & ->). exists L1, x, y, L2. reflexivity.
Qed.
Lemma map_split {A B} (f : A -> B) : forall l x y, map f l = x ++ y -> exists l1 l2, l = l1 ++ l2 /\ map f l1 = x /\ map f l2 = y.
Proof.
  intros l x. revert l. induction x as [|b x IH]; intros l y E; [exists [], l; repeat split; exact E|].
  destruct l as [|a l]; [discriminate|]. cbn [map app] in E. injection E as <- E. destruct (IH l y E) as (l1 & l2 & -> & <- & <-). exists (a :: l1), l2. repeat split.
Qed.

Section P.
  Context (ordS : list (str * N) -> list (str * N)) (ordD : list (double * N) -> list (double * N)).
  Context (absd : double -> double) (label_regex : str -> bool) (h : heap) (doc : bdoc).
  Context (HS : forall m, Permutation m (ordS m)) (HD : forall m, Permutation m (ordD m)).
  Notation Inv := (inv absd h doc).

  Lemma all_splits_at fuel lh0 lh1 lhE : forall P1 dn gss pb P2, all_splits absd label_regex h doc fuel lh0 lh1 lhE dn (P1 ++ pb :: P2) gss ->
    exists g1 gs g2, gss = g1 ++ gs :: g2 /\ concat (concat g1) = block_lines P1 /\
      splits (dec2 absd label_regex h doc fuel lh0 lh1 lhE pb) (dn ++ block_lines P1) [] (tb_lines pb) gs.
  Proof.
    induction P1 as [|q P1 IH]; intros dn gss pb P2 H; cbn [app] in H; inversion H as [|? ? ? gs gss' SP R]; subst.
    - exists [], gs, gss'. split; [reflexivity|]. split; [reflexivity|]. unfold block_lines. cbn [map concat]. rewrite app_nil_r. exact SP.
    - destruct (IH _ _ _ _ R) as (g1 & gs' & g2 & -> & E & SP'). exists (gs :: g1), gs', g2. split; [reflexivity|]. cbn [concat]. rewrite concat_app, E.
      destruct (splits_spec _ _ _ _ _ SP) as (C & _). rewrite C. split; [reflexivity|].
      change (block_lines (q :: P1)) with (tb_lines q ++ block_lines P1). rewrite app_assoc. exact SP'.
  Qed.

  Section Run.
    Context (fuel : nat) (pages : list (list (list nat))) (lh lh' : lheap) (pre : list (list (list tblock))) (fin : list (list tblock)).
    Context (ND : NoDup (concat (map (@concat nat) pages))).
    Context (RUN : detectTextBlocks ordS ordD absd label_regex h doc fuel pages lh = Ok (pre, fin, lh')).

    Lemma detect_spec : exists lh1, same_all lh lh1 /\ Forall (Forall (Inv lh lh1)) pre /\ (forall j, ~ In j (concat (map (@concat nat) pages)) -> lh1 j = lh j) /\
      Forall2 (Forall2 (fun ls bs => block_lines bs = ls /\ Forall (fun b => tb_lines b <> []) bs /\
        (neighbours lh ls -> forall dn, splits (dec1 doc lh) dn [] ls (map tb_lines bs)))) pages pre /\
      same_all lh lh' /\ Forall (Inv lh lh') fin /\ (forall j, ~ In j (concat (map (@concat nat) pages)) -> lh' j = lh j) /\
      Forall2 (fun segs bs => exists gss, map tb_lines bs = concat gss /\
        Forall2 (fun b gs => concat gs = tb_lines b /\ Forall (fun g => g <> []) gs) (concat segs) gss) pre fin /\
      exists gss, concat (map (map tb_lines) fin) = concat gss /\
        all_splits absd label_regex h doc fuel lh lh1 lh' [] (concat (map (@concat tblock) pre)) gss.
    Proof.
      unfold detectTextBlocks in RUN. destruct (prelim_pages ordS ordD absd h doc pages lh) as [[pre' lh1]| |] eqn:E1; try discriminate. cbn [obind] in RUN.
      destruct (final_pages ordS ordD absd label_regex h doc fuel pre' [] lh1) as [[fin' lh2]| |] eqn:E2; try discriminate. cbn [obind] in RUN.
      assert (X : pre' = pre /\ fin' = fin /\ lh2 = lh') by (clear -RUN; inversion RUN; repeat split). destruct X as (-> & -> & ->).
      destruct (prelim_pages_spec ordS ordD absd h doc HS HD lh pages lh pre lh1 E1 (sa_refl _) ND (fun _ _ => eq_refl)) as (A & B & C & D).
      pose proof (prelim_all_lines _ _ _ D) as AL.
      assert (ND' : NoDup (concat (map (fun segs => block_lines (concat segs)) pre))) by (rewrite AL; exact ND).
      destruct (final_pages_frame ordS ordD absd label_regex h doc HS HD lh fuel pre [] lh1 fin lh' E2 A ND') as (A' & B' & C' & D').
      rewrite AL in C'.
      destruct (final_pages_splits ordS ordD absd label_regex h doc HS HD lh lh1 lh' fuel pre [] [] lh1 fin lh' E2 A ND' (fun _ _ => eq_refl)) as (gss & G1 & G2).
      - intros j [].
      - reflexivity.
      - reflexivity.
      - exists lh1. split; [exact A|]. split; [exact B|]. split; [exact C|]. split; [exact D|]. split; [exact A'|]. split; [exact B'|].
        split; [|split; [exact D'|exists gss; split; assumption]]. intros j Hj. rewrite (C' j Hj). apply C, Hj.
    Qed.

    Lemma all_pre_lines : block_lines (concat (map (@concat tblock) pre)) = concat (map (@concat nat) pages).
    Proof.
      destruct detect_spec as (lh1 & _ & _ & _ & D & _). rewrite <- (prelim_all_lines _ _ _ D). clear.
      induction pre as [|s t IH]; [reflexivity|]. cbn [map concat]. rewrite block_lines_app, IH. reflexivity.
    Qed.

    (** The first pass. *)
    Lemma preliminary_cut i j segs ls bss bs blk x y a b :
      nth_error pages i = Some segs -> nth_error segs j = Some ls -> nth_error pre i = Some bss -> nth_error bss j = Some bs ->
      neighbours lh ls -> consecutive a b ls -> In blk bs -> tb_lines blk = x ++ a :: y ->
      startsPreliminaryBlock doc lh (lh b) = Ok (is_nil y).
    Proof.
      intros H1 H2 H3 H4 NB (u & v & EL) HB E. destruct detect_spec as (lh1 & _ & _ & _ & D & _).
      assert (ND1 : NoDup ls).
      { apply nth_error_In in H1, H2. apply in_split in H1 as (p1 & p2 & ->). rewrite map_app, concat_app in ND. apply NoDup_app_r in ND. cbn [map concat] in ND.
        apply NoDup_app_l in ND. apply in_split in H2 as (s1 & s2 & ->). rewrite concat_app in ND. apply NoDup_app_r in ND. exact (NoDup_app_l _ _ ND). }
      assert (Q : block_lines bs = ls /\ Forall (fun b => tb_lines b <> []) bs /\ (neighbours lh ls -> forall dn, splits (dec1 doc lh) dn [] ls (map tb_lines bs))).
      { assert (F2 : forall (i : nat) X Y, nth_error pages i = Some X -> nth_error pre i = Some Y -> Forall2 (fun ls bs => block_lines bs = ls /\ Forall (fun b => tb_lines b <> []) bs /\
            (neighbours lh ls -> forall dn, splits (dec1 doc lh) dn [] ls (map tb_lines bs))) X Y).
        { clear -D. induction D; intros [|i] X Y E1 E2; try discriminate; cbn [nth_error] in *.
          - injection E1 as <-. injection E2 as <-. assumption.
          - eapply IHD; eassumption. }
        specialize (F2 i segs bss H1 H3). clear -F2 H2 H4. revert j H2 H4. induction F2; intros [|j] E1 E2; try discriminate; cbn [nth_error] in *.
        - injection E1 as <-. injection E2 as <-. assumption.
        - eapply IHF2; eassumption. }
      destruct Q as (QL & _ & QS). specialize (QS NB []).
      destruct (splits_spec _ _ _ _ _ QS) as (C & _ & _ & S4). apply in_split in HB as (b1 & b2 & EB).
      assert (EG : map tb_lines bs = map tb_lines b1 ++ (x ++ a :: y) :: map tb_lines b2) by (rewrite EB, map_app; cbn [map]; rewrite E; reflexivity).
      cbn [app] in C. pose proof C as C'. rewrite EG, concat_app in C'. cbn [concat] in C'.
      rewrite <- app_assoc in C'. cbn [app] in C'. rewrite EL, app_assoc in C'. symmetry in C'.
      assert (ND2 := ND1). rewrite EL in ND2. destruct (nodup_cut a _ _ _ _ ND2 C') as [EU EV].
      refine (S4 (map tb_lines b1) x a y (map tb_lines b2) b v EG _ _).
      - rewrite C, EL, EU, <- app_assoc. reflexivity.
      - cbn [length]. rewrite !app_length. cbn [length]. lia.
    Qed.

    (** The second pass; [lh1]: the lines after the first pass. *)
    Lemma final_cut : exists lh1, same_all lh lh1 /\ Forall (Forall (Inv lh lh1)) pre /\
      forall P1 pb P2 u a b v B1 blk B2 x y,
        concat (map (@concat tblock) pre) = P1 ++ pb :: P2 -> tb_lines pb = u ++ a :: b :: v ->
        concat fin = B1 ++ blk :: B2 -> tb_lines blk = x ++ a :: y ->
        let dn := block_lines B1 in
        ~ In a dn /\ ~ In b dn /\ bl_prev (lh1 b) = Some a /\
        startsBlock absd label_regex h doc fuel (mixed dn lh1 lh') (labels_in h lh (dn ++ x ++ [a; b])) pb (lh1 b) = Ok (is_nil y).
    Proof.
      destruct detect_spec as (lh1 & A & B & _ & D & _ & _ & _ & _ & gss & G1 & G2). exists lh1. split; [exact A|]. split; [exact B|].
      intros P1 pb P2 u a b v B1 blk B2 x y E1 E2 E3 E4 dn.
      pose proof all_pre_lines as AL. rewrite E1 in G2, AL. destruct (all_splits_at _ _ _ _ _ _ _ _ _ G2) as (g1 & gs & g2 & EG & C1 & SP). cbn [app] in SP.
      destruct (splits_spec _ _ _ _ _ SP) as (C2 & _ & _ & S4). cbn [app] in C2.
      assert (EF : map tb_lines (concat fin) = concat g1 ++ gs ++ concat g2).
      { rewrite concat_map, G1, EG, concat_app. reflexivity. }
      rewrite E3, map_app in EF. cbn [map] in EF. rewrite E4 in EF.
      assert (NDF : NoDup (concat (map tb_lines B1 ++ (x ++ a :: y) :: map tb_lines B2))).
      { rewrite EF. rewrite concat_app, C1, concat_app, C2. 
        assert (Z : concat (concat g2) = block_lines P2).
        { clear -G2 EG C1 C2. rewrite EG in G2. clear EG. assert (W : forall g P dn, all_splits absd label_regex h doc fuel lh lh1 lh' dn P g -> concat (concat g) = block_lines P).
          { clear. induction g as [|x g IH]; intros P dn H; inversion H as [|? ? ? ? ? SP R]; subst; [reflexivity|]. cbn [concat]. rewrite concat_app, (IH _ _ R).
            destruct (splits_spec _ _ _ _ _ SP) as (-> & _). reflexivity. }
          specialize (W _ _ _ G2). rewrite concat_app in W. rewrite concat_app in W. cbn [concat] in W. rewrite concat_app, C1, C2, block_lines_app in W. apply app_inv_head in W.
          change (block_lines (pb :: P2)) with (tb_lines pb ++ block_lines P2) in W. apply app_inv_head in W. exact W. }
        rewrite Z. rewrite block_lines_app in AL. change (block_lines (pb :: P2)) with (tb_lines pb ++ block_lines P2) in AL. rewrite AL. exact ND. }
      assert (Ha : In a (concat gs)) by (rewrite C2, E2; apply in_mid).
      destruct (in_concat_group a gs Ha) as (h1 & x' & y' & h2 & EH).
      assert (EF' : map tb_lines B1 ++ (x ++ a :: y) :: map tb_lines B2 = (concat g1 ++ h1) ++ (x' ++ a :: y') :: (h2 ++ concat g2)).
      { rewrite EF, EH, <- !app_assoc. reflexivity. }
      destruct (nodup_group a _ _ _ _ _ _ _ _ NDF EF') as (EB & <- & <- & _).
      assert (ED : dn = block_lines P1 ++ concat h1).
      { unfold dn, block_lines. rewrite EB, concat_app, C1. reflexivity. }
      assert (CU : concat h1 ++ x = u /\ y ++ concat h2 = b :: v).
      { rewrite EH, concat_app in C2. cbn [concat] in C2. rewrite <- app_assoc in C2. cbn [app] in C2. rewrite app_assoc, E2 in C2. symmetry in C2. apply nodup_cut in C2.
        - destruct C2 as [<- <-]. split; reflexivity.
        - rewrite <- E2. rewrite block_lines_app in AL. change (block_lines (pb :: P2)) with (tb_lines pb ++ block_lines P2) in AL.
          rewrite <- AL in ND. apply NoDup_app_r in ND. exact (NoDup_app_l _ _ ND). }
      destruct CU as [CU CV].
      assert (DEC := S4 h1 x a y h2 b v EH).
      rewrite C2, E2, <- CU, <- app_assoc in DEC. specialize (DEC eq_refl). cbn [length] in DEC.
      assert (LL : 0 < length (concat h1 ++ x ++ [a; b])) by (rewrite !app_length; cbn [length]; lia). specialize (DEC LL). clear LL.
      unfold dec2 in DEC. rewrite <- ED in DEC.
      replace ((block_lines P1 ++ concat h1 ++ x ++ [a]) ++ [b]) with (dn ++ x ++ [a; b]) in DEC by (rewrite ED, <- !app_assoc; reflexivity).
      assert (ND3 : NoDup (dn ++ x ++ a :: b :: v)).
      { rewrite ED, <- app_assoc. rewrite (app_assoc (concat h1)), CU, <- E2. rewrite block_lines_app in AL. change (block_lines (pb :: P2)) with (tb_lines pb ++ block_lines P2) in AL.
        rewrite <- AL, app_assoc in ND. exact (NoDup_app_l _ _ ND). }
      assert (Na : ~ In a dn) by (intros X; apply (NoDup_app_disj _ _ a ND3 X), in_mid).
      assert (Nb : ~ In b dn) by (intros X; apply (NoDup_app_disj _ _ b ND3 X); apply in_or_app; right; right; left; reflexivity).
      rewrite (mixed_out _ _ _ _ Nb) in DEC. split; [exact Na|]. split; [exact Nb|]. split; [|exact DEC].
      assert (HP : In pb (concat (map (@concat tblock) pre))) by (rewrite E1; apply in_mid).
      apply in_concat in HP as (q & Hq & HP). apply in_map_iff in Hq as (segs & <- & Hs). apply in_concat in HP as (bs & Hbs & HP).
      pose proof (proj1 (Forall_forall _ _) (proj1 (Forall_forall _ _) B segs Hs) bs Hbs) as [_ IP _]. apply In_nth_error in HP as (i & Hi).
      destruct (IP i pb (S (length u)) b Hi) as (IPr & _).
      - rewrite E2. rewrite nth_error_app2, Nat.sub_succ_l, Nat.sub_diag by lia. reflexivity.
      - rewrite IPr. cbn [elem_before]. rewrite E2, nth_error_app2, Nat.sub_diag by lia. reflexivity.
    Qed.
  End Run.

End P.

(** ** Footnote labels *)
Definition label_charb (c : character) : bool :=
  match c_text c with [] => false | b :: _ => mem_ascii b specialFootnoteLabelsAlphabet || (c_isSuper c && isalnum b) end.
Lemma label_charb_spec c : label_charb c = true <-> label_char c.
Proof.
  unfold label_charb, label_char. destruct (c_text c) as [|b r]; [split; [discriminate|intros (b & r & E & _); discriminate]|].
  assert (X : In b specialFootnoteLabelsAlphabet <-> In (nat_of_ascii b) FOOTNOTE_BYTES).
  { assert (M : map nat_of_ascii specialFootnoteLabelsAlphabet = FOOTNOTE_BYTES) by reflexivity. rewrite <- M, in_map_iff. split.
    - intros H. exists b. split; [reflexivity|exact H].
    - intros (c' & E & H). apply (f_equal ascii_of_nat) in E. rewrite !ascii_nat_embedding in E. subst c'. exact H. }
  assert (Y : isalnum b = true <-> letter b \/ 48 <= nat_of_ascii b <= 57).
  { unfold isalnum, isdigit. rewrite orb_true_iff, isupper_letter, andb_true_iff, !Nat.leb_le. reflexivity. }
  rewrite orb_true_iff, andb_true_iff, mem_ascii_In, X, Y. split.
  - intros H. exists b, r. split; [reflexivity|exact H].
  - intros (b' & r' & E & H). injection E as <- <-. exact H.
Qed.
Lemma concat_nonempty run : run <> [] -> (forall r, In r run -> label_char r) -> concat (map c_text run) <> [].
Proof.
  destruct run as [|c t]; [congruence|]. intros _ H. destruct (H c (or_introl eq_refl)) as (b & r & E & _). cbn [map concat]. rewrite E. discriminate.
Qed.
Definition maximal (l run : list character) : Prop := exists pre post, l = pre ++ run ++ post /\ run <> [] /\ (forall r, In r run -> label_char r) /\
  (pre = [] \/ exists p d, pre = p ++ [d] /\ ~ label_char d) /\ (post = [] \/ exists d p, post = d :: p /\ ~ label_char d).
Lemma maximal_all run0 run : (forall r, In r run0 -> label_char r) -> (maximal run0 run <-> run0 <> [] /\ run = run0).
Proof.
  intros A. split.
  - intros (pre & post & E & N & L & [->|(p & d & -> & Nd)] & Q).
    + destruct Q as [->|(d & p & -> & Nd)].
      * rewrite app_nil_r in E. cbn [app] in E. rewrite E. split; [exact N|reflexivity].
      * exfalso. apply Nd, A. rewrite E. apply in_or_app. right. apply in_or_app. right. left. reflexivity.
    + exfalso. apply Nd, A. rewrite E. apply in_or_app. left. apply in_or_app. right. left. reflexivity.
  - intros [N ->]. exists [], []. rewrite app_nil_r. split; [reflexivity|]. split; [exact N|]. split; [exact A|]. split; left; reflexivity.
Qed.
Lemma maximal_cut run0 c t run : (forall r, In r run0 -> label_char r) -> ~ label_char c ->
  (maximal (run0 ++ c :: t) run <-> (run0 <> [] /\ run = run0) \/ maximal t run).
Proof.
  intros A NC. split.
  - intros (pre & post & E & N & L & P & Q). symmetry in E. apply app_eq_app in E as (l & [[E1 E2]|[E1 E2]]).
    + destruct l as [|d l].
      * destruct run as [|r run]; [congruence|]. cbn [app] in E2. injection E2 as -> _. destruct (NC (L r (or_introl eq_refl))).
      * cbn [app] in E2. injection E2 as <- E2. right. exists l, post. split; [exact E2|]. split; [exact N|]. split; [exact L|]. split; [|exact Q].
        destruct (snoc_cases l) as [->|(l' & z & ->)]; [left; reflexivity|right]. exists l', z. split; [reflexivity|]. destruct P as [->|(p & d & EP & Nd)].
        -- destruct run0; discriminate.
        -- rewrite EP in E1. replace (run0 ++ c :: l' ++ [z]) with ((run0 ++ c :: l') ++ [z]) in E1 by (rewrite <- app_assoc; reflexivity).
           apply app_inj_tail in E1 as [_ ->]. exact Nd.
    + assert (EP : pre = []).
      { destruct P as [->|(p & d & -> & Nd)]; [reflexivity|]. exfalso. apply Nd, A. rewrite E1. apply in_or_app. left. apply in_or_app. right. left. reflexivity. }
      subst pre. cbn [app] in E1. subst l. apply app_eq_app in E2 as (m & [[E2 E3]|[E2 E3]]).
      * destruct m as [|d m].
        -- rewrite app_nil_r in E2. left. split; [congruence|exact E2].
        -- cbn [app] in E3. injection E3 as <- E3. exfalso. apply NC, L. rewrite E2. apply in_mid.
      * destruct m as [|d m].
        -- rewrite app_nil_r in E2. left. split; congruence.
        -- exfalso. destruct Q as [->|(d' & p & -> & Nd)]; [discriminate|]. cbn [app] in E3. injection E3 as -> _. apply Nd, A. rewrite E2. apply in_mid.
  - intros [[N ->]|(pre & post & -> & N & L & P & Q)].
    + exists [], (c :: t). split; [reflexivity|]. split; [exact N|]. split; [exact A|]. split; [left; reflexivity|right; exists c, t; split; [reflexivity|exact NC]].
    + exists (run0 ++ c :: pre), post. split; [rewrite <- app_assoc; reflexivity|]. split; [exact N|]. split; [exact L|]. split; [|exact Q]. right.
      destruct P as [->|(p & d & -> & Nd)]; [exists run0, c; split; [reflexivity|exact NC]|exists (run0 ++ c :: p), d; split; [rewrite <- app_assoc; reflexivity|exact Nd]].
Qed.
Lemma word_labels_seen lab : forall cs run0, (forall r, In r run0 -> label_char r) ->
  (In lab (word_labels cs (concat (map c_text run0)) true) <-> exists run, maximal (run0 ++ filter with_text cs) run /\ lab = concat (map c_text run)).
Proof.
  assert (X : forall run0, (forall r, In r run0 -> label_char r) -> run0 <> [] -> match concat (map c_text run0) with [] => False | _ :: _ => True end).
  { intros run0 A N. pose proof (concat_nonempty run0 N A). destruct (concat (map c_text run0)); [congruence|exact I]. }
  induction cs as [|c cs IH]; intros run0 A; cbn [word_labels filter].
  - rewrite app_nil_r. split.
    + intros H. exists run0. destruct run0 as [|r0 run0]; [destruct H|]. specialize (X _ A ltac:(discriminate)).
      split; [apply (maximal_all _ _ A); split; [discriminate|reflexivity]|]. destruct (concat _); [destruct X|]. destruct H as [<-|[]]. reflexivity.
    + intros (run & M & ->). apply (maximal_all _ _ A) in M as [N ->]. specialize (X _ A N). destruct (concat _); [destruct X|left; reflexivity].
  - cbn [negb andb]. unfold with_text at 1. destruct (c_text c) as [|b r] eqn:ET; [apply IH, A|].
    assert (LC : mem_ascii b specialFootnoteLabelsAlphabet || (c_isSuper c && isalnum b) = label_charb c) by (unfold label_charb; rewrite ET; reflexivity). rewrite LC.
    destruct (label_charb c) eqn:EL.
    + apply label_charb_spec in EL. specialize (IH (run0 ++ [c])). rewrite map_app, concat_app in IH. cbn [map concat] in IH. rewrite ET, app_nil_r, <- app_assoc in IH.
      apply IH. intros x Hx. apply in_app_or in Hx as [Hx|[<-|[]]]; [apply A, Hx|exact EL].
    + assert (NC : ~ label_char c) by (rewrite <- label_charb_spec; congruence).
      assert (IH0 := IH [] (fun r (F : In r []) => match F with end)). cbn [map concat app] in IH0.
      transitivity ((run0 <> [] /\ lab = concat (map c_text run0)) \/ In lab (word_labels cs [] true)).
      * destruct run0 as [|r0 run0]; [cbn [map concat]; split; [intros H; right; exact H|intros [[N _]|H]; [congruence|exact H]]|].
        specialize (X _ A ltac:(discriminate)). destruct (concat _); [destruct X|]. cbn [In]. split.
        -- intros [<-|H]; [left; split; [discriminate|reflexivity]|right; exact H].
        -- intros [[_ ->]|H]; [left; reflexivity|right; exact H].
      * rewrite IH0. split.
        -- intros [[N ->]|(run & M & ->)]; [exists run0|exists run]; (split; [|reflexivity]); apply (maximal_cut _ _ _ _ A NC); [left|right; exact M]. split; [exact N|reflexivity].
        -- intros (run & M & ->). apply (maximal_cut _ _ _ _ A NC) in M as [[N ->]|M]; [left; split; [exact N|reflexivity]|right; exists run; split; [exact M|reflexivity]].
Qed.
Lemma word_labels_spec cs lab : In lab (word_labels cs [] false) <-> label_of cs lab.
Proof.
  unfold label_of. induction cs as [|c cs IH]; cbn [word_labels].
  - split; [intros []|]. intros ([|s ss] & c & rest & _ & _ & _ & E & _); discriminate.
  - cbn [negb andb]. destruct (negb (c_isSub c) && negb (c_isSuper c)) eqn:EP.
    + apply andb_true_iff in EP as [E1 E2]. apply negb_true_iff in E1, E2. pose proof (word_labels_seen lab cs [] (fun r (F : In r []) => match F with end)) as W.
      cbn [map concat app] in W. rewrite W. split.
      * intros (run & (pre & post & F1 & F2 & F3 & F4 & F5) & ->). exists [], c, cs, pre, run, post. repeat (split; [first [reflexivity|assumption|intros s []]|]). reflexivity.
      * intros ([|s ss] & d & rest & pre & run & post & E & SA & D1 & D2 & F1 & F2 & F3 & F4 & F5 & F6); cbn [app] in E.
        -- injection E as -> ->. exists run. split; [exists pre, post; repeat (split; [assumption|]); assumption|exact F6].
        -- exfalso. injection E as -> _. destruct (SA s (or_introl eq_refl)); congruence.
    + assert (SC : c_isSub c = true \/ c_isSuper c = true) by (destruct (c_isSub c), (c_isSuper c); try discriminate; [left|left|right]; reflexivity).
      rewrite IH. split.
      * intros (ss & d & rest & pre & run & post & -> & SA & R). exists (c :: ss), d, rest, pre, run, post. split; [reflexivity|]. split; [|exact R].
        intros s [<-|Hs]; [exact SC|apply SA, Hs].
      * intros ([|s ss] & d & rest & pre & run & post & E & SA & D1 & D2 & R); cbn [app] in E; injection E as -> ->.
        -- exfalso. destruct SC; congruence.
        -- exists ss, d, rest, pre, run, post. split; [reflexivity|]. split; [intros s' Hs; apply SA; right; exact Hs|]. split; [exact D1|]. split; [exact D2|exact R].
Qed.
