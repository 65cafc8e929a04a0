(** WordsProofs.v - proofs about words and stacked math symbols. *)
From Coq Require Import ZArith NArith.
From Verif Require Import Base Double DoubleFacts MathUtils MathUtilsProofs Elements Counter CounterProofs UtilsSpec Document Words Grouping
  WordsSpec DiacriticsProofs.
Local Open Scope nat_scope.
Local Opaque TOL dZ dadd dsub ddiv dmul dec DBL_MAX DBL_MIN.

(** ** Positions up to the page number *)
Definition eqpos (p q : position) : Prop :=
  leftX p = leftX q /\ upperY p = upperY q /\ rightX p = rightX q /\ lowerY p = lowerY q /\ rotation p = rotation q /\ wMode p = wMode q.
Lemma eqpos_y p q q' : eqpos q q' -> computeMaxYOverlapRatio p q = computeMaxYOverlapRatio p q'.
Proof. destruct q as [n0 x0 y0 x1 y1 r0 m0], q' as [n0' x0' y0' x1' y1' r0' m0']. unfold eqpos. cbn [leftX upperY rightX lowerY rotation wMode]. intros (-> & -> & -> & -> & -> & ->). reflexivity. Qed.
Lemma eqpos_hr p q q' : eqpos q q' -> computeHorizontalGap p q = computeHorizontalGap p q'.
Proof. destruct q as [n0 x0 y0 x1 y1 r0 m0], q' as [n0' x0' y0' x1' y1' r0' m0']. unfold eqpos. cbn [leftX upperY rightX lowerY rotation wMode]. intros (-> & -> & -> & -> & -> & ->). unfold computeHorizontalGap. cbn [leftX]. destruct (smaller _ _ TOL); reflexivity. Qed.
Lemma eqpos_hl p q q' : eqpos q q' -> computeHorizontalGap q p = computeHorizontalGap q' p.
Proof. destruct q as [n0 x0 y0 x1 y1 r0 m0], q' as [n0' x0' y0' x1' y1' r0' m0']. unfold eqpos. cbn [leftX upperY rightX lowerY rotation wMode]. intros (-> & -> & -> & -> & -> & ->). unfold computeHorizontalGap. cbn [leftX]. destruct (smaller _ _ TOL); reflexivity. Qed.

Definition represents (a : active) (g : list character) : Prop :=
  a_chars a = g /\ (g <> [] -> eqpos (a_pos a) (group_box g)) /\ a_fontSize a = group_size g /\
  leftX (a_pos a) = leftX (bbox (map c_pos g)) /\ upperY (a_pos a) = upperY (bbox (map c_pos g)) /\
  rightX (a_pos a) = rightX (bbox (map c_pos g)) /\ lowerY (a_pos a) = lowerY (bbox (map c_pos g)).
Lemma represents_reset n : represents (reset n) [].
Proof. split; [reflexivity|]. split; [congruence|]. repeat split. Qed.
Lemma represents_append a g c : represents a g -> represents (append_char a c) (g ++ [c]).
Proof.
  intros (E1 & E2 & E3 & E4 & E5 & E6 & E7). unfold represents, append_char, group_size, bbox in *. cbn [a_chars a_pos a_fontSize leftX upperY rightX lowerY].
  rewrite !map_app, !fold_left_app. cbn [map fold_left bbox_add leftX upperY rightX lowerY]. rewrite E1, E3, E4, E5, E6, E7.
  split; [reflexivity|]. split; [|repeat split]. intros _.
  unfold group_box, eqpos, bbox. rewrite rev_app_distr. cbn [rev app leftX upperY rightX lowerY rotation wMode].
  rewrite map_app, fold_left_app. cbn [map fold_left bbox_add leftX upperY rightX lowerY]. repeat split.
Qed.

Section W.
  Context (ordS : list (str * N) -> list (str * N)) (ordD : list (double * N) -> list (double * N)) (new_id : Z -> str).
  Context (cfg : words_config).
  Context (HS : forall m, Permutation m (ordS m)) (HD : forall m, Permutation m (ordD m)).

  Lemma starts_break a g c : represents a g -> g <> [] -> startsWord cfg a c = word_break cfg g c.
  Proof.
    intros (E1 & E2 & E3 & _) NE. specialize (E2 NE). unfold startsWord, word_break, hgap_threshold. rewrite E1, E3.
    destruct g as [|g0 g]; [congruence|]. rewrite (eqpos_y _ _ _ E2), (eqpos_hr _ _ _ E2), (eqpos_hl _ _ _ E2).
    destruct E2 as (_ & _ & _ & _ & -> & ->).
    destruct (negb (rotation (group_box (g0 :: g)) =? rotation (c_pos c))%Z); [reflexivity|].
    destruct (negb (wMode (group_box (g0 :: g)) =? wMode (c_pos c))%Z); [reflexivity|]. cbn [orb].
    destruct (smaller _ _ _); [reflexivity|]. cbn [orb]. destruct (larger _ _ _); [reflexivity|]. reflexivity.
  Qed.

  Lemma guarded_mostFreq {K} (eqb : K -> K -> bool) (k0 d : K) (m : list (K * N)) :
    exists k, (if (0 <? sumCounts m)%N then mostFreq k0 m else Ok d) = Ok k.
  Proof.
    destruct (N.ltb_spec 0 (sumCounts m)) as [P|P]; [|eauto].
    destruct (mostFreqAndCount_spec k0 m) as [(k & n & E & _)|[_ Z]].
    - exists k. unfold mostFreq. rewrite E. reflexivity.
    - exfalso. rewrite sumCounts_mod in P. assert (fold_right N.add 0%N (map snd m) = 0%N) as F.
      { clear P. induction m as [|e m IH]; [reflexivity|]. cbn. rewrite IH by (intros x Hx; apply Z; right; exact Hx).
        rewrite (Z e) by (left; reflexivity). reflexivity. }
      rewrite F in P. cbn in P. lia.
  Qed.

  Lemma createWord_ok rank g : g <> [] -> (forall c, In c g -> c_markOf c = None) ->
    exists w, createWord ordS ordD new_id rank g = Ok w /\ w_rank w = rank /\ w_id w = new_id rank /\ word_of g w.
  Proof.
    intros NE NM. unfold createWord. destruct g as [|c0 t] eqn:EG; [congruence|]. cbn iota. rewrite <- EG in NE, NM |- *.
    destruct (guarded_mostFreq str_eqb [] [] (ordS (count_all str_eqb (map c_fontName g)))) as [fn EF].
    destruct (guarded_mostFreq deq dzero (dopp done) (ordD (count_all deq (map c_fontSize g)))) as [fs ES].
    unfold mostFreqFontName, mostFreqFontSize. cbv zeta. rewrite EF, ES. cbn [obind].
    eexists. split; [reflexivity|]. cbn [w_rank w_id]. split; [reflexivity|]. split; [reflexivity|].
    unfold word_of. cbn [w_chars w_text w_pos w_fontName w_fontSize w_partOf w_parts w_first w_second pageNum leftX upperY rightX lowerY rotation wMode].
    split; [reflexivity|]. split.
    { f_equal. apply map_ext_in. intros c Hc. unfold char_text, shown_text. rewrite (NM c Hc). destruct (c_hasMark c); reflexivity. }
    split; [exists c0, t; rewrite EG; repeat split|].
    split; [reflexivity|]. split; [reflexivity|]. split; [reflexivity|]. split; [reflexivity|].
    split; [|repeat split]. intros LT.
    assert (MN : forall A B (f : A -> B) l, l <> [] -> map f l <> []) by (intros A B f [|? ?]; [congruence|discriminate]).
    assert (Hs : forall a b, str_eqb a b = true -> str_eqb b a = true).
    { intros a b H. apply str_eqb_eq in H. subst. apply str_eqb_refl. }
    assert (Ht : forall a b c, str_eqb a b = true -> str_eqb b c = true -> str_eqb a c = true).
    { intros a b c H1 H2. apply str_eqb_eq in H1, H2. subst. apply str_eqb_refl. }
    assert (LP : length g <> 0) by (rewrite EG; discriminate).
    assert (L1 : (N.of_nat (length (map c_fontName g)) < 2 ^ 32)%N) by (rewrite map_length; exact LT).
    rewrite (sumCounts_counted str_eqb (map c_fontName g) _ L1 (HS _)), map_length in EF.
    destruct (N.ltb_spec 0 (N.of_nat (length g))) as [_|X] in EF; [|lia].
    destruct (mostFreq_counted str_eqb Hs Ht (map c_fontName g) [] _ (fun x _ => str_eqb_refl x) L1 (HS _)) as [_ R1].
    destruct (R1 (MN _ _ _ _ NE)) as (k & Ek & Ik & Mk). unfold mostFreq in EF. rewrite Ek in EF. cbn in EF. injection EF as ->.
    split; [exact Ik|]. split; [exact Mk|]. intros NN.
    assert (L2 : (N.of_nat (length (map c_fontSize g)) < 2 ^ 32)%N) by (rewrite map_length; exact LT).
    rewrite (sumCounts_counted deq (map c_fontSize g) _ L2 (HD _)), map_length in ES.
    destruct (N.ltb_spec 0 (N.of_nat (length g))) as [_|X] in ES; [|lia].
    assert (RF : forall x, In x (map c_fontSize g) -> deq x x = true).
    { intros x Hx. apply in_map_iff in Hx as (c & <- & Hc). apply deq_refl. exact (NN c Hc). }
    destruct (mostFreq_counted deq (fun a b H => eq_trans (deq_sym b a) H) deq_trans (map c_fontSize g) dzero _ RF L2 (HD _)) as [_ R2].
    destruct (R2 (MN _ _ _ _ NE)) as (k' & Ek' & Ik' & Mk'). unfold mostFreq in ES. rewrite Ek' in ES. cbn in ES. injection ES as ->.
    split; [exact Ik'|exact Mk'].
  Qed.

  Definition kept (cs : list character) : list character := filter (fun c => is_none (c_markOf c)) cs.
  (** the words [ws] with ranks from [n] on are made from the groups [gs] *)
  Definition words_of (n : nat) (gs : list (list character)) (ws : list word) : Prop :=
    Forall2 word_of gs ws /\ forall k w, nth_error ws k = Some w -> w_rank w = Z.of_nat (n + k).

  Lemma words_of_cons n g w gs ws : word_of g w -> w_rank w = Z.of_nat n -> words_of (S n) gs ws -> words_of n (g :: gs) (w :: ws).
  Proof.
    intros H R [H1 H2]. split; [constructor; assumption|]. intros [|k] x; cbn; intros Hx.
    - injection Hx as <-. rewrite R. f_equal. lia.
    - rewrite (H2 k x Hx). f_equal. lia.
  Qed.

  Lemma words_loop_ok pn : forall cs a g words, represents a g -> (forall c, In c g -> c_markOf c = None) ->
    exists a' words' ws, words_loop ordS ordD new_id cfg pn a words cs = Ok (a', words') /\ words' = words ++ ws /\
      exists g' gs, represents a' g' /\ (forall c, In c g' -> c_markOf c = None) /\ words_of (length words) gs ws /\
        group (word_break cfg) g (kept cs) = gs ++ (match g' with [] => [] | _ :: _ => [g'] end).
  Proof.
    induction cs as [|c t IH]; intros a g words R NM.
    - exists a, words, []. split; [reflexivity|]. split; [rewrite app_nil_r; reflexivity|]. exists g, []. split; [exact R|]. split; [exact NM|].
      split; [split; [constructor|intros [|k] w; discriminate]|]. reflexivity.
    - cbn [words_loop]. replace (kept (c :: t)) with (if is_none (c_markOf c) then c :: kept t else kept t) by reflexivity. destruct (c_markOf c) as [m|] eqn:EM; cbn [is_some is_none negb].
      + apply IH; assumption.
      + assert (NC : forall d, In d [c] -> c_markOf d = None) by (intros d [<-|[]]; exact EM).
        assert (EQ : startsWord cfg a c && negb (length (a_chars a) =? 0) = negb (length g =? 0) && word_break cfg g c).
        { destruct R as (E1 & R). rewrite E1. destruct g as [|g0 g]; [rewrite andb_false_r; reflexivity|].
          rewrite (starts_break a (g0 :: g) c); [|split; assumption|discriminate]. cbn [length Nat.eqb negb]. rewrite andb_true_r. reflexivity. }
        rewrite EQ. cbn [group]. destruct (negb (length g =? 0) && word_break cfg g c) eqn:B.
        * assert (NE : g <> []) by (destruct g; [discriminate|discriminate]).
          replace (a_chars a) with g by (symmetry; apply R).
          destruct (createWord_ok (Z.of_nat (length words)) g NE NM) as (w & EW & RW & _ & WO). rewrite EW. cbn [obind].
          destruct (IH (append_char (reset pn) c) [c] (words ++ [w])) as (a' & words' & ws & E1 & E2 & g' & gs & E3 & E4 & E5 & E6).
          { apply (represents_append _ []). apply represents_reset. }
          { exact NC. }
          exists a', words', (w :: ws). split; [exact E1|]. split; [rewrite E2, <- app_assoc; reflexivity|].
          exists g', (g :: gs). split; [exact E3|]. split; [exact E4|]. split; [|rewrite E6; reflexivity].
          apply words_of_cons; [exact WO|exact RW|]. rewrite app_length in E5. cbn [length] in E5. rewrite Nat.add_1_r in E5. exact E5.
        * apply IH; [apply represents_append, R|]. intros d Hd. apply in_app_or in Hd as [Hd|Hd]; auto.
  Qed.

  Lemma detectWords_ok pn words cs : exists ws gs, detectWords ordS ordD new_id cfg pn words cs = Ok (words ++ ws) /\
    is_grouping (word_break cfg) (kept cs) gs /\ words_of (length words) gs ws.
  Proof.
    unfold detectWords. destruct cs as [|c t] eqn:EC.
    - exists [], []. split; [rewrite app_nil_r; reflexivity|]. split; [apply (group_is_grouping (word_break cfg) [])|].
      split; [constructor|intros [|k] w; discriminate].
    - rewrite <- EC. clear EC c t.
      destruct (words_loop_ok pn cs (reset pn) [] words) as (a' & words' & ws & E1 & E2 & g' & gs & R & NM & W & EG).
      { apply represents_reset. } { intros c []. }
      rewrite E1. cbn [obind]. pose proof (group_is_grouping (word_break cfg) (kept cs)) as IG. rewrite EG in IG.
      replace (a_chars a') with g' by (symmetry; apply R). destruct g' as [|c t] eqn:EC.
      + exists ws, gs. rewrite app_nil_r in IG. split; [rewrite E2; reflexivity|]. split; assumption.
      + rewrite <- EC in *. assert (NE : g' <> []) by (rewrite EC; discriminate). clear EC c t.
        destruct (createWord_ok (Z.of_nat (length words')) g' NE NM) as (w & EW & RW & _ & WO). rewrite EW. cbn [obind].
        exists (ws ++ [w]), (gs ++ [g']). split; [rewrite E2, <- app_assoc; reflexivity|]. split; [exact IG|].
        destruct W as [W1 W2]. split; [apply Forall2_app; [exact W1|constructor; [exact WO|constructor]]|].
        intros k x Hx. destruct (Nat.ltb_spec k (length ws)) as [L|L].
        * rewrite nth_error_app1 in Hx by exact L. apply W2, Hx.
        * rewrite nth_error_app2 in Hx by exact L. destruct (k - length ws) as [|d] eqn:ED; [|destruct d; discriminate].
          cbn in Hx. injection Hx as <-. rewrite RW, E2, app_length. f_equal. lia.
  Qed.

  (** Groups are homogeneous. *)
  Lemma last_of (g : list character) c : group_box (g ++ [c]) = let b := bbox (map c_pos (g ++ [c])) in
    mkPos (pageNum b) (leftX b) (upperY b) (rightX b) (lowerY b) (rotation (c_pos c)) (wMode (c_pos c)).
  Proof. unfold group_box. rewrite rev_app_distr. reflexivity. Qed.
  Lemma homogeneous g : (forall pre c post, g = pre ++ c :: post -> pre <> [] -> word_break cfg pre c = false) ->
    forall c d, In c g -> In d g -> rotation (c_pos c) = rotation (c_pos d) /\ wMode (c_pos c) = wMode (c_pos d).
  Proof.
    induction g as [|x g IH] using rev_ind; intros H c d Hc Hd; [destruct Hc|].
    destruct g as [|y g] using rev_ind.
    - destruct Hc as [<-|[]], Hd as [<-|[]]. split; reflexivity.
    - clear IHg.
      assert (B : word_break cfg (g ++ [y]) x = false) by (apply (H (g ++ [y]) x []); [reflexivity|destruct g; discriminate]).
      unfold word_break in B. rewrite last_of in B. cbn [rotation wMode] in B.
      apply orb_false_iff in B as [B _]. apply orb_false_iff in B as [B _]. apply orb_false_iff in B as [B _].
      apply orb_false_iff in B as [B1 B2]. apply negb_false_iff in B1, B2. apply Z.eqb_eq in B1, B2.
      assert (IH' : forall c d, In c (g ++ [y]) -> In d (g ++ [y]) -> rotation (c_pos c) = rotation (c_pos d) /\ wMode (c_pos c) = wMode (c_pos d)).
      { apply IH. intros pre z post EQ P. apply (H pre z (post ++ [x])); [|exact P]. rewrite EQ, <- app_assoc. reflexivity. }
      assert (Hy : In y (g ++ [y])) by (apply in_or_app; right; left; reflexivity).
      assert (K : forall c, In c ((g ++ [y]) ++ [x]) -> rotation (c_pos c) = rotation (c_pos y) /\ wMode (c_pos c) = wMode (c_pos y)).
      { intros e He. apply in_app_or in He as [He|[<-|[]]]; [apply IH'; assumption|]. split; congruence. }
      destruct (K c Hc), (K d Hd). split; congruence.
  Qed.
End W.
