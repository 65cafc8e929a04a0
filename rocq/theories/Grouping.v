(** Grouping.v - cutting a sequence into consecutive groups: vocabulary shared by the statements about words, text
    blocks, ..., and the facts that make it meaningful (existence and uniqueness). *)
From Verif Require Import Base.

Section Grouping.
  Context {A : Type}.
  (** [brk g c]: the element [c] cannot be appended to the non-empty group [g].
      [gs] is the greedy grouping of [cs]: the groups are consecutive, cover [cs], are not empty; every element but
      the first of a group could be appended to what precedes it in the group; and the first element of a group could
      not be appended to the group before it. *)
  Definition is_grouping (brk : list A -> A -> bool) (cs : list A) (gs : list (list A)) : Prop :=
    concat gs = cs /\ (forall g, In g gs -> g <> []) /\
    (forall pre c post, In (pre ++ c :: post) gs -> pre <> [] -> brk pre c = false) /\
    (forall l1 g c g' l2, gs = l1 ++ g :: (c :: g') :: l2 -> brk g c = true).

  Context (brk : list A -> A -> bool).
  Fixpoint group (a : list A) (cs : list A) : list (list A) :=
    match cs with
    | [] => match a with [] => [] | _ :: _ => [a] end
    | c :: t => if negb (length a =? 0) && brk a c then a :: group [c] t else group (a ++ [c]) t
    end.

  Lemma group_run a suf rest : (forall pre c post, a ++ suf = pre ++ c :: post -> length a <= length pre -> pre <> [] -> brk pre c = false) ->
    group a (suf ++ rest) = group (a ++ suf) rest.
  Proof.
    revert a. induction suf as [|c t IH]; intros a H; cbn [app]; [rewrite app_nil_r; reflexivity|].
    cbn [group]. replace (negb (length a =? 0) && brk a c) with false.
    - rewrite IH.
      + rewrite <- app_assoc. reflexivity.
      + intros pre d post EQ L NE. rewrite <- app_assoc in EQ. apply (H pre d post EQ); [|exact NE].
        rewrite app_length in L. cbn in L. lia.
    - destruct a as [|a0 a]; [reflexivity|]. rewrite (H (a0 :: a) c t); auto. discriminate.
  Qed.

  Lemma group_unique gs cs : is_grouping brk cs gs -> gs = group [] cs.
  Proof.
    revert cs. induction gs as [|g gs IH]; intros cs (EC & NE & IN & BT).
    - cbn in EC. subst cs. reflexivity.
    - cbn [concat] in EC. subst cs. rewrite group_run.
      2:{ intros pre c post EQ _ P. cbn in EQ. apply (IN pre c post); [left; exact EQ|exact P]. }
      cbn [app]. assert (HG : g <> []) by (apply NE; left; reflexivity).
      assert (IG : is_grouping brk (concat gs) gs).
      { split; [reflexivity|]. split; [intros x Hx; apply NE; right; exact Hx|]. split.
        - intros pre c post Hi. apply IN with (post := post). right. exact Hi.
        - intros l1 x c g' l2 EQ. apply (BT (g :: l1) x c g' l2). rewrite EQ. reflexivity. }
      specialize (IH _ IG). destruct gs as [|[|c g'] gs].
      + cbn. destruct g; [congruence|reflexivity].
      + exfalso. apply (NE []); [right; left; reflexivity|reflexivity].
      + cbn [concat app]. cbn [group]. destruct g as [|g0 g]; [congruence|]. cbn [length Nat.eqb negb andb].
        rewrite (BT [] (g0 :: g) c g' gs eq_refl). f_equal. exact IH.
  Qed.

  Lemma group_ok cs a : (forall pre c post, a = pre ++ c :: post -> pre <> [] -> brk pre c = false) ->
    is_grouping brk (a ++ cs) (group a cs) /\ (a <> [] -> exists t gs, group a cs = (a ++ t) :: gs).
  Proof.
    revert a. induction cs as [|c t IH]; intros a H.
    - cbn [group]. rewrite app_nil_r. destruct a as [|a0 a].
      + split; [|congruence]. split; [reflexivity|]. split; [intros g []|]. split; [intros ? ? ? []|].
        intros l1 g c g' l2 EQ. destruct l1; discriminate.
      + split.
        * split; [cbn; rewrite app_nil_r; reflexivity|]. split; [intros g [<-|[]]; discriminate|]. split.
          -- intros pre c post [EQ|[]] P. eapply H; eassumption.
          -- intros l1 g c g' l2 EQ. destruct l1 as [|? [|? ?]]; discriminate.
        * intros _. exists [], []. rewrite app_nil_r. reflexivity.
    - cbn [group]. destruct (negb (length a =? 0) && brk a c) eqn:B.
      + apply andb_true_iff in B as [B0 B]. assert (NA : a <> []) by (destruct a; [discriminate|congruence]).
        destruct (IH [c]) as [(EC & NE & IN & BT) X].
        { intros pre d post EQ P. destruct pre as [|? [|? ?]]; [congruence|discriminate|discriminate]. }
        destruct X as (t' & gs & EG); [discriminate|]. split.
        * split; [cbn [concat]; rewrite EC; reflexivity|]. split; [intros g [<-|Hg]; [exact NA|apply NE, Hg]|]. split.
          -- intros pre d post [EQ|Hi] P; [eapply H; eassumption|eapply IN; eassumption].
          -- intros l1 g d g' l2 EQ. destruct l1 as [|x l1].
             ++ cbn in EQ. injection EQ as E1 E2. rewrite EG in E2. injection E2 as E2 _ _. subst. exact B.
             ++ cbn in EQ. injection EQ as _ E2. eapply BT, E2.
        * intros _. exists [], (group [c] t). rewrite app_nil_r. reflexivity.
      + destruct (IH (a ++ [c])) as [IG X].
        { intros pre d post EQ P. destruct post as [|p post] using rev_ind.
          - apply app_inj_tail in EQ as [<- <-]. destruct a; [congruence|]. exact B.
          - rewrite app_comm_cons, app_assoc in EQ. apply app_inj_tail in EQ as [EQ _]. eapply H; eassumption. }
        rewrite <- app_assoc in IG. split; [exact IG|]. intros _.
        destruct X as (t' & gs & EG); [destruct a; discriminate|]. exists (c :: t'), gs. rewrite EG, <- app_assoc. reflexivity.
  Qed.
  Lemma group_is_grouping cs : is_grouping brk cs (group [] cs).
  Proof. apply (group_ok cs []). intros [|? ?] c post; discriminate. Qed.
  Lemma grouping_unique cs gs gs' : is_grouping brk cs gs -> is_grouping brk cs gs' -> gs = gs'.
  Proof. intros H H'. rewrite (group_unique _ _ H), (group_unique _ _ H'). reflexivity. Qed.
End Grouping.
