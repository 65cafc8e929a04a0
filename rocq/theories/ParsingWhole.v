(** ParsingWhole.v - everything that is added to the document is stored exactly once. *)
From Coq Require Import ZArith NArith.
From Verif Require Import Base Double MathUtils Elements Document Fonts CharMap Parsing ParsingSpec ParsingProofs.
Open Scope Z_scope.
Local Opaque TOL dadd dsub ddiv dmul dec DBL_MAX DBL_MIN dround.

Lemma filter_split_perm {A} (p q : A -> bool) l : (forall x, In x l -> p x = true -> q x = false) ->
  Permutation (filter p l ++ filter q l) (filter (fun x => p x || q x) l).
Proof.
  induction l as [|x l IH]; intro D; [constructor|]. cbn [filter].
  assert (D' : forall y, In y l -> p y = true -> q y = false) by (intros y I; apply D; right; exact I).
  specialize (IH D'). specialize (D x (or_introl eq_refl)).
  destruct (p x) eqn:P; cbn [orb].
  - rewrite (D eq_refl). cbn [app]. constructor. exact IH.
  - destruct (q x); [|exact IH]. eapply Permutation_trans; [apply Permutation_sym, Permutation_middle|]. constructor. exact IH.
Qed.
Lemma filter_ext_list {A} (p q : A -> bool) l : (forall x, In x l -> p x = q x) -> filter p l = filter q l.
Proof.
  induction l as [|x l IH]; intro H; [reflexivity|]. cbn [filter]. rewrite (H x (or_introl eq_refl)).
  rewrite IH; [reflexivity|]. intros y I. apply H. right. exact I.
Qed.
Lemma filter_all {A} (p : A -> bool) l : (forall x, In x l -> p x = true) -> filter p l = l.
Proof.
  induction l as [|x l IH]; intro H; [reflexivity|]. cbn [filter]. rewrite (H x (or_introl eq_refl)).
  rewrite IH; [reflexivity|]. intros y I. apply H. right. exact I.
Qed.

Fixpoint groups (j : nat) (earlier ks : list clip) (log : list entry) : list entry :=
  match ks with [] => [] | k :: r => entries_at j earlier k log ++ groups j (earlier ++ [k]) r log end.
Lemma groups_perm j ks log : forall earlier,
  Permutation (groups j earlier ks log)
    (filter (fun en => Nat.eqb (en_page en) j && existsb (agree (en_clip en)) ks && negb (existsb (agree (en_clip en)) earlier)) log).
Proof.
  induction ks as [|k ks IH]; intro earlier; cbn [groups].
  - rewrite not_in_nil_filter; [constructor|]. intros x _. cbn [existsb]. rewrite andb_false_r. reflexivity.
  - eapply Permutation_trans; [apply Permutation_app_head, IH|]. unfold entries_at.
    eapply Permutation_trans.
    + apply filter_split_perm. intros x _ H. apply andb_true_iff in H. destruct H as (H & _). apply andb_true_iff in H. destruct H as (_ & H).
      rewrite existsb_app. cbn [existsb]. rewrite H. cbn [orb]. rewrite orb_true_r. apply andb_false_r.
    + rewrite (filter_ext_list _ (fun en => Nat.eqb (en_page en) j && existsb (agree (en_clip en)) (k :: ks) && negb (existsb (agree (en_clip en)) earlier)));
        [apply Permutation_refl|].
      intros x _. rewrite existsb_app. cbn [existsb]. rewrite orb_false_r.
      destruct (Nat.eqb (en_page x) j), (agree (en_clip x) k), (existsb (agree (en_clip x)) ks), (existsb (agree (en_clip x)) earlier); reflexivity.
Qed.

Section Kind.
  Context {X : Type} (pick : item -> list X) (onpage : ppage -> list X) (infig : figure -> list X).
  Definition picked (l : list entry) : list X := flat_map pick (map en_item l).
  Lemma picked_app a b : picked (a ++ b) = picked a ++ picked b.
  Proof. unfold picked. rewrite map_app, flat_map_app. reflexivity. Qed.
  Lemma picked_perm a b : Permutation a b -> Permutation (picked a) (picked b).
  Proof. intro H. unfold picked. apply Permutation_flat_map. apply Permutation_map. exact H. Qed.

  Lemma figures_groups j log fs : forall earlier,
    (forall m f, nth_error fs m = Some f -> infig f = picked (entries_at j (earlier ++ map fg_clip (firstn m fs)) (fg_clip f) log)) ->
    flat_map infig fs = picked (groups j earlier (map fg_clip fs) log).
  Proof.
    induction fs as [|f fs IH]; intros earlier H; [reflexivity|]. cbn [flat_map map groups]. rewrite picked_app.
    rewrite (H 0%nat f eq_refl). cbn [firstn map]. rewrite app_nil_r. f_equal. apply IH. intros m g I.
    rewrite (H (S m) g I). cbn [firstn map]. rewrite <- app_assoc. reflexivity.
  Qed.
  Lemma page_perm j pg log : page_holds j pg log ->
    onpage pg = picked (entries_at j [] (pp_clip pg) log) ->
    (forall m f, nth_error (pp_figures pg) m = Some f ->
       infig f = picked (entries_at j (pp_clip pg :: map fg_clip (firstn m (pp_figures pg))) (fg_clip f) log)) ->
    Permutation (onpage pg ++ flat_map infig (pp_figures pg)) (picked (filter (fun en => Nat.eqb (en_page en) j) log)).
  Proof.
    intros (_ & _ & C) A B. rewrite A, (figures_groups j log (pp_figures pg) [pp_clip pg]) by (intros m f H; apply (B m f H)).
    rewrite <- picked_app. change (entries_at j [] (pp_clip pg) log ++ groups j [pp_clip pg] (map fg_clip (pp_figures pg)) log)
      with (groups j [] (pp_clip pg :: map fg_clip (pp_figures pg)) log).
    apply picked_perm. eapply Permutation_trans; [apply groups_perm|]. rewrite (filter_ext_list _ (fun en => Nat.eqb (en_page en) j)); [apply Permutation_refl|].
    intros en I. cbn [existsb negb]. rewrite andb_true_r. destruct (Nat.eqb_spec (en_page en) j) as [J|J]; [|reflexivity]. cbn [andb].
    destruct (C en I J) as [Y|(f & Y & Z)]; [rewrite Y; reflexivity|]. apply orb_true_iff. right. apply existsb_exists.
    exists (fg_clip f). split; [apply in_map, Y|exact Z].
  Qed.
  Lemma pages_perm log ps : forall k,
    (forall j pg, nth_error ps j = Some pg -> Permutation (onpage pg ++ flat_map infig (pp_figures pg)) (picked (filter (fun en => Nat.eqb (en_page en) (k + j)) log))) ->
    Permutation (flat_map (fun p => onpage p ++ flat_map infig (pp_figures p)) ps)
      (picked (filter (fun en => (k <=? en_page en)%nat && (en_page en <? k + length ps)%nat) log)).
  Proof.
    induction ps as [|pg ps IH]; intros k H.
    - cbn [flat_map length]. rewrite not_in_nil_filter; [constructor|]. intros en _.
      destruct (Nat.leb_spec k (en_page en)); [|reflexivity]. destruct (Nat.ltb_spec (en_page en) (k + 0)); [lia|reflexivity].
    - cbn [flat_map length]. eapply Permutation_trans.
      + apply Permutation_app; [apply (H 0%nat pg eq_refl)|apply (IH (S k))]. intros j pg' J. replace (S k + j)%nat with (k + S j)%nat by lia. apply (H (S j) pg' J).
      + rewrite <- picked_app. apply picked_perm. eapply Permutation_trans.
        * apply filter_split_perm. intros x _ E. apply Nat.eqb_eq in E. rewrite Nat.add_0_r in E. subst k.
          destruct (Nat.leb_spec (S (en_page x)) (en_page x)); [lia|reflexivity].
        * rewrite (filter_ext_list _ (fun en => (k <=? en_page en)%nat && (en_page en <? k + S (length ps))%nat)); [apply Permutation_refl|].
          intros x _. rewrite Nat.add_0_r. destruct (Nat.eqb_spec (en_page x) k), (Nat.leb_spec (S k) (en_page x)),
            (Nat.ltb_spec (en_page x) (S k + length ps)), (Nat.leb_spec k (en_page x)), (Nat.ltb_spec (en_page x) (k + S (length ps))); cbn [andb orb]; try reflexivity; lia.
  Qed.
  Lemma whole_perm log ps : (forall en, In en log -> (en_page en < length ps)%nat) ->
    (forall j pg, nth_error ps j = Some pg -> page_holds j pg log /\
       onpage pg = picked (entries_at j [] (pp_clip pg) log) /\
       (forall m f, nth_error (pp_figures pg) m = Some f ->
          infig f = picked (entries_at j (pp_clip pg :: map fg_clip (firstn m (pp_figures pg))) (fg_clip f) log))) ->
    Permutation (flat_map (fun p => onpage p ++ flat_map infig (pp_figures p)) ps) (picked log).
  Proof.
    intros B H. eapply Permutation_trans; [apply (pages_perm log ps 0)|].
    - intros j pg J. destruct (H j pg J) as (H1 & H2 & H3). apply page_perm; assumption.
    - rewrite filter_all; [apply Permutation_refl|]. intros en I. specialize (B en I). destruct (Nat.ltb_spec (en_page en) (0 + length ps)); [reflexivity|lia].
  Qed.
End Kind.

Lemma log_stored log p es : log_ok log es p ->
  Permutation (doc_chars (pages p)) (picked (fun i => match i with IChar c => [c] | _ => [] end) log) /\
  Permutation (doc_shapes (pages p)) (picked (fun i => match i with IShape e => [e] | _ => [] end) log) /\
  Permutation (doc_graphics (pages p)) (picked (fun i => match i with IGraphic e => [e] | _ => [] end) log).
Proof.
  intros (_ & _ & _ & _ & F & G). split; [|split]; apply whole_perm; try exact G; intros j pg J; destruct (F j pg J) as ((A & B & C) & D);
    (split; [split; [exact A|split; [exact B|exact C]]|]);
    (split; [apply A|intros m f H; apply (B m f H)]).
Qed.
