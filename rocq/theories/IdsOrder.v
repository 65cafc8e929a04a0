(** IdsOrder.v - proofs for C83: the reading order does not depend on ids. *)
From Coq Require Import ZArith NArith FunctionalExtensionality.
From Verif Require Import Base Double MathUtils Sort Elements Counter XYCut Document ReadingOrder IdsSpec IdsXY.
Local Opaque TOL dZ dadd dsub ddiv dmul dec DBL_MAX DBL_MIN.

Definition fr (r : relem) : relem :=
  match r with RBlock b => RBlock (anon_block b) | RFigure e => RFigure (anon_elem e) | RShape e => RShape (anon_elem e) end.
Definition fpage (p : page) : page :=
  mkPage (p_num p) (p_width p) (p_height p) (map anon_elem (p_figures p)) (map anon_elem (p_shapes p)) (map anon_block (p_blocks p)).

Lemma pos_fr : posA fr re_pos = re_pos.
Proof. apply functional_extensionality. intros []; reflexivity. Qed.

Section Order.
  Context (s : (relem -> relem -> bool) -> list relem -> list relem) (t : (relem -> relem -> bool) -> list relem -> nat).
  Context (Hs : blind_sort s) (Ht : blind_top t) (acw ach : double).
  Notation fcut := (fc fr).

  Lemma xCut_fr mg ov cA cB l : same_choice fr cA cB -> lift (fres fr) (xCut re_pos s t mg ov cA l) = xCut re_pos s t mg ov cB (map fr l).
  Proof. intros H. rewrite <- (xCut_map fr re_pos s s t t (Hs fr) (Ht fr) mg ov cA cB l H), pos_fr. reflexivity. Qed.
  Lemma yCut_fr mg cA cB l : same_choice fr cA cB -> lift (fres fr) (yCut re_pos s mg cA l) = yCut re_pos s mg cB (map fr l).
  Proof. intros H. rewrite <- (yCut_map fr re_pos s s (Hs fr) mg cA cB l H), pos_fr. reflexivity. Qed.
  Lemma xyCut_fr mx my ov cx cy fuel l : same_choice fr cx cx -> same_choice fr cy cy ->
    rlift (fxy fr) (xyCut re_pos s t fuel mx my ov cx cy l) = xyCut re_pos s t fuel mx my ov cx cy (map fr l).
  Proof. intros H1 H2. rewrite <- (xyCut_map fr re_pos s s t t (Hs fr) (Ht fr) mx my ov cx cy cx cy H1 H2 fuel l), pos_fr. reflexivity. Qed.

  Lemma choose_x : same_choice fr ro_chooseXCuts ro_chooseXCuts.
  Proof. intros cuts l. unfold ro_chooseXCuts. now rewrite map_map. Qed.
  Lemma rotated_fr r : rotated (fr r) = rotated r. Proof. destruct r; reflexivity. Qed.
  Lemma role_fr k r : has_role k (fr r) = has_role k r. Proof. destruct r; reflexivity. Qed.
  Lemma sepv_fr m r : separates_vertically ach m (fr r) = separates_vertically ach m r. Proof. destruct r; reflexivity. Qed.
  Lemma seph_fr m r : separates_horizontally acw m (fr r) = separates_horizontally acw m r. Proof. destruct r; reflexivity. Qed.
  Lemma choose_px a b : same_choice fr (choosePrimaryXCuts ach a b) (choosePrimaryXCuts ach a b).
  Proof.
    intros cuts [|x l]; [reflexivity|]. unfold choosePrimaryXCuts. cbn [map]. rewrite map_map. f_equal. apply map_ext. intros c. unfold primary_x.
    cbv zeta. unfold fc. cbn [cut_before cut_after]. rewrite !rotated_fr, !sepv_fr. destruct (cut_before c), (cut_after c); reflexivity.
  Qed.
  Lemma choose_py a b : same_choice fr (choosePrimaryYCuts acw a b) (choosePrimaryYCuts acw a b).
  Proof.
    intros cuts [|x l]; [reflexivity|]. unfold choosePrimaryYCuts. cbn [map]. rewrite map_map. f_equal. apply map_ext. intros c. unfold primary_y.
    cbv zeta. unfold fc. cbn [cut_before cut_after]. rewrite !role_fr, !seph_fr. reflexivity.
  Qed.
  Lemma divisible_fr l a b : divisible s t (map fr l) a b = divisible s t l a b.
  Proof.
    unfold divisible. rewrite map_length. destruct (_ && _); [|reflexivity]. rewrite skipn_map, firstn_map.
    rewrite <- (xCut_fr _ _ _ _ _ choose_x), bind_lift. apply bind_ext. intros [[ok g] c]. reflexivity.
  Qed.
  Lemma find_ext p q : (forall i, p i = q i) -> forall is, find_index p is = find_index q is.
  Proof. intros H. induction is as [|i r IH]; [reflexivity|]. cbn [find_index]. rewrite H. apply bind_ext. intros []; [reflexivity|exact IH]. Qed.
  Lemma pair_fr l ps lst : forall fuel i, pair_loop s t fuel (map fr l) ps lst i = pair_loop s t fuel l ps lst i.
  Proof.
    induction fuel as [|fuel IH]; intros i; [reflexivity|]. cbn [pair_loop]. destruct (i <? lst); [|reflexivity].
    erewrite find_ext. { apply bind_ext. intros [j|]; [|apply IH]. rewrite IH. reflexivity. }
    intros j. cbv beta. apply bind_ext. intros hi. apply bind_ext. intros lo. apply divisible_fr.
  Qed.
  Lemma chosen_fr l ps : ro_chosen s t (map fr l) ps = ro_chosen s t l ps.
  Proof.
    unfold ro_chosen. rewrite map_length. erewrite find_ext; [|intros i; apply bind_ext; intros p; apply divisible_fr]. apply bind_ext. intros low. cbv zeta.
    erewrite find_ext; [|intros i; apply bind_ext; intros p; apply divisible_fr]. apply bind_ext. intros high. rewrite pair_fr. reflexivity.
  Qed.
  Lemma choose_y : same_choice fr (ro_chooseYCuts s t) (ro_chooseYCuts s t).
  Proof.
    intros cuts l. unfold ro_chooseYCuts. destruct l as [|x l]; [reflexivity|]. destruct cuts as [|c cuts]; [reflexivity|].
    change (map fr (x :: l)) with (fr x :: map fr l). cbv iota. change (map fcut (c :: cuts)) with (fcut c :: map fcut cuts). cbv iota.
    change (fr x :: map fr l) with (map fr (x :: l)). change (fcut c :: map fcut cuts) with (map fcut (c :: cuts)). rewrite chosen_fr, map_map, map_length. reflexivity.
  Qed.

  Lemma fold_fr (g : double -> position -> double) l m :
    fold_left (fun m e => g m (re_pos e)) (map fr l) m = fold_left (fun m e => g m (re_pos e)) l m.
  Proof. rewrite (fold_pos fr re_pos g l m), pos_fr. reflexivity. Qed.
  Lemma groups_fr l : rlift (fxy fr) (ro_groups s t acw ach l) = ro_groups s t acw ach (map fr l).
  Proof.
    unfold ro_groups. cbv zeta. rewrite (fold_fr (fun m p => minimum m (leftX p))), (fold_fr (fun m p => minimum m (upperY p))),
      (fold_fr (fun m p => maximum m (rightX p))), (fold_fr (fun m p => maximum m (lowerY p))).
    rewrite <- (xCut_fr _ _ _ _ _ (choose_px _ _)). destruct (xCut re_pos s t minCutGap 0 _ l) as [[[ok gs] cs]|w|w]; cbn [lift fres rbind]; [|reflexivity..].
    rewrite rlift_bind. erewrite <- groups_map.
    - rewrite rbind_lift. apply rbind_ext. intros r. unfold rlift, fxy. cbn [option_map lift fst snd]. now rewrite map_app.
    - intros g. cbv beta. rewrite <- (yCut_fr _ _ _ _ (choose_py _ _)). destruct (yCut re_pos s minCutGap _ g) as [[[ok' gs'] cs']|w|w]; cbn [lift fres rbind]; [|reflexivity..].
      rewrite rlift_bind. erewrite <- groups_map.
      + rewrite rbind_lift. apply rbind_ext. intros r. unfold rlift, fxy. cbn [option_map lift fst snd]. now rewrite map_app.
      + intros g'. cbv beta. rewrite map_length. apply xyCut_fr; [exact choose_x|exact choose_y].
  Qed.

  Lemma blocks_fr l : blocks_of (map fr l) = map anon_block (blocks_of l).
  Proof. induction l as [|x r IH]; [reflexivity|]. destruct x; cbn; [f_equal|..]; exact IH. Qed.
  Lemma upper_fr : upperYLess = (fun a b => upperYLess (fr a) (fr b)).
  Proof. apply functional_extensionality. intros a. apply functional_extensionality. intros b. unfold upperYLess. destruct a, b; reflexivity. Qed.
  Lemma sort_fr gs : lift (map anon_block) (sort_groups s gs) = sort_groups s (map (map fr) gs).
  Proof.
    induction gs as [|g r IH]; [reflexivity|]. cbn [sort_groups map]. rewrite <- (sort_map fr s s (Hs fr) upperYLess g), <- upper_fr, bind_lift, lift_bind. apply bind_ext. intros l.
    rewrite <- IH, bind_lift, lift_bind. apply bind_ext. intros bs. cbn [lift]. now rewrite map_app, blocks_fr.
  Qed.
  Lemma page_fr p : rlift fpage (order_page s t acw ach p) = order_page s t acw ach (fpage p).
  Proof.
    unfold order_page. replace (ro_elements (fpage p)) with (map fr (ro_elements p)).
    - rewrite <- groups_fr, rbind_lift, rlift_bind. apply rbind_ext. intros r. cbn [fxy fst]. rewrite <- sort_fr.
      destruct (sort_groups s (fst r)); reflexivity.
    - unfold ro_elements. cbn [fpage p_blocks p_figures p_shapes]. rewrite !map_app, !map_map. reflexivity.
  Qed.
  Lemma pages_fr ps : rlift (map fpage) (order_pages s t acw ach ps) = order_pages s t acw ach (map fpage ps).
  Proof.
    induction ps as [|p r IH]; [reflexivity|]. cbn [order_pages map]. rewrite <- page_fr, rbind_lift, rlift_bind. apply rbind_ext. intros p'.
    rewrite <- IH, rbind_lift, rlift_bind. apply rbind_ext. intros r'. reflexivity.
  Qed.
End Order.
