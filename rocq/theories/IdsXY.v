(** IdsXY.v - proofs for C83: the XY-cut sees the elements only through their positions, the comparators and the choosers. *)
From Coq Require Import ZArith NArith FunctionalExtensionality.
From Verif Require Import Base Double MathUtils Sort Elements Counter XYCut.

Definition lift {A B} (f : A -> B) (o : outcome A) : outcome B := match o with Ok x => Ok (f x) | UB w => UB w | Throw w => Throw w end.
Definition rlift {A B} (f : A -> B) (o : run A) : run B := option_map (lift f) o.

Lemma lift_bind {A B C} (f : B -> C) (o : outcome A) (k : A -> outcome B) : lift f (obind o k) = obind o (fun x => lift f (k x)).
Proof. destruct o; reflexivity. Qed.
Lemma bind_lift {A B C} (f : A -> B) (o : outcome A) (k : B -> outcome C) : obind (lift f o) k = obind o (fun x => k (f x)).
Proof. destruct o; reflexivity. Qed.
Lemma bind_ext {A B} (o : outcome A) (k k' : A -> outcome B) : (forall x, k x = k' x) -> obind o k = obind o k'.
Proof. intros H. destruct o; [apply H|reflexivity..]. Qed.
Lemma rlift_bind {A B C} (f : B -> C) (o : run A) (k : A -> run B) : rlift f (rbind o k) = rbind o (fun x => rlift f (k x)).
Proof. destruct o as [[x| |]|]; reflexivity. Qed.
Lemma rbind_lift {A B C} (f : A -> B) (o : run A) (k : B -> run C) : rbind (rlift f o) k = rbind o (fun x => k (f x)).
Proof. destruct o as [[x| |]|]; reflexivity. Qed.
Lemma rbind_ext {A B} (o : run A) (k k' : A -> run B) : (forall x, k x = k' x) -> rbind o k = rbind o k'.
Proof. intros H. destruct o as [[x| |]|]; [apply H|reflexivity..]. Qed.

Section XY.
  Context {A B : Type} (f : A -> B) (pos : B -> position).
  Context (sA : (A -> A -> bool) -> list A -> list A) (sB : (B -> B -> bool) -> list B -> list B).
  Context (tA : (A -> A -> bool) -> list A -> nat) (tB : (B -> B -> bool) -> list B -> nat).
  Context (Hs : forall lt l, map f (sA (fun a b => lt (f a) (f b)) l) = sB lt (map f l)).
  Context (Ht : forall lt l, tA (fun a b => lt (f a) (f b)) l = tB lt (map f l)).
  Definition posA (a : A) : position := pos (f a).
  Definition fc (c : cut A) : cut B :=
    mkCut (cut_page c) (cut_x1 c) (cut_y1 c) (cut_x2 c) (cut_y2 c) (cut_chosen c) (f (cut_before c)) (f (cut_after c)) (cut_gapWidth c)
      (cut_gapHeight c) (map f (cut_overlap c)) (cut_pos c).
  Definition fres (r : bool * list (list A) * list (cut A)) : bool * list (list B) * list (cut B) :=
    let '(b, gs, cs) := r in (b, map (map f) gs, map fc cs).
  Definition fxy (r : list (list A) * list (cut A)) : list (list B) * list (cut B) := (map (map f) (fst r), map fc (snd r)).

  Lemma forallb_map {C D} (g : C -> D) (p : D -> bool) l : forallb p (map g l) = forallb (fun x => p (g x)) l.
  Proof. induction l as [|x t IH]; [reflexivity|]. cbn. now rewrite IH. Qed.
  Lemma forallb_ext {C} (p q : C -> bool) l : (forall x, p x = q x) -> forallb p l = forallb q l.
  Proof. intros H. induction l as [|x t IH]; [reflexivity|]. cbn. now rewrite H, IH. Qed.
  Lemma swo_map (lt : B -> B -> bool) l : swo_b lt (map f l) = swo_b (fun a b => lt (f a) (f b)) l.
  Proof.
    unfold swo_b, irrefl_b, trans_b, incomp_trans_b. rewrite !forallb_map. f_equal; [f_equal|].
    - apply forallb_ext. intros x. rewrite forallb_map. apply forallb_ext. intros y. rewrite forallb_map. reflexivity.
    - apply forallb_ext. intros x. rewrite forallb_map. apply forallb_ext. intros y. rewrite forallb_map. reflexivity.
  Qed.
  Lemma sort_map (lt : B -> B -> bool) l : lift (map f) (std_sort sA (fun a b => lt (f a) (f b)) l) = std_sort sB lt (map f l).
  Proof. unfold std_sort. rewrite swo_map. destruct (swo_b _ l); [|reflexivity]. cbn [lift]. now rewrite Hs. Qed.

  Lemma nth_error_mapf {C D} (g : C -> D) l : forall n, nth_error (map g l) n = option_map g (nth_error l n).
  Proof. induction l as [|x t IH]; intros [|n]; cbn; auto. Qed.
  Lemma pq_top_map q : lift f (pq_top posA tA q) = pq_top pos tB (map f q).
  Proof.
    unfold pq_top. rewrite nth_error_mapf. rewrite <- (Ht (rightXDesc pos) q). change (fun a b => rightXDesc pos (f a) (f b)) with (rightXDesc posA).
    destruct (nth_error q _); reflexivity.
  Qed.
  Lemma pq_remove_map q : map f (pq_remove_top posA tA q) = pq_remove_top pos tB (map f q).
  Proof.
    unfold pq_remove_top. rewrite <- (Ht (rightXDesc pos) q). change (fun a b => rightXDesc pos (f a) (f b)) with (rightXDesc posA).
    now rewrite map_app, firstn_map, skipn_map.
  Qed.
  Lemma pq_push_map cap q v : lift (map f) (pq_push_f posA tA cap q v) = pq_push_f pos tB cap (map f q) (f v).
  Proof.
    unfold pq_push_f. change (f v :: map f q) with (map f (v :: q)) at 1. rewrite swo_map.
    change (fun a b => rightXDesc pos (f a) (f b)) with (rightXDesc posA). destruct (swo_b (rightXDesc posA) (v :: q)); [|reflexivity].
    rewrite map_length. destruct (_ =? cap)%N; [|reflexivity]. destruct q as [|x q]; [reflexivity|]. cbn [lift map].
    f_equal. f_equal. change (f x :: map f q) with (map f (x :: q)). apply pq_remove_map.
  Qed.
  Lemma pq_sort_map q : lift (map f) (pq_sort sA (rightXDesc posA) q) = pq_sort sB (rightXDesc pos) (map f q).
  Proof.
    unfold pq_sort. change (rightXDesc posA) with (fun a b => rightXDesc pos (f a) (f b)).
    apply sort_map.
  Qed.
  Lemma find_gap_map minGap y1 y2 p e : forall prevs ov,
    option_map fc (find_gap posA minGap y1 y2 p e ov prevs) = find_gap pos minGap y1 y2 p (f e) (map f ov) (map f prevs).
  Proof.
    induction prevs as [|x t IH]; intros ov; [reflexivity|]. cbn [find_gap map]. cbv zeta. change (posA x) with (pos (f x)). change (posA e) with (pos (f e)).
    destruct (equalOrLarger _ minGap TOL); [reflexivity|]. rewrite IH, map_app. reflexivity.
  Qed.
  Lemma x_scan_map minGap y1 y2 cap : forall rest p q,
    lift (map fc) (x_scan posA sA tA minGap y1 y2 cap p q rest) = x_scan pos sB tB minGap y1 y2 cap p (map f q) (map f rest).
  Proof.
    induction rest as [|e t IH]; intros p q; [reflexivity|]. cbn [x_scan map]. rewrite <- pq_sort_map, bind_lift, lift_bind. apply bind_ext. intros s.
    cbv zeta. rewrite <- pq_top_map, bind_lift, lift_bind. apply bind_ext. intros tp. change (posA e) with (pos (f e)). change (posA tp) with (pos (f tp)).
    transitivity (obind (lift (map f) (if larger (rightX (pos (f e))) (rightX (pos (f tp))) TOL then pq_push_f posA tA cap q e else Ok q))
      (fun q' => do cs <- x_scan pos sB tB minGap y1 y2 cap (S p) q' (map f t); Ok (opt_list (find_gap pos minGap y1 y2 p (f e) [] (map f s)) ++ cs))).
    - rewrite bind_lift, lift_bind. apply bind_ext. intros q'. rewrite <- IH, bind_lift, lift_bind. apply bind_ext. intros cs. cbn [lift].
      rewrite map_app. pose proof (find_gap_map minGap y1 y2 p e s []) as G. cbn [map] in G. rewrite <- G. destruct (find_gap posA minGap y1 y2 p e [] s); reflexivity.
    - destruct (larger _ _ TOL); [rewrite pq_push_map|]; reflexivity.
  Qed.
  Lemma y_scan_map minGap x1 x2 : forall rest p l,
    map fc (y_scan posA minGap x1 x2 p l rest) = y_scan pos minGap x1 x2 p (f l) (map f rest).
  Proof.
    induction rest as [|e t IH]; intros p l; [reflexivity|]. cbn [y_scan map]. cbv zeta. change (posA e) with (pos (f e)). change (posA l) with (pos (f l)).
    rewrite map_app, IH. f_equal; [destruct (equalOrLarger _ minGap TOL); reflexivity|]. destruct (larger _ _ TOL); reflexivity.
  Qed.
  Lemma divide_map : forall cuts p s, lift (map (map f)) (divide p cuts s) = divide p (map fc cuts) (map f s).
  Proof.
    induction cuts as [|c t IH]; intros p s; cbn [divide map lift]; [now rewrite skipn_map|]. change (cut_chosen (fc c)) with (cut_chosen c). change (cut_pos (fc c)) with (cut_pos c).
    rewrite map_length. destruct (cut_chosen c); [|apply IH]. destruct ((p <=? cut_pos c) && (cut_pos c <=? length s)); [|reflexivity].
    rewrite <- IH, bind_lift, lift_bind. apply bind_ext. intros gs. cbn [lift map]. now rewrite skipn_map, firstn_map.
  Qed.
  Lemma flags_map : forall cuts fl, map fc (apply_flags cuts fl) = apply_flags (map fc cuts) fl.
  Proof. induction cuts as [|c t IH]; intros fl; [reflexivity|]. cbn [apply_flags map]. now rewrite IH. Qed.
  Lemma exists_map cuts : existsb (@cut_chosen B) (map fc cuts) = existsb (@cut_chosen A) cuts.
  Proof. induction cuts as [|c t IH]; [reflexivity|]. cbn. now rewrite IH. Qed.

  Definition same_choice (cA : chooser A) (cB : chooser B) : Prop := forall cuts l, cA cuts l = cB (map fc cuts) (map f l).
  Lemma finish_map cA cB cuts s : same_choice cA cB -> lift fres (finish cA cuts s) = finish cB (map fc cuts) (map f s).
  Proof.
    intros H. unfold finish. rewrite lift_bind, (H cuts s). apply bind_ext. intros fl. cbv zeta. rewrite <- flags_map, <- divide_map, bind_lift, lift_bind.
    apply bind_ext. intros gs. cbn [lift fres]. now rewrite exists_map.
  Qed.
  Lemma fold_pos (g : double -> position -> double) l : forall m,
    fold_left (fun m e => g m (pos e)) (map f l) m = fold_left (fun m e => g m (posA e)) l m.
  Proof. induction l as [|x t IH]; intros m; [reflexivity|]. cbn [map fold_left]. apply IH. Qed.
  Lemma xCut_map minGap ov cA cB l : same_choice cA cB -> lift fres (xCut posA sA tA minGap ov cA l) = xCut pos sB tB minGap ov cB (map f l).
  Proof.
    intros H. destruct l as [|x l]; [reflexivity|]. cbn [map xCut]. change (f x :: map f l) with (map f (x :: l)).
    change (leftXAsc posA) with (fun a b => leftXAsc pos (f a) (f b)). rewrite <- sort_map, bind_lift, lift_bind. apply bind_ext. intros s. cbv zeta.
    rewrite (fold_pos (fun m p => minimum m (upperY p))), (fold_pos (fun m p => maximum m (lowerY p))).
    destruct s as [|e0 rest]; [reflexivity|]. cbn [map]. rewrite <- (pq_push_map _ []), bind_lift, lift_bind. apply bind_ext. intros q.
    rewrite <- x_scan_map, bind_lift, lift_bind. apply bind_ext. intros cs. rewrite (finish_map _ _ _ _ H). reflexivity.
  Qed.
  Lemma yCut_map minGap cA cB l : same_choice cA cB -> lift fres (yCut posA sA minGap cA l) = yCut pos sB minGap cB (map f l).
  Proof.
    intros H. destruct l as [|x l]; [reflexivity|]. cbn [map yCut]. change (f x :: map f l) with (map f (x :: l)).
    change (upperYAsc posA) with (fun a b => upperYAsc pos (f a) (f b)). rewrite <- sort_map, bind_lift, lift_bind. apply bind_ext. intros s. cbv zeta.
    rewrite (fold_pos (fun m p => minimum m (leftX p))), (fold_pos (fun m p => maximum m (rightX p))).
    destruct s as [|e0 rest]; [reflexivity|]. cbn [map]. rewrite <- y_scan_map. rewrite (finish_map _ _ _ _ H). reflexivity.
  Qed.

  Lemma groups_map (gA : list A -> run (xy_result (A := A))) (gB : list B -> run (xy_result (A := B))) :
    (forall l, rlift fxy (gA l) = gB (map f l)) -> forall gs, rlift fxy (for_groups gA gs) = for_groups gB (map (map f) gs).
  Proof.
    intros H. induction gs as [|g t IH]; [reflexivity|]. cbn [for_groups map]. rewrite <- H, rbind_lift, rlift_bind. apply rbind_ext. intros r1.
    rewrite <- IH, rbind_lift, rlift_bind. apply rbind_ext. intros r2. unfold rlift, fxy. cbn [option_map lift fst snd]. now rewrite !map_app.
  Qed.
  Lemma xyCut_map mx my ov cxA cyA cxB cyB : same_choice cxA cxB -> same_choice cyA cyB -> forall fuel l,
    rlift fxy (xyCut posA sA tA fuel mx my ov cxA cyA l) = xyCut pos sB tB fuel mx my ov cxB cyB (map f l).
  Proof.
    intros HX HY. induction fuel as [|fuel IH]; intros [|x l]; try reflexivity. cbn [xyCut map]. cbv zeta. change (f x :: map f l) with (map f (x :: l)).
    rewrite <- (xCut_map mx ov cxA cxB (x :: l) HX), <- (yCut_map my cyA cyB (x :: l) HY).
    destruct (xCut posA sA tA mx ov cxA (x :: l)) as [[[ok gs] cs]|w|w]; cbn [lift fres rbind]; [|reflexivity..].
    destruct ok; cbn [negb].
    - rewrite rlift_bind. erewrite <- groups_map.
      + rewrite rbind_lift. apply rbind_ext. intros r. unfold rlift, fxy. cbn [option_map lift fst snd]. now rewrite map_app.
      + intros g. cbv beta. rewrite <- (yCut_map my cyA cyB g HY). destruct (yCut posA sA my cyA g) as [[[ok gs'] cs']|w|w]; cbn [lift fres rbind]; [|reflexivity..].
        destruct ok; cbn [negb]; [|reflexivity]. rewrite rlift_bind, <- (groups_map _ _ IH), rbind_lift. apply rbind_ext. intros r.
        unfold rlift, fxy. cbn [option_map lift fst snd]. now rewrite map_app.
    - destruct (yCut posA sA my cyA (x :: l)) as [[[ok gs'] cs']|w|w]; cbn [lift fres rbind]; [|reflexivity..]. destruct ok; cbn [negb].
      + rewrite rlift_bind, <- (groups_map _ _ IH), rbind_lift. apply rbind_ext. intros r.
        unfold rlift, fxy. cbn [option_map lift fst snd]. now rewrite !map_app.
      + unfold rlift, fxy. cbn [option_map lift fst snd map]. now rewrite map_app.
  Qed.
End XY.
