(** PropsParsing.v - property theorems C43, C44, C67-C71 (parsing the events of Poppler). *)
From Coq Require Import ZArith NArith Reals Lra Lia.
From Flocq Require Import Core IEEE754.BinarySingleNaN.
From Verif Require Import Base Double DoubleFacts MathUtils MathUtilsProofs Elements GridProofs Document Fonts CharMap Parsing ImagingSpec ParsingSpec
  ParsingBoxes ImagingProofs ParsingProofs ParsingWhole.
Open Scope Z_scope.
Local Opaque TOL dadd dsub ddiv dmul dec DBL_MAX DBL_MIN dround.

(** ** A small document for the examples *)
Definition ex_font : font := mkFont (S_ "F") [] [] false false false false false 400 (dec 95 2) (dec (-35) 2)
  [dec 1 3; dzero; dzero; dec 1 3; dzero; dzero] [(S_ "tall", (0, -200, 500, 1500))].
Definition ex_parse (g : gfx_font) : outcome font := Ok ex_font.
Definition ex_map : option (N -> str) := Some (fun u => [ascii_of_N u]).
Definition ex_bytes (t : str) : option (list N) := Some (map N_of_ascii t).
Definition ex_space (c : N) : bool := (c =? 32)%N.
Definition ex_ids (n : Z) : str := [].
Definition ex_pfont : pfont := mkPFont (mkGfx (Some (S_ "F")) [] 0 false 0 [] None) (Font8Bit (fun c => if c =? 1 then Some (S_ "tall") else None) (fun _ => dec 5 1)) 0.
Definition ex_page : clip := mkClip dzero dzero (dZ 600) (dZ 800).
Definition ident : matrix := mkMat done dzero dzero done dzero dzero.
Definition flip : matrix := mkMat done dzero dzero (dopp done) dzero (dZ 800).
(** [x], [y] in PDF coordinates (y grows upwards) *)
Definition ex_state (k : clip) (x y : Z) (path : list (list (double * double))) : gstate :=
  mkGState k flip (Some ex_pfont) (dZ 10, dzero, dzero, dopp (dZ 10)) (dZ 10) done dzero ident (dZ x) (dZ y) (dZ 10) done (dzero, dzero, dzero) path.
Definition ex_inner : clip := mkClip (dZ 100) (dZ 100) (dZ 200) (dZ 200).
Definition ex_events : list event :=
  [StartPage 1 (ex_state ex_page 0 0 []); UpdateFont (ex_state ex_page 0 0 []);
   DrawChar (ex_state ex_page 50 700 []) 65 1 (Some [65%N]) 1;
   DrawChar (ex_state ex_page 55 700 []) 32 1 (Some [32%N]) 1;
   DrawChar (ex_state ex_page 60 700 []) 1 1 (Some [66%N]) 1;
   DrawChar (ex_state ex_inner 110 650 []) 67 1 (Some [67%N]) 1;
   Stroke (ex_state ex_inner 0 0 [[(dZ 110, dZ 110); (dZ 150, dZ 120)]]);
   EndPage; StartPage 2 (ex_state ex_page 0 0 []);
   DrawChar (ex_state ex_page 50 700 []) 68 1 (Some [68%N]) 1].
Definition ex_run (es : list event) : outcome parser := parse_events ex_parse ex_map ex_bytes ex_space ex_ids es.
Definition summary (o : outcome parser) : option (list (Z * list (str * Z) * list (list (str * Z)))) :=
  match o with
  | Ok p => Some (map (fun q => (pp_num q, map (fun c => (c_text c, c_rank c)) (pp_chars q),
                                  map (fun f => map (fun c => (c_text c, c_rank c)) (fg_chars f)) (pp_figures q))) (pages p))
  | _ => None
  end.

(** ** C43 No drawn character is lost or duplicated *)

(** Every event adds what [adds] says (in particular: a character, unless it is blank or no font is selected), the added elements
    are numbered consecutively, and the document holds exactly the added elements, each once: on the page started last, either
    directly (its clip box agrees) or in the first figure whose clip box agrees. *)
Theorem C43_stored : forall parseFont mapUnicode from_bytes iswspace ids es p, finite_clips es ->
  parse_events parseFont mapUnicode from_bytes iswspace ids es = Ok p ->
  exists parts, length parts = length es /\
    (forall i e, nth_error es i = Some e ->
       exists part, nth_error parts i = Some part /\ adds parseFont mapUnicode from_bytes iswspace (firstn i es) e part) /\
    let log := concat parts in
    map (fun en => item_rank (en_item en)) log = map Z.of_nat (seq 0 (length log)) /\
    Forall2 started (starts es) (pages p) /\
    (forall j pg, nth_error (pages p) j = Some pg -> page_holds j pg log) /\
    Permutation (doc_chars (pages p)) (flat_map (fun en => match en_item en with IChar c => [c] | _ => [] end) log) /\
    Permutation (doc_shapes (pages p)) (flat_map (fun en => match en_item en with IShape e => [e] | _ => [] end) log) /\
    Permutation (doc_graphics (pages p)) (flat_map (fun en => match en_item en with IGraphic e => [e] | _ => [] end) log).
Proof.
  intros parseFont mapUnicode from_bytes iswspace ids es p FC H.
  destruct (run_ok parseFont mapUnicode from_bytes iswspace ids es FC p H) as (_ & parts & L & A & LO).
  exists parts. split; [exact L|]. split; [exact A|]. cbv zeta. destruct (log_stored _ _ _ LO) as (P1 & P2 & P3).
  destruct LO as (R & _ & ST & _ & PH & _). split; [exact R|]. split; [exact ST|].
  split; [intros j pg J; apply (PH j pg J)|].
  assert (FM : forall (X : Type) (f : item -> list X) l, picked f l = flat_map (fun en => f (en_item en)) l).
  { intros X f l. unfold picked. induction l as [|x l IH]; [reflexivity|]. cbn [map flat_map]. rewrite IH. reflexivity. }
  rewrite FM in P1, P2, P3. split; [exact P1|]. split; [exact P2|exact P3].
Qed.
Print Assumptions C43_stored.
(** The ranks of the characters of the document are pairwise different. *)
Theorem C43_ranks : forall parseFont mapUnicode from_bytes iswspace ids es p, finite_clips es ->
  parse_events parseFont mapUnicode from_bytes iswspace ids es = Ok p ->
  NoDup (map c_rank (doc_chars (pages p)) ++ map e_rank (doc_shapes (pages p)) ++ map e_rank (doc_graphics (pages p))).
Proof.
  intros parseFont mapUnicode from_bytes iswspace ids es p FC H.
  destruct (C43_stored _ _ _ _ _ es p FC H) as (parts & _ & _ & R & _ & _ & P1 & P2 & P3). set (log := concat parts) in *. clearbody log.
  assert (ND : NoDup (map (fun en => item_rank (en_item en)) log)).
  { rewrite R. apply FinFun.Injective_map_NoDup; [intros a b; lia|apply seq_NoDup]. }
  apply (Permutation_NoDup (l := map (fun en => item_rank (en_item en)) log)); [|exact ND].
  apply Permutation_sym. eapply Permutation_trans.
  { apply Permutation_app; [apply Permutation_map, P1|]. apply Permutation_app; [apply Permutation_map, P2|apply Permutation_map, P3]. }
  clear. induction log as [|en log IH]; [constructor|]. cbn [flat_map map]. destruct en as [pg k it]; destruct it as [c|e|e]; cbn [en_item item_rank app map].
  - constructor. exact IH.
  - eapply Permutation_trans; [apply Permutation_sym, Permutation_middle|]. constructor. exact IH.
  - rewrite app_assoc. eapply Permutation_trans; [apply Permutation_sym, Permutation_middle|]. constructor. rewrite <- app_assoc. exact IH.
Qed.
Print Assumptions C43_ranks.
(** Parsing succeeds on every orderly event stream. *)
Theorem C43_total : forall parseFont mapUnicode from_bytes iswspace ids es,
  orderly parseFont mapUnicode from_bytes es -> exists p, parse_events parseFont mapUnicode from_bytes iswspace ids es = Ok p.
Proof.
  intros parseFont mapUnicode from_bytes iswspace ids es O.
  destruct (progress parseFont mapUnicode from_bytes iswspace ids es O) as (p & P & _). exists p. exact P.
Qed.
Print Assumptions C43_total.
(** A text that isn't valid UTF-8 aborts the whole document with an exception. *)
Theorem C43_invalid_utf8_refuted : forall parseFont mapUnicode iswspace ids (from_bytes : str -> option (list N)) i rest,
  from_bytes [] = None -> parseFont (pf_info ex_pfont) = Ok i ->
  parse_events parseFont mapUnicode from_bytes iswspace ids
    (StartPage 1 (ex_state ex_page 0 0 []) :: UpdateFont (ex_state ex_page 0 0 []) :: DrawChar (ex_state ex_page 50 700 []) 65 1 None 0 :: rest) = Throw "range_error".
Proof.
  intros parseFont mapUnicode iswspace ids from_bytes i rest FB PF. unfold parse_events. cbn [handle_all handle obind].
  unfold update_font. cbn [s_font ex_state]. cbn [start_page pr_fonts parser_init find_font find option_map]. rewrite PF. cbn [obind].
  unfold draw_char. cbn [pr_font char_text Z.eqb obind]. unfold is_blank. rewrite FB. reflexivity.
Qed.
Print Assumptions C43_invalid_utf8_refuted.
(** With an infinite clip box the figures don't agree with themselves: every character gets a figure of its own. *)
Definition inf_clip : clip := mkClip (dopp (ddiv done dzero)) dzero (dZ 300) (dZ 300).
Theorem C43_infinite_clip_refuted : exists es p, ex_run es = Ok p /\ length (pages p) = 1%nat /\
  (forall s c n u l, In (DrawChar s c n u l) es -> s_clip s = inf_clip) /\ map (fun q => length (pp_figures q)) (pages p) = [2%nat].
Proof.
  set (es := [StartPage 1 (ex_state ex_page 0 0 []); UpdateFont (ex_state ex_page 0 0 []);
    DrawChar (ex_state inf_clip 50 700 []) 65 1 (Some [65%N]) 1; DrawChar (ex_state inf_clip 60 700 []) 65 1 (Some [65%N]) 1]).
  assert (X : match ex_run es with Ok p => Some (length (pages p), map (fun q => length (pp_figures q)) (pages p)) | _ => None end = Some (1%nat, [2%nat]))
    by (vm_compute; reflexivity).
  exists es. destruct (ex_run es) as [p|x|x]; try discriminate. exists p. inversion X as [[X1 X2]].
  split; [reflexivity|]. split; [reflexivity|]. split; [|reflexivity].
  intros s c n u l I. unfold es in I. cbn [In] in I. destruct I as [I|[I|[I|[I|[]]]]]; inversion I; reflexivity.
Qed.
Print Assumptions C43_infinite_clip_refuted.

Example ex_summary : summary (ex_run ex_events) =
  Some [(1, [(S_ "A", 0); (S_ "B", 1)], [[(S_ "C", 2)]]); (2, [(S_ "D", 4)], [])].
Proof. vm_compute. reflexivity. Qed.
Definition fin_clip (k : clip) : bool :=
  is_fin (dround (k_left k) 1) && is_fin (dround (k_upper k) 1) && is_fin (dround (k_right k) 1) && is_fin (dround (k_lower k) 1).
Lemma fin_clips_check es : forallb (fun e => match state_of e with Some s => fin_clip (s_clip s) | None => true end) es = true -> finite_clips es.
Proof.
  intros H e s I S0. rewrite forallb_forall in H. specialize (H e I). rewrite S0 in H. unfold fin_clip in H. rewrite !andb_true_iff in H.
  unfold finite_clip. tauto.
Qed.
Example ex_finite : finite_clips ex_events.
Proof. apply fin_clips_check. vm_compute. reflexivity. Qed.
Example ex_orderly : orderly ex_parse ex_map ex_bytes ex_events.
Proof.
  split; [cbn [length ex_events]; lia|]. split; [|split].
  - intros past e rest EQ D. unfold ex_events in EQ.
    destruct past as [|e0 past]; [inversion EQ; subst e; discriminate|]. inversion EQ as [[E0 E1]]. cbn [starts filter is_start]. discriminate.
  - intros s f _ _. eexists. reflexivity.
  - intros past s code n u uLen rest EQ _.
    assert (I : In (DrawChar s code n u uLen) ex_events) by (rewrite EQ; apply in_or_app; right; left; reflexivity).
    clear EQ. unfold ex_events in I. cbn [In] in I.
    repeat (destruct I as [I|I]; [try discriminate; inversion I; subst; clear I;
      (split; [discriminate|]; split; [lia|]; split; [intros l X; inversion X; cbn [length]; lia|]; intros; discriminate)|]).
    contradiction.
Qed.

(** ** C44 Shapes and graphics lie within their clip box *)
Lemma in_log {X} (f : item -> list X) parts es (P : list event -> event -> list entry -> Prop) x :
  length parts = length es -> (forall i e, nth_error es i = Some e -> exists part, nth_error parts i = Some part /\ P (firstn i es) e part) ->
  In x (flat_map (fun en => f (en_item en)) (concat parts)) ->
  exists past e rest part en, es = past ++ e :: rest /\ P past e part /\ In en part /\ In x (f (en_item en)).
Proof.
  intros L A I. apply in_flat_map in I. destruct I as (en & I & J). apply in_concat in I. destruct I as (part & I & K).
  apply In_nth_error in I. destruct I as (i & I). destruct (nth_error es i) as [e|] eqn:N.
  - destruct (A i e N) as (part' & I' & Q). assert (part' = part) by congruence. subst part'.
    apply nth_error_split in N. destruct N as (l1 & l2 & -> & LL). exists l1, e, l2, part, en. split; [reflexivity|]. split; [|split; assumption].
    replace l1 with (firstn i (l1 ++ e :: l2)); [exact Q|]. rewrite firstn_app, <- LL, Nat.sub_diag, firstn_all. cbn [firstn]. apply app_nil_r.
  - apply nth_error_None in N. assert (i < length parts)%nat by (apply nth_error_Some; congruence). lia.
Qed.
(** Every shape of the document comes from a stroke or fill event and has the box that [shape_box] prescribes. *)
Theorem C44_shapes : forall parseFont mapUnicode from_bytes iswspace ids es p, finite_clips es ->
  parse_events parseFont mapUnicode from_bytes iswspace ids es = Ok p ->
  forall sh, In sh (doc_shapes (pages p)) -> exists s, (In (Stroke s) es \/ In (Fill s) es) /\ shape_box s (e_pos sh).
Proof.
  intros parseFont mapUnicode from_bytes iswspace ids es p FC H sh I.
  destruct (C43_stored _ _ _ _ _ es p FC H) as (parts & L & A & _ & _ & _ & _ & P2 & _).
  apply (Permutation_in _ P2) in I.
  destruct (in_log (fun i => match i with IShape e => [e] | _ => [] end) parts es _ sh L A I) as (past & e & rest & part & en & -> & AD & J & K).
  destruct e as [num s| |s|s code nBytes u uLen|s|s|s]; cbn [adds] in AD.
  - subst part. destruct J.
  - subst part. destruct J.
  - subst part. destruct J.
  - destruct (selected past) as [cur|] eqn:SC.
    + destruct (proj2 AD) as (name & text & us & w & _ & _ & _ & B1 & B2); [discriminate|].
      assert (DB : part = [] \/ exists c en, part = [en] /\ en_item en = IChar c).
      { destruct part as [|en0 part0]; [left; reflexivity|right]. destruct B2 as (c & en' & E1 & E2 & _); [intro BB; specialize (B1 BB); discriminate|]. eauto. }
      destruct DB as [->|(c & en' & -> & EI)]; [destruct J|]. destruct J as [<-|[]]. rewrite EI in K. destruct K.
    + rewrite (proj1 AD eq_refl) in J. destruct J.
  - destruct AD as (g & en' & -> & EI & _ & BX). destruct J as [<-|[]]. rewrite EI in K. destruct K as [<-|[]].
    exists s. split; [left; apply in_or_app; right; left; reflexivity|exact BX].
  - destruct AD as (g & en' & -> & EI & _ & BX). destruct J as [<-|[]]. rewrite EI in K. destruct K as [<-|[]].
    exists s. split; [right; apply in_or_app; right; left; reflexivity|exact BX].
  - destruct AD as [(-> & _)|(g & en' & -> & EI & _)]; [destruct J|]. destruct J as [<-|[]]. rewrite EI in K. destruct K.
Qed.
Print Assumptions C44_shapes.
Theorem C44_graphics : forall parseFont mapUnicode from_bytes iswspace ids es p, finite_clips es ->
  parse_events parseFont mapUnicode from_bytes iswspace ids es = Ok p ->
  (forall g, In g (doc_graphics (pages p)) -> exists s, In (DrawImage s) es /\ graphic_box s (Some (e_pos g))) /\
  (forall s, In (DrawImage s) es -> graphic_box s None \/ exists g, In g (doc_graphics (pages p)) /\ graphic_box s (Some (e_pos g))).
Proof.
  intros parseFont mapUnicode from_bytes iswspace ids es p FC H.
  destruct (C43_stored _ _ _ _ _ es p FC H) as (parts & L & A & _ & _ & _ & _ & _ & P3). split.
  - intros g I. apply (Permutation_in _ P3) in I.
    destruct (in_log (fun i => match i with IGraphic e => [e] | _ => [] end) parts es _ g L A I) as (past & e & rest & part & en & -> & AD & J & K).
    destruct e as [num s| |s|s code nBytes u uLen|s|s|s]; cbn [adds] in AD.
    + subst part. destruct J.
    + subst part. destruct J.
    + subst part. destruct J.
    + destruct (selected past) as [cur|] eqn:SC.
      * destruct (proj2 AD) as (name & text & us & w & _ & _ & _ & B1 & B2); [discriminate|].
        assert (DB : part = [] \/ exists c en, part = [en] /\ en_item en = IChar c).
        { destruct part as [|en0 part0]; [left; reflexivity|right]. destruct B2 as (c & en' & E1 & E2 & _); [intro BB; specialize (B1 BB); discriminate|]. eauto. }
        destruct DB as [->|(c & en' & -> & EI)]; [destruct J|]. destruct J as [<-|[]]. rewrite EI in K. destruct K.
      * rewrite (proj1 AD eq_refl) in J. destruct J.
    + destruct AD as (g' & en' & -> & EI & _). destruct J as [<-|[]]. rewrite EI in K. destruct K.
    + destruct AD as (g' & en' & -> & EI & _). destruct J as [<-|[]]. rewrite EI in K. destruct K.
    + destruct AD as [(-> & _)|(g' & en' & -> & EI & _ & BX)]; [destruct J|]. destruct J as [<-|[]]. rewrite EI in K. destruct K as [<-|[]].
      exists s. split; [apply in_or_app; right; left; reflexivity|exact BX].
  - intros s I. apply In_nth_error in I. destruct I as (i & I). destruct (A i _ I) as (part & N & AD). cbn [adds] in AD.
    destruct AD as [(_ & BX)|(g & en & -> & EI & _ & BX)]; [left; exact BX|]. right. exists g. split; [|exact BX].
    apply (Permutation_in _ (Permutation_sym P3)). apply in_flat_map. exists en. split; [|rewrite EI; left; reflexivity].
    apply in_concat. exists [en]. split; [apply (nth_error_In _ _ N)|left; reflexivity].
Qed.
Print Assumptions C44_graphics.

(** Where it fails: the box stored for one shape drawn on the page [ex_page] *)
Definition shape_pos (k : clip) (path : list (list (double * double))) : option position :=
  match ex_run [StartPage 1 (ex_state ex_page 0 0 []); Stroke (ex_state k 0 0 path)] with
  | Ok p => match doc_shapes (pages p) with [sh] => Some (e_pos sh) | _ => None end
  | _ => None
  end.
(** A shape none of whose points is visible is stored nevertheless, with infinite coordinates - even if its line crosses the
    whole clip box. *)
Theorem C44_invisible_refuted : exists b, shape_pos ex_inner [[(dZ 50, dZ 150); (dZ 250, dZ 150)]] = Some b /\
  is_fin (leftX b) = false /\ is_fin (upperY b) = false /\ dlt (rightX b) (leftX b) = true /\ dlt (rightX b) (k_left ex_inner) = true.
Proof.
  assert (X : match shape_pos ex_inner [[(dZ 50, dZ 150); (dZ 250, dZ 150)]] with
    | Some b => is_fin (leftX b) = false /\ is_fin (upperY b) = false /\ dlt (rightX b) (leftX b) = true /\ dlt (rightX b) (k_left ex_inner) = true
    | None => False end) by (vm_compute; repeat split).
  destruct (shape_pos _ _) as [b|]; [|destruct X]. exists b. split; [reflexivity|exact X].
Qed.
Print Assumptions C44_invisible_refuted.
(** A visible shape to the left of the origin: its right edge is 0, farther right than any of its points. *)
Theorem C44_negative_refuted : exists b,
  shape_pos (mkClip (dopp (dZ 100)) dzero (dZ 100) (dZ 100)) [[(dopp (dZ 60), dZ 20); (dopp (dZ 40), dZ 30)]] = Some b /\
  deq (leftX b) (dopp (dZ 60)) = true /\ deq (rightX b) dzero = true.
Proof.
  assert (X : match shape_pos (mkClip (dopp (dZ 100)) dzero (dZ 100) (dZ 100)) [[(dopp (dZ 60), dZ 20); (dopp (dZ 40), dZ 30)]] with
    | Some b => deq (leftX b) (dopp (dZ 60)) = true /\ deq (rightX b) dzero = true | None => False end) by (vm_compute; repeat split).
  destruct (shape_pos _ _) as [b|]; [|destruct X]. exists b. split; [reflexivity|exact X].
Qed.
Print Assumptions C44_negative_refuted.
(** An image that covers the page exactly is not stored; neither is one that sticks out of it on the right only. *)
Definition image_state (a d e f : Z) : gstate :=
  mkGState ex_page (mkMat (dZ a) dzero dzero (dZ d) (dZ e) (dZ f)) None (done, dzero, dzero, done) done done dzero ident dzero dzero done done (dzero, dzero, dzero) [].
Definition image_count (s : gstate) : option nat :=
  match ex_run [StartPage 1 (ex_state ex_page 0 0 []); DrawImage s] with Ok p => Some (length (doc_graphics (pages p))) | _ => None end.
Theorem C44_dropped_image_refuted :
  image_count (image_state 600 800 0 0) = Some 0%nat /\ image_count (image_state 400 100 300 200) = Some 0%nat /\
  image_count (image_state 100 100 300 200) = Some 1%nat.
Proof. vm_compute. repeat split. Qed.
Print Assumptions C44_dropped_image_refuted.

Definition moderate_b (d : double) : bool := dle (dabs d) (dZ 100000000).
Example ex_shape_hypotheses : let s := ex_state ex_inner 0 0 [[(dZ 110, dZ 110); (dZ 150, dZ 120)]] in
  moderate_clip (s_clip s) /\ numbers s /\ rounded (s_clip s) (round_clip (s_clip s)) /\
  exists x y, path_point s x y /\ inside (round_clip (s_clip s)) x y.
Proof.
  cbv zeta. split; [|split; [|split]].
  - assert (X : moderate_b (k_left ex_inner) && moderate_b (k_upper ex_inner) && moderate_b (k_right ex_inner) && moderate_b (k_lower ex_inner) = true) by (vm_compute; reflexivity).
    rewrite !andb_true_iff in X. unfold moderate_clip, moderate. cbn [s_clip ex_state]. tauto.
  - intros sub x y I J. cbn [s_path ex_state] in I. destruct I as [<-|[]]. destruct J as [J|[J|[]]]; inversion J; subst; split; vm_compute; reflexivity.
  - repeat split.
  - exists (dround (dZ 110) 1), (dround (dZ 110) 1). split.
    + eexists _, (dZ 110), (dZ 110). split; [left; reflexivity|]. split; [left; reflexivity|split; reflexivity].
    + unfold inside. repeat split; vm_compute; reflexivity.
Qed.
Example ex_image_hypotheses : let s := image_state 100 100 300 200 in
  moderate_clip (s_clip s) /\ exists x0 y0 x1 y1, image_corners s x0 y0 x1 y1 /\ image_kept (round_clip (s_clip s)) x0 y0 x1 y1 /\
    is_nan_d x0 = false /\ is_nan_d y0 = false /\ is_nan_d x1 = false /\ is_nan_d y1 = false.
Proof.
  cbv zeta. split.
  - assert (X : moderate_b (k_left ex_page) && moderate_b (k_upper ex_page) && moderate_b (k_right ex_page) && moderate_b (k_lower ex_page) = true) by (vm_compute; reflexivity).
    rewrite !andb_true_iff in X. unfold moderate_clip, moderate. cbn [s_clip image_state]. tauto.
  - do 4 eexists. split; [repeat split|]. split; [unfold image_kept; repeat split; vm_compute; reflexivity|]. repeat split; vm_compute; reflexivity.
Qed.

(** ** C67 The box of a character follows the imaging model of PDF *)

(** The event a character of the document comes from *)
Lemma char_source : forall parseFont mapUnicode from_bytes iswspace ids es p, finite_clips es ->
  parse_events parseFont mapUnicode from_bytes iswspace ids es = Ok p ->
  forall c, In c (doc_chars (pages p)) ->
  exists past s code nBytes u uLen rest name text us w, es = past ++ DrawChar s code nBytes u uLen :: rest /\ selected past <> None /\
    glyph_name s code name /\ glyph_text mapUnicode name u uLen text us /\ from_bytes text = Some w /\ ~ blank iswspace w /\
    char_of parseFont past s code nBytes name text us c.
Proof.
  intros parseFont mapUnicode from_bytes iswspace ids es p FC H c I.
  destruct (C43_stored _ _ _ _ _ es p FC H) as (parts & L & A & _ & _ & _ & P1 & _).
  apply (Permutation_in _ P1) in I.
  destruct (in_log (fun i => match i with IChar c => [c] | _ => [] end) parts es _ c L A I) as (past & e & rest & part & en & -> & AD & J & K).
  destruct e as [num s| |s|s code nBytes u uLen|s|s|s]; cbn [adds] in AD.
  - subst part. destruct J.
  - subst part. destruct J.
  - subst part. destruct J.
  - destruct (selected past) as [cur|] eqn:SC; [|rewrite (proj1 AD eq_refl) in J; destruct J].
    destruct (proj2 AD) as (name & text & us & w & G1 & G2 & G3 & B1 & B2); [discriminate|].
    destruct part as [|en0 part0]; [destruct J|].
    assert (NB : ~ blank iswspace w) by (intro BB; specialize (B1 BB); discriminate).
    destruct (B2 NB) as (c' & en' & E1 & E2 & _ & CO). inversion E1; subst en0 part0. destruct J as [<-|[]]. rewrite E2 in K. destruct K as [<-|[]].
    exists past, s, code, nBytes, u, uLen, rest, name, text, us, w. rewrite SC. split; [reflexivity|]. split; [discriminate|]. tauto.
  - destruct AD as (g' & en' & -> & EI & _). destruct J as [<-|[]]. rewrite EI in K. destruct K.
  - destruct AD as (g' & en' & -> & EI & _). destruct J as [<-|[]]. rewrite EI in K. destruct K.
  - destruct AD as [(-> & _)|(g & en' & -> & EI & _)]; [destruct J|]. destruct J as [<-|[]]. rewrite EI in K. destruct K.
Qed.
(** Every character's box lies within a tenth of the one [char_box] prescribes: for coordinates of moderate size. *)
Theorem C67_box : forall parseFont mapUnicode from_bytes iswspace ids es p, finite_clips es ->
  parse_events parseFont mapUnicode from_bytes iswspace ids es = Ok p ->
  forall c, In c (doc_chars (pages p)) ->
  exists past s code nBytes u uLen rest name f i pf w, es = past ++ DrawChar s code nBytes u uLen :: rest /\ glyph_name s code name /\
    font_in_use past f /\ parseFont (pf_info f) = Ok i /\ s_font s = Some pf /\ width_of pf code nBytes w /\
    wMode (c_pos c) = pf_wMode pf /\ char_box s i (pf_wMode pf) name w (c_pos c) (c_base c).
Proof.
  intros parseFont mapUnicode from_bytes iswspace ids es p FC H c I.
  destruct (char_source _ _ _ _ _ es p FC H c I) as (past & s & code & n & u & uLen & rest & name & text & us & w & E0 & _ & GN & _ & _ & _ & CO).
  destruct CO as (_ & _ & _ & _ & _ & _ & (f & i & pf & wd & C1 & C2 & _ & C4 & C5 & C6 & _ & C8) & _).
  exists past, s, code, n, u, uLen, rest, name, f, i, pf, wd. tauto.
Qed.
Print Assumptions C67_box.
(** A box that fits a rectangle of some extent is well-formed. *)
Theorem C67_proper : forall p base r, fits p base r -> (rl r + / 5 <= rr r)%R -> (ru r + / 5 <= rb r)%R ->
  dle (leftX p) (rightX p) = true /\ dle (upperY p) (lowerY p) = true.
Proof.
  intros p base r ((F1 & A1) & (F2 & A2) & (F3 & A3) & (F4 & A4) & _) W H. apply Rabs_le_inv in A1, A2, A3, A4.
  split; (apply dle_E; [apply fin_nn; assumption..|]; rewrite !E_fin by assumption; lra).
Qed.
Print Assumptions C67_proper.
(** Upside-down text: the rectangle is mirrored, the left edge of the stored box lies right of the right edge. *)
Definition over_state : gstate :=
  mkGState ex_page flip (Some ex_pfont) (dopp (dZ 10), dzero, dzero, dZ 10) (dZ 10) done dzero (mkMat (dopp done) dzero dzero (dopp done) dzero dzero)
    (dZ 50) (dZ 700) (dZ 10) done (dzero, dzero, dzero) [].
Definition char_at (s : gstate) : option position :=
  match ex_run [StartPage 1 s; UpdateFont s; DrawChar s 65 1 (Some [65%N]) 1] with
  | Ok p => match doc_chars (pages p) with [c] => Some (c_pos c) | _ => None end
  | _ => None
  end.
Theorem C67_upside_down_refuted : exists b, char_at over_state = Some b /\ rotation b = 2 /\
  deq (leftX b) (dZ 50) = true /\ deq (rightX b) (dZ 45) = true /\ dlt (upperY b) (lowerY b) = true.
Proof.
  assert (X : match char_at over_state with Some b => rotation b = 2 /\ deq (leftX b) (dZ 50) = true /\ deq (rightX b) (dZ 45) = true /\ dlt (upperY b) (lowerY b) = true
    | None => False end) by (vm_compute; repeat split).
  destruct (char_at over_state) as [b|]; [|destruct X]. exists b. split; [reflexivity|exact X].
Qed.
Print Assumptions C67_upside_down_refuted.
(** The hypotheses hold for the first character of [ex_events]; the exact rectangle is [50, 55] x [90.5, 103.5]. *)
Lemma up_to_check m d : (1 <= m < 2 ^ 53)%Z -> dle (dabs d) (dZ m) = true -> up_to (IZR m) d.
Proof.
  intros M H. destruct (dZ_exact m M) as (F & V). destruct (dle_nn _ _ H) as (N1 & N2).
  assert (ND : nn d). { unfold nn, is_nan_d, dabs in *. rewrite is_nan_Babs in N1. exact N1. }
  destruct (dabs_E d ND) as (_ & VA). apply (dle_E _ _ N1 N2) in H. rewrite VA, V in H.
  assert (FD : is_fin d = true).
  { apply E_fin_iff; [exact ND|]. pose proof (IZR_lt _ _ (proj2 M)) as HM. change (IZR (2 ^ 53)) with 9007199254740992%R in HM.
    assert (9007199254740992 < DoubleFacts.M)%R.
    { change 9007199254740992%R with (IZR (Zpower_pos 2 53)). change (IZR (Zpower_pos 2 53)) with (bpow radix2 53). change DoubleFacts.M with (bpow radix2 1024). apply bpow_lt. lia. }
    apply Rabs_le_inv in H. lra. }
  split; [exact FD|]. rewrite E_fin in H by exact FD. exact H.
Qed.
Definition within (m : Z) (d : double) : bool := dle (dabs d) (dZ m).
Definition modest_check (s : gstate) (w : double) : bool :=
  within 1000 (s_fontSize s) && within 10 (s_horiz s) && within 10000 (s_rise s) &&
  within 100 (mt0 (s_textMat s)) && within 100 (mt1 (s_textMat s)) && within 100 (mt2 (s_textMat s)) && within 100 (mt3 (s_textMat s)) &&
  within 1000000 (s_curX s) && within 1000000 (s_curY s) &&
  within 100 (mt0 (s_ctm s)) && within 100 (mt1 (s_ctm s)) && within 100 (mt2 (s_ctm s)) && within 100 (mt3 (s_ctm s)) &&
  within 1000000 (mt4 (s_ctm s)) && within 1000000 (mt5 (s_ctm s)) && within 100 w && within 1000000 (s_tfs s).
Lemma modest_check_ok s w : modest_check s w = true -> modest_text s w.
Proof.
  unfold modest_check, within. rewrite !andb_true_iff. intro H. unfold modest_text, modest_matrix. decompose [and] H. clear H.
  repeat match goal with |- _ /\ _ => split end; (apply up_to_check; [lia|assumption]).
Qed.
Example ex_modest : let s := ex_state ex_page 50 700 [] in
  modest_text s (dec 5 1) /\ modest_font ex_font /\ (forall b, ~ boxed ex_font (S_ "") b) /\ boxed ex_font (S_ "tall") (0, -200, 500, 1500) /\
  modest_box (0, -200, 500, 1500) /\ (exists fm, font_space ex_font fm) /\
  origin s = (50, 100)%R /\ next_origin s (dec 5 1) = (55, 100)%R.
Proof.
  cbv zeta. assert (VZ : forall z, (Z.abs z <= 10000)%Z -> B2R (dZ z) = IZR z).
  { intros z Z0. destruct (near_Z z Z0) as (_ & V & _). apply Rminus_diag_uniq. destruct (Req_dec (B2R (dZ z) - IZR z) 0) as [Q|Q]; [exact Q|].
    apply Rabs_pos_lt in Q. lra. }
  assert (V1 : B2R done = 1%R) by (apply (VZ 1); lia).
  assert (VM : B2R (dopp done) = (-1)%R) by (unfold dopp; rewrite B2R_Bopp, V1; lra).
  assert (V0 : B2R dzero = 0%R) by reflexivity.
  assert (V5 : B2R (dec 5 1) = (/ 2)%R).
  { rewrite <- SF2R_B2SF. replace (B2SF (dec 5 1)) with (SpecFloat.S754_finite false 4503599627370496 (-53)) by (vm_compute; reflexivity).
    unfold SF2R, F2R. cbn [cond_Zopp Fnum Fexp].
    change (IZR (Z.pos 4503599627370496)) with 4503599627370496%R. change (bpow radix2 (-53)) with (/ IZR (Zpower_pos 2 53))%R.
    change (Zpower_pos 2 53) with 9007199254740992%Z. lra. }
  split; [apply modest_check_ok; vm_compute; reflexivity|].
  split; [split; apply (up_to_check 100); [lia|vm_compute; reflexivity|lia|vm_compute; reflexivity]|].
  split; [intros b (l & l' & E0 & _); destruct l as [|x l]; inversion E0; destruct l; discriminate|].
  split; [exists [], []; split; [reflexivity|intros []]|].
  split; [unfold modest_box; lia|].
  split.
  { eexists. exists (dec 1 3), dzero, dzero, (dec 1 3), dzero, dzero. split; [reflexivity|]. split; [reflexivity|].
    assert (K : up_to (/ 100) (dec 1 3)).
    { split; [vm_compute; reflexivity|]. rewrite <- SF2R_B2SF. replace (B2SF (dec 1 3)) with (SpecFloat.S754_finite false 4611686018427388 (-62)) by (vm_compute; reflexivity).
      unfold SF2R, F2R. cbn [cond_Zopp Fnum Fexp].
      change (IZR (Z.pos 4611686018427388)) with 4611686018427388%R. change (bpow radix2 (-62)) with (/ IZR (Zpower_pos 2 62))%R.
      change (Zpower_pos 2 62) with 4611686018427387904%Z. apply Rabs_le. lra. }
    assert (Z0 : forall m, (0 <= m)%R -> up_to m dzero) by (intros m M0; split; [reflexivity|]; rewrite V0, Rabs_R0; exact M0).
    split; [exact K|]. split; [apply Z0; lra|]. split; [apply Z0; lra|]. split; [exact K|]. split; apply Z0; lra. }
  unfold origin, next_origin, on_page, on_line, real_matrix, through, ex_state, flip, ident. cbn [fst snd s_textMat s_ctm s_curX s_curY s_fontSize s_horiz s_rise mt0 mt1 mt2 mt3 mt4 mt5].
  rewrite (VZ 10), (VZ 50), (VZ 700), (VZ 800), V1, VM, V0, V5 by lia. split; f_equal; lra.
Qed.

(** ** C68 The rotation of a character *)
(** Text whose direction and orientation are clear is reported with its number of quarter turns (one more in vertical mode). *)
Theorem C68_rotation : forall parseFont mapUnicode from_bytes iswspace ids es p, finite_clips es ->
  parse_events parseFont mapUnicode from_bytes iswspace ids es = Ok p ->
  forall c, In c (doc_chars (pages p)) ->
  exists s code nBytes u uLen pf, In (DrawChar s code nBytes u uLen) es /\ s_font s = Some pf /\ turned s pf (rotation (c_pos c)).
Proof.
  intros parseFont mapUnicode from_bytes iswspace ids es p FC H c I.
  destruct (char_source _ _ _ _ _ es p FC H c I) as (past & s & code & n & u & uLen & rest & name & text & us & w & E0 & _ & GN & _ & _ & _ & CO).
  destruct CO as (_ & _ & _ & _ & _ & _ & (f & i & pf & wd & C1 & C2 & _ & C4 & C5 & C6 & C7 & C8) & _).
  exists s, code, n, u, uLen, pf. split; [rewrite E0; apply in_or_app; right; left; reflexivity|]. split; assumption.
Qed.
Print Assumptions C68_rotation.
(** Upright text of a Type-3 font with the usual font matrix 0.001 and a size of 9 is reported as rotated by three quarters. *)
Definition type3_font : pfont :=
  mkPFont (mkGfx (Some (S_ "T")) [] 0 true 0 [dec 1 3; dzero; dzero; dec 1 3; dzero; dzero] None) (Font8Bit (fun _ => None) (fun _ => dec 5 1)) 0.
Definition type3_state (size : Z) : gstate :=
  mkGState ex_page flip (Some type3_font) (dZ size, dzero, dzero, dopp (dZ size)) (dZ size) done dzero ident (dZ 50) (dZ 700) (dZ size) done (dzero, dzero, dzero) [].
Theorem C68_type3_refuted : option_map rotation (char_at (type3_state 9)) = Some 3 /\ option_map rotation (char_at (type3_state 12)) = Some 0.
Proof. split; vm_compute; reflexivity. Qed.
Print Assumptions C68_type3_refuted.
(** So is any upright text smaller than a hundredth of a point. *)
Theorem C68_tiny_refuted : exists s, s_trans s = (dec 5 3, dzero, dzero, dopp (dec 5 3)) /\ option_map rotation (char_at s) = Some 3.
Proof.
  exists (mkGState ex_page flip (Some ex_pfont) (dec 5 3, dzero, dzero, dopp (dec 5 3)) (dec 5 3) done dzero ident (dZ 50) (dZ 700) (dec 5 3) done (dzero, dzero, dzero) []).
  split; [reflexivity|]. vm_compute. reflexivity.
Qed.
Print Assumptions C68_tiny_refuted.
Example ex_turned : option_map rotation (char_at (ex_state ex_page 50 700 [])) = Some 0 /\
  exists m0 m1 m2 m3, font_axes (ex_state ex_page 50 700 []) ex_pfont m0 m1 m2 m3 /\ faces m0 m1 m2 m3 0.
Proof.
  split; [vm_compute; reflexivity|].
  assert (VZ : B2R (dZ 10) = 10%R).
  { destruct (near_Z 10 ltac:(lia)) as (_ & V & _). apply Rminus_diag_uniq. destruct (Req_dec (B2R (dZ 10) - 10) 0) as [Q|Q]; [exact Q|].
    apply Rabs_pos_lt in Q. lra. }
  assert (V0 : B2R dzero = 0%R) by reflexivity.
  assert (VM : B2R (dopp (dZ 10)) = (-10)%R) by (unfold dopp; rewrite B2R_Bopp, VZ; lra).
  exists 10%R, 0%R, 0%R, (-10)%R. split.
  - unfold font_axes. cbn [s_trans ex_state g_type3 pf_info ex_pfont]. rewrite VZ, V0, VM.
    do 4 (split; [apply (up_to_check 10000); [lia|vm_compute; reflexivity]|]). repeat split.
  - unfold faces. split; [lra|]. split; [lra|]. rewrite !Rabs_mult, (Rabs_right 10), (Rabs_left (-10)), Rabs_R0 by lra. lra.
Qed.

(** ** C69 Fonts are told apart by their names *)
(** The fonts of the document: one per name that was selected, with the properties of the first font of this name. *)
Theorem C69_fonts : forall parseFont mapUnicode from_bytes iswspace ids es p,
  parse_events parseFont mapUnicode from_bytes iswspace ids es = Ok p ->
  NoDup (map fst (pr_fonts p)) /\
  (forall n i, In (n, i) (pr_fonts p) <-> exists f, first_called es n f /\ parseFont (pf_info f) = Ok i).
Proof.
  intros parseFont mapUnicode from_bytes iswspace ids es p H.
  destruct (fonts_run parseFont mapUnicode from_bytes iswspace ids es p H) as (ND & A & B & _). split; [exact ND|].
  assert (FI : forall n i, In (n, i) (pr_fonts p) <-> find_font n (pr_fonts p) = Some i).
  { intros n i. clear A B H. induction (pr_fonts p) as [|(m, j) l IH]; [split; [intros []|discriminate]|].
    inversion ND as [|x l0 NI ND']; subst. unfold find_font in *. cbn [find fst]. destruct (str_eqb m n) eqn:E0.
    - apply str_eqb_eq in E0. subst m. cbn [option_map snd]. split.
      + intros [X|X]; [inversion X; reflexivity|]. exfalso. apply NI. apply (in_map fst _ _ X).
      + intro X. left. congruence.
    - rewrite <- IH by exact ND'. split; [|intro X; right; exact X]. intros [X|X]; [inversion X; subst; rewrite str_eqb_refl in E0; discriminate|exact X]. }
  intros n i. rewrite FI. split; [apply A|]. intros (f & FC & PF).
  destruct (find_font n (pr_fonts p)) as [j|] eqn:FN.
  - destruct (A n j FN) as (g & GC & PG). rewrite (first_called_unique _ _ _ _ FC GC) in PF. congruence.
  - exfalso. destruct FC as (b & s & a & -> & SF & CF & _). apply (B n FN s f); [apply in_or_app; right; left; reflexivity|exact SF|exact CF].
Qed.
Print Assumptions C69_fonts.
(** A character carries the name that the first font with the name of its font has. *)
Theorem C69_character : forall parseFont mapUnicode from_bytes iswspace ids es p, finite_clips es ->
  parse_events parseFont mapUnicode from_bytes iswspace ids es = Ok p ->
  forall c, In c (doc_chars (pages p)) ->
  exists past s code nBytes u uLen rest cur n f i, es = past ++ DrawChar s code nBytes u uLen :: rest /\
    selected past = Some cur /\ called cur n /\ first_called past n f /\ parseFont (pf_info f) = Ok i /\ c_fontName c = f_name i /\ In (n, i) (pr_fonts p).
Proof.
  intros parseFont mapUnicode from_bytes iswspace ids es p FC H c I.
  destruct (char_source _ _ _ _ _ es p FC H c I) as (past & s & code & n & u & uLen & rest & name & text & us & w & E0 & _ & GN & _ & _ & _ & CO).
  destruct CO as (_ & _ & _ & _ & _ & _ & (f & i & pf & wd & (cur & nm & S1 & S2 & S3) & C2 & C3 & _) & _).
  exists past, s, code, n, u, uLen, rest, cur, nm, f, i. repeat (split; [assumption|]).
  apply (proj2 (C69_fonts _ _ _ _ _ es p H)). exists f. split; [|exact C2].
  destruct S3 as (b & s0 & a & -> & X). exists b, s0, (a ++ DrawChar s code n u uLen :: rest). split; [rewrite E0, <- app_assoc; reflexivity|exact X].
Qed.
Print Assumptions C69_character.
(** Two different fonts of the same name are taken for one: the character drawn with the second one gets the properties of
    the first one. *)
Definition same_name (w : Z) : pfont := mkPFont (mkGfx (Some (S_ "F")) [] 0 false w [] None) (Font8Bit (fun _ => None) (fun _ => dec 5 1)) 0.
Definition with_font (f : pfont) : gstate :=
  mkGState ex_page flip (Some f) (dZ 10, dzero, dzero, dopp (dZ 10)) (dZ 10) done dzero ident (dZ 50) (dZ 700) (dZ 10) done (dzero, dzero, dzero) [].
Definition weight_font (g : gfx_font) : outcome font := Ok (mkFont (S_ "F") [] [] false false false false false (g_weight g) dzero dzero [] []).
Theorem C69_same_name_refuted : exists p,
  parse_events weight_font ex_map ex_bytes ex_space ex_ids
    [StartPage 1 (with_font (same_name 400)); UpdateFont (with_font (same_name 400)); UpdateFont (with_font (same_name 800));
     DrawChar (with_font (same_name 800)) 65 1 (Some [65%N]) 1] = Ok p /\
  map (fun x => f_weight (snd x)) (pr_fonts p) = [400] /\ length (doc_chars (pages p)) = 1%nat.
Proof.
  set (o := parse_events _ _ _ _ _ _).
  assert (X : match o with Ok p => Some (map (fun x => f_weight (snd x)) (pr_fonts p), length (doc_chars (pages p))) | _ => None end = Some ([400], 1%nat))
    by (vm_compute; reflexivity).
  destruct o as [p|x|x]; try discriminate. exists p. inversion X. repeat split.
Qed.
Print Assumptions C69_same_name_refuted.

(** ** C70 Figures *)
(** Every figure was created by its first element, has that element's clip box (which agrees neither with the page's nor with
    that of an earlier figure), and its box is the smallest one around its elements. *)
Theorem C70_figures : forall parseFont mapUnicode from_bytes iswspace ids es p, finite_clips es ->
  parse_events parseFont mapUnicode from_bytes iswspace ids es = Ok p ->
  exists log, Permutation (doc_chars (pages p)) (flat_map (fun en => match en_item en with IChar c => [c] | _ => [] end) log) /\
    Permutation (doc_shapes (pages p)) (flat_map (fun en => match en_item en with IShape e => [e] | _ => [] end) log) /\
    Permutation (doc_graphics (pages p)) (flat_map (fun en => match en_item en with IGraphic e => [e] | _ => [] end) log) /\
    forall j pg, nth_error (pages p) j = Some pg -> page_holds j pg log /\ figures_created j pg log.
Proof.
  intros parseFont mapUnicode from_bytes iswspace ids es p FC H.
  destruct (run_ok parseFont mapUnicode from_bytes iswspace ids es FC p H) as (_ & parts & L & A & LO).
  destruct (log_stored _ _ _ LO) as (P1 & P2 & P3). exists (concat parts).
  assert (FM : forall (X : Type) (f : item -> list X) l, picked f l = flat_map (fun en => f (en_item en)) l).
  { intros X f l. unfold picked. induction l as [|x l IH]; [reflexivity|]. cbn [map flat_map]. rewrite IH. reflexivity. }
  rewrite FM in P1, P2, P3. split; [exact P1|]. split; [exact P2|]. split; [exact P3|]. apply LO.
Qed.
Print Assumptions C70_figures.
(** No figure is empty, and the clip boxes of the figures of a page are pairwise different. *)
Theorem C70_not_empty : forall parseFont mapUnicode from_bytes iswspace ids es p, finite_clips es ->
  parse_events parseFont mapUnicode from_bytes iswspace ids es = Ok p ->
  forall pg, In pg (pages p) ->
    (forall f, In f (pp_figures pg) -> agree (fg_clip f) (pp_clip pg) = false /\ pageNum (fg_pos f) = pp_num pg /\
       (fg_chars f <> [] \/ fg_shapes f <> [] \/ fg_graphics f <> [])) /\
    (forall m n f g, (m < n)%nat -> nth_error (pp_figures pg) m = Some f -> nth_error (pp_figures pg) n = Some g -> agree (fg_clip g) (fg_clip f) = false).
Proof.
  intros parseFont mapUnicode from_bytes iswspace ids es p FC H pg I.
  destruct (C70_figures _ _ _ _ _ es p FC H) as (log & _ & _ & _ & A). apply In_nth_error in I. destruct I as (j & J).
  destruct (A j pg J) as ((_ & PH & _) & FG). split.
  - intros f I. apply In_nth_error in I. destruct I as (m & M0). destruct (FG m f M0) as (E1 & E2 & en & rest & E3 & _).
    split; [cbn [existsb] in E1; apply orb_false_iff in E1; apply E1|]. split; [exact E2|].
    destruct (PH m f M0) as (H1 & H2 & H3). rewrite items_entries, E3 in H1, H2, H3. cbn [map flat_map] in H1, H2, H3.
    destruct (en_item en) as [c|e|e]; [left; rewrite H1|right; left; rewrite H2|right; right; rewrite H3]; discriminate.
  - intros m n f g LT F G. destruct (FG n g G) as (E1 & _). cbn [existsb] in E1. apply orb_false_iff in E1. destruct E1 as (_ & E1).
    destruct (agree (fg_clip g) (fg_clip f)) eqn:AG; [|reflexivity]. exfalso.
    assert (X : existsb (agree (fg_clip g)) (map fg_clip (firstn n (pp_figures pg))) = true); [|congruence].
    apply existsb_exists. exists (fg_clip f). split; [|exact AG]. apply in_map.
    apply nth_error_In with m. rewrite <- F. clear - LT. revert m n LT. induction (pp_figures pg) as [|x l IH]; intros m n LT; [destruct m, n; reflexivity|].
    destruct n; [lia|]. destruct m; [reflexivity|]. cbn [firstn nth_error]. apply IH. lia.
Qed.
Print Assumptions C70_not_empty.

(** ** C71 The text of a character *)
(** The text comes from the table of glyph names, if it has the name and the character stands for one code point, and
    otherwise from the code points of the font. *)
Theorem C71_text : forall parseFont mapUnicode from_bytes iswspace ids es p, finite_clips es ->
  parse_events parseFont mapUnicode from_bytes iswspace ids es = Ok p ->
  forall c, In c (doc_chars (pages p)) ->
  exists s code nBytes u uLen w, In (DrawChar s code nBytes u uLen) es /\ glyph_name s code (c_name c) /\
    glyph_text mapUnicode (c_name c) u uLen (c_text c) (c_unicodes c) /\ from_bytes (c_text c) = Some w /\ ~ blank iswspace w /\
    c_opacity c = s_opacity s /\ c_color c = s_rgb s /\ c_fontSize c = dround (s_tfs s) 1.
Proof.
  intros parseFont mapUnicode from_bytes iswspace ids es p FC H c I.
  destruct (char_source _ _ _ _ _ es p FC H c I) as (past & s & code & n & u & uLen & rest & name & text & us & w & E0 & _ & GN & GT & FB & NB & CO).
  destruct CO as (<- & <- & <- & C4 & C5 & C6 & _).
  exists s, code, n, u, uLen, w. split; [rewrite E0; apply in_or_app; right; left; reflexivity|]. tauto.
Qed.
Print Assumptions C71_text.
(** The texts of the table are the UTF-8 encodings of its code points; five entries are wrong: "controlNULL" has an empty text,
    the texts of the thumbs are U+1F44 and a letter. *)
Definition table_exceptions : list string := ["controlNULL"; "thumbs_down"; "thumbs_down_alt"; "thumbs_up"; "thumbs_up_alt"]%string.
Theorem C71_table : forall name u t, in_table name u t -> ~ In name (map S_ table_exceptions) -> map N_of_ascii t = utf8 u.
Proof.
  intros name u t (a & b & E0 & _) NI.
  assert (X : forallb (fun e => existsb (str_eqb (fst e)) (map S_ table_exceptions) ||
    (if list_eq_dec N.eq_dec (map N_of_ascii (snd (snd e))) (utf8 (fst (snd e))) then true else false)) charMapEntries = true) by (vm_compute; reflexivity).
  rewrite forallb_forall in X. specialize (X (name, (u, t))). rewrite E0 in X.
  assert (I : In (name, (u, t)) (a ++ (name, (u, t)) :: b)) by (apply in_or_app; right; left; reflexivity). specialize (X I). cbn [fst snd] in X.
  apply orb_true_iff in X. destruct X as [X|X].
  - exfalso. apply NI. apply existsb_exists in X. destruct X as (y & Y & Z0). apply str_eqb_eq in Z0. subst y. exact Y.
  - destruct (list_eq_dec N.eq_dec (map N_of_ascii t) (utf8 u)) as [Q|Q]; [exact Q|discriminate].
Qed.
Print Assumptions C71_table.
Theorem C71_table_refuted : forall name, In name (map S_ table_exceptions) -> exists u t, in_table name u t /\ map N_of_ascii t <> utf8 u.
Proof.
  assert (X : forall name, In name (map S_ table_exceptions) -> match find_name name with Some (u, t) => map N_of_ascii t <> utf8 u | None => False end).
  { intros name I. unfold table_exceptions in I. cbn [map In] in I. repeat (destruct I as [<-|I]; [vm_compute; discriminate|]). destruct I. }
  intros name I. specialize (X name I). destruct (find_name name) as [[u t]|] eqn:F; [|destruct X]. exists u, t. split; [apply find_name_some, F|exact X].
Qed.
Print Assumptions C71_table_refuted.
Example ex_table : in_table (S_ "summationdisplay") 8721%N (map ascii_of_nat [226; 136; 145]%nat) /\ ~ In (S_ "summationdisplay") (map S_ table_exceptions).
Proof.
  split; [apply find_name_some; vm_compute; reflexivity|]. intro I. unfold table_exceptions in I. cbn [map In] in I.
  repeat (destruct I as [I|I]; [discriminate|]). destruct I.
Qed.
