(** PipelinePages.v - every part of the result lies on the page it belongs to. *)
From Coq Require Import ZArith NArith.
From Verif Require Import Base Double MathUtils Elements Sort XYCut XYCutProofs Document LinesSpec Visualization VisualizationSpec Pipeline PipelineSpec PipelineLines PipelineProofs PipelineWords PipelineWhole
  PipelineContent PipelineStages StatisticsSpec WiringSpec PipelineStats PagesSpec.
From Verif Require Fonts Parsing Statistics Words Lines Scripts PageSegmentation ReadingOrder Cli TotalWhole.
Local Opaque TOL dZ dadd dsub ddiv dmul dec DBL_MAX DBL_MIN.

(** ** Parsing *)
Definition boxes_on_page (q : Parsing.ppage) : Prop :=
  let n := Parsing.pp_num q in
  all_on n (map c_pos (Parsing.pp_chars q)) /\ all_on n (map e_pos (Parsing.pp_shapes q)) /\ all_on n (map e_pos (Parsing.pp_graphics q)) /\
  all_on n (map Parsing.fg_pos (Parsing.pp_figures q)).
Lemma all_on_app n a b : all_on n a -> all_on n b -> all_on n (a ++ b).
Proof. intros A B p H. apply in_app_or in H as [H|H]; auto. Qed.
Lemma all_on_nil n : all_on n []. Proof. intros p []. Qed.
Lemma all_on_one n p : pageNum p = n -> all_on n [p]. Proof. intros E q [<-|[]]. exact E. Qed.
Lemma add_figures_on k i n fs : forall fs', Parsing.add_figures k i fs = Some fs' -> all_on n (map Parsing.fg_pos fs) -> all_on n (map Parsing.fg_pos fs').
Proof.
  induction fs as [|f fs IH]; intros fs' H A; cbn [Parsing.add_figures] in H; [discriminate|].
  destruct (Parsing.same_clip k (Parsing.fg_clip f)).
  - injection H as <-. cbn [map]. intros p [<-|Hp]; [|apply A; right; exact Hp]. cbn [Parsing.add_figure Parsing.fg_pos pageNum]. apply A. left. reflexivity.
  - destruct (Parsing.add_figures k i fs) as [r|]; [|discriminate]. injection H as <-. cbn [map]. intros p [<-|Hp]; [apply A; left; reflexivity|].
    refine (IH r eq_refl _ p Hp). intros x Hx. apply A. right. exact Hx.
Qed.
Lemma place_on k i q : pageNum (Parsing.item_pos i) = Parsing.pp_num q -> boxes_on_page q -> boxes_on_page (Parsing.place k i q).
Proof.
  intros Hi (A & B & C & D). unfold Parsing.place. destruct (Parsing.same_clip k (Parsing.pp_clip q)).
  - unfold boxes_on_page, Parsing.add_page. cbn [Parsing.pp_chars Parsing.pp_shapes Parsing.pp_graphics Parsing.pp_figures Parsing.pp_num]. rewrite !map_app.
    destruct i as [c|e|e]; cbn [Parsing.opt_char Parsing.opt_shape Parsing.opt_graphic map Parsing.item_pos] in *;
      (split; [|split; [|split; [|exact D]]]); apply all_on_app; try assumption; first [apply all_on_nil|apply all_on_one; assumption].
  - destruct (Parsing.add_figures k i (Parsing.pp_figures q)) as [fs|] eqn:E; unfold boxes_on_page, Parsing.set_figures;
      cbn [Parsing.pp_chars Parsing.pp_shapes Parsing.pp_graphics Parsing.pp_figures Parsing.pp_num]; (split; [exact A|split; [exact B|split; [exact C|]]]).
    + exact (add_figures_on _ _ _ _ _ E D).
    + rewrite map_app. apply all_on_app; [exact D|]. apply all_on_one. reflexivity.
Qed.
Lemma store_on k mk p p' : (forall n r, pageNum (Parsing.item_pos (mk n r)) = n) ->
  Parsing.store k mk p = Ok p' -> Forall boxes_on_page (Parsing.pages p) -> Forall boxes_on_page (Parsing.pages p').
Proof.
  intros Hm H F. unfold Parsing.store in H. destruct (Parsing.pr_page p) as [q|] eqn:E; [|discriminate].
  destruct (_ =? _)%Z; [discriminate|]. apply Ok_inj in H. subst p'. unfold Parsing.pages in *. cbn [Parsing.pr_done Parsing.pr_page].
  rewrite E in F. apply Forall_app in F as [F1 F2]. apply Forall_app. split; [exact F1|]. constructor; [|constructor].
  inversion F2 as [|? ? F3 _]. subst. apply place_on; [apply Hm|exact F3].
Qed.
Lemma parse_on m es : forall p p',
  Parsing.handle_all (m_parseFont m) (m_mapUnicode m) (m_fromBytes m) (m_iswspace m) (m_charId m) es p = Ok p' ->
  Forall boxes_on_page (Parsing.pages p) -> Forall boxes_on_page (Parsing.pages p').
Proof.
  induction es as [|e es IH]; intros p p' H F; cbn [Parsing.handle_all] in H; [apply Ok_inj in H; subst; exact F|].
  destruct (Parsing.handle _ _ _ _ _ p e) as [p1| |] eqn:E; try discriminate. cbn [obind] in H. apply (IH p1 p' H). clear IH H.
  destruct e as [num s| |s|s code nB u uL|s|s|s]; cbn [Parsing.handle] in E.
  - apply Ok_inj in E. subst p1. unfold Parsing.start_page, Parsing.pages at 1. cbn [Parsing.pr_done Parsing.pr_page]. apply Forall_app. split; [exact F|].
    constructor; [|constructor]. split; [apply all_on_nil|split; [apply all_on_nil|split; apply all_on_nil]].
  - apply Ok_inj in E. subst p1. exact F.
  - unfold Parsing.update_font in E. destruct (Parsing.s_font s) as [f|]; [|apply Ok_inj in E; subst p1; exact F].
    destruct (Parsing.find_font _ _) as [i|]; [apply Ok_inj in E; subst p1; exact F|].
    destruct (m_parseFont m (Parsing.pf_info f)) as [i| |]; try discriminate. cbn [obind] in E. apply Ok_inj in E. subst p1. exact F.
  - unfold Parsing.draw_char in E. destruct (Parsing.pr_font p) as [i|]; [|apply Ok_inj in E; subst p1; exact F].
    destruct (Parsing.char_text _ _ _ _) as [[text us]| |]; try discriminate. cbn [obind] in E.
    destruct (Parsing.is_blank _ _ _) as [[]| |]; try discriminate; cbn [obind] in E; [apply Ok_inj in E; subst p1; exact F|].
    destruct (Parsing.s_font s) as [pf|]; [|discriminate].
    destruct (Parsing.char_width _ _ _) as [w| |]; try discriminate. cbn [obind] in E. revert E F. apply store_on.
    intros n r. destruct (Parsing.char_position _ _ _ _ _ _) as [pos base] eqn:EP. cbn [Parsing.item_pos c_pos].
    unfold Parsing.char_position in EP. cbv zeta in EP. revert EP.
    match goal with |- (let '(_, _) := ?x in _) = _ -> _ => destruct x | |- _ => idtac end.
    intros EP. apply pair_equal_spec in EP as [<- _]. reflexivity.
  - unfold Parsing.stroke in E. destruct (fold_left _ _ _) as [[[l u] r] d]. revert E F. apply store_on. intros n k. reflexivity.
  - unfold Parsing.stroke in E. destruct (fold_left _ _ _) as [[[l u] r] d]. revert E F. apply store_on. intros n k. reflexivity.
  - unfold Parsing.draw_graphic in E. destruct (Parsing.outside _ _ _ _ _); [apply Ok_inj in E; subst p1; exact F|]. revert E F. apply store_on. intros n k. reflexivity.
Qed.

(** ** Cuts *)
Section Cuts.
  Context {A : Type} (pos : A -> position) (impl : (A -> A -> bool) -> list A -> list A) (topi : (A -> A -> bool) -> list A -> nat).
  Hypothesis HI : sort_ok impl.
  Context (n : Z).
  Definition here (l : list A) : Prop := Forall (fun e => pageNum (pos e) = n) l.
  Definition cuts_here (l : list (cut A)) : Prop := Forall (fun c => cut_page c = n) l.
  Lemma find_gap_here g y1 y2 p e : pageNum (pos e) = n -> forall prevs o c, find_gap pos g y1 y2 p e o prevs = Some c -> cut_page c = n.
  Proof.
    intros He. induction prevs as [|x l IH]; intros o c H; cbn [find_gap] in H; [discriminate|]. destruct (equalOrLarger _ _ _); [|exact (IH _ _ H)].
    injection H as <-. exact He.
  Qed.
  Lemma x_scan_here g y1 y2 cap : forall rest p q cs, here rest -> x_scan pos impl topi g y1 y2 cap p q rest = Ok cs -> cuts_here cs.
  Proof.
    induction rest as [|e t IH]; intros p q cs He H; cbn [x_scan] in H; [apply Ok_inj in H; subst; constructor|]. inversion He; subst.
    match type of H with obind ?x _ = _ => destruct x as [s0| |]; try discriminate end. cbn [obind] in H. destruct (pq_top _ _ q) as [tp| |]; try discriminate. cbn [obind] in H.
    match type of H with obind ?x _ = _ => destruct x as [q'| |]; try discriminate end. cbn [obind] in H.
    destruct (x_scan _ _ _ _ _ _ _ (S p) q' t) as [cs'| |] eqn:E; try discriminate. cbn [obind] in H. apply Ok_inj in H. subst cs.
    apply Forall_app. split; [|apply (IH _ _ _ H3 E)]. destruct (find_gap _ _ _ _ _ _ _ _) as [c|] eqn:EG; cbn [opt_list]; [|constructor]. constructor; [|constructor]. revert EG. apply find_gap_here. assumption.
  Qed.
  Lemma y_scan_here g x1 x2 : forall rest p l, here rest -> cuts_here (y_scan pos g x1 x2 p l rest).
  Proof.
    induction rest as [|e t IH]; intros p l He; cbn [y_scan]; [constructor|]. inversion He; subst. apply Forall_app. split; [|apply IH; assumption].
    destruct (equalOrLarger _ _ _); constructor; [assumption|constructor].
  Qed.
  Lemma flags_here : forall (cs : list (cut A)) fl, cuts_here cs -> cuts_here (apply_flags cs fl).
  Proof. induction cs as [|c cs IH]; intros fl H; cbn [apply_flags]; [constructor|]. inversion H; subst. constructor; [assumption|apply IH; assumption]. Qed.
  Lemma divide_here : forall cs k s gs, here s -> divide k cs s = Ok gs -> Forall here gs.
  Proof.
    intros cs. induction cs as [|c cs IH]; intros k s gs Hs H; cbn [divide] in H; [apply Ok_inj in H; subst; constructor; [|constructor]|].
    - apply Forall_forall. intros x Hx. unfold here in Hs. rewrite Forall_forall in Hs. apply Hs. rewrite <- (firstn_skipn k s). apply in_or_app. right. exact Hx.
    - destruct (cut_chosen c); [|exact (IH _ _ _ Hs H)]. destruct (_ && _); [|discriminate]. destruct (divide (cut_pos c) cs s) as [g'| |] eqn:E; try discriminate. cbn [obind] in H. apply Ok_inj in H. subst gs.
      constructor; [|exact (IH _ _ _ Hs E)]. apply Forall_forall. intros x Hx. unfold here in Hs. rewrite Forall_forall in Hs. apply Hs. rewrite <- (firstn_skipn k s). apply in_or_app. right.
      rewrite <- (firstn_skipn (cut_pos c - k) (skipn k s)). apply in_or_app. left. exact Hx.
  Qed.
  Lemma finish_here choose cs s b gs cuts : here s -> cuts_here cs -> finish choose cs s = Ok (b, gs, cuts) -> Forall here gs /\ cuts_here cuts.
  Proof.
    intros Hs Hc H. unfold finish in H. destruct (choose cs s) as [fl| |]; try discriminate. cbn [obind] in H. cbv zeta in H. destruct (divide 0 _ s) as [g| |] eqn:E; try discriminate. cbn [obind] in H.
    apply Ok_inj in H. apply pair_equal_spec in H as [H <-]. apply pair_equal_spec in H as [_ <-]. split; [exact (divide_here _ _ _ _ Hs E)|apply flags_here, Hc].
  Qed.
  Lemma sorted_here lt l s : here l -> std_sort impl lt l = Ok s -> here s.
  Proof. intros H E. apply (std_sort_perm impl lt l s HI) in E. unfold here. rewrite <- E. exact H. Qed.
  Lemma xCut_here g k ch el b gs cuts : here el -> xCut pos impl topi g k ch el = Ok (b, gs, cuts) -> Forall here gs /\ cuts_here cuts.
  Proof.
    intros He H. unfold xCut in H. destruct el as [|e0 l]; [apply Ok_inj in H; injection H as _ <- <-; split; constructor|].
    destruct (std_sort impl _ _) as [s| |] eqn:ES; try discriminate. cbn [obind] in H. pose proof (sorted_here _ _ _ He ES) as Hs. cbv zeta in H. destruct s as [|e1 rest]; [discriminate|].
    destruct (pq_push_f _ _ _ _ _) as [q| |]; try discriminate. cbn [obind] in H. destruct (x_scan _ _ _ _ _ _ _ _ _ _) as [cs| |] eqn:EX; try discriminate. cbn [obind] in H.
    apply (finish_here _ _ _ _ _ _ Hs) in H; [exact H|]. inversion Hs; subst. exact (x_scan_here _ _ _ _ _ _ _ _ H3 EX).
  Qed.
  Lemma yCut_here g ch el b gs cuts : here el -> yCut pos impl g ch el = Ok (b, gs, cuts) -> Forall here gs /\ cuts_here cuts.
  Proof.
    intros He H. unfold yCut in H. destruct el as [|e0 l]; [apply Ok_inj in H; injection H as _ <- <-; split; constructor|].
    destruct (std_sort impl _ _) as [s| |] eqn:ES; try discriminate. cbn [obind] in H. pose proof (sorted_here _ _ _ He ES) as Hs. cbv zeta in H. destruct s as [|e1 rest]; [discriminate|].
    apply (finish_here _ _ _ _ _ _ Hs) in H; [exact H|]. inversion Hs; subst. apply y_scan_here. assumption.
  Qed.
  Lemma for_groups_here (f : list A -> run (xy_result (A := A))) : forall gs r, Forall here gs -> (forall g r', here g -> f g = Some (Ok r') -> Forall here (fst r') /\ cuts_here (snd r')) ->
    for_groups f gs = Some (Ok r) -> Forall here (fst r) /\ cuts_here (snd r).
  Proof.
    intros gs. induction gs as [|g t IH]; intros r Hg Hf H; cbn [for_groups] in H; [injection H as <-; split; constructor|]. inversion Hg as [|? ? G1 G2]; subst.
    destruct (f g) as [[r1| |]|] eqn:E1; try discriminate. cbn [rbind] in H. destruct (for_groups f t) as [[r2| |]|] eqn:E2; try discriminate. cbn [rbind] in H.
    assert (H' : (fst r1 ++ fst r2, snd r1 ++ snd r2) = r) by congruence. subst r. cbn [fst snd]. destruct (Hf _ _ G1 E1) as [A1 B1]. destruct (IH _ G2 Hf eq_refl) as [A2 B2].
    split; apply Forall_app; split; assumption.
  Qed.
  Lemma xyCut_here mx my k cx cy fuel : forall el r, here el -> xyCut pos impl topi fuel mx my k cx cy el = Some (Ok r) -> Forall here (fst r) /\ cuts_here (snd r).
  Proof.
    induction fuel as [|fuel IH]; intros el r He H; destruct el as [|e0 l]; try discriminate.
    1,2: injection H as <-; split; constructor.
    rewrite xyCut_S in H by discriminate. set (el := e0 :: l) in *. clearbody el.
    destruct (xCut pos impl topi mx k cx el) as [[[ok xg] xc]| |] eqn:EX; cbn [rbind] in H; try discriminate. destruct (xCut_here _ _ _ _ _ _ _ He EX) as [XG XC].
    destruct ok; cbn [negb] in H.
    - match type of H with rbind ?x _ = _ => destruct x as [[r1| |]|] eqn:E1; try discriminate end. cbn [rbind] in H. assert (H' : (fst r1, xc ++ snd r1) = r) by congruence. subst r. cbn [fst snd].
      apply for_groups_here in E1; [destruct E1 as [A1 B1]; split; [exact A1|apply Forall_app; split; assumption]|exact XG|]. clear E1 H XG XC EX He el.
      intros g r' Hg H. destruct (yCut pos impl my cy g) as [[[ok yg] yc]| |] eqn:EY; cbn [rbind] in H; try discriminate. destruct (yCut_here _ _ _ _ _ _ Hg EY) as [YG YC].
      destruct ok; cbn [negb] in H.
      + match type of H with rbind ?x _ = _ => destruct x as [[r2| |]|] eqn:E2; try discriminate end. cbn [rbind] in H. assert (H' : (fst r2, yc ++ snd r2) = r') by congruence. subst r'. cbn [fst snd].
        apply for_groups_here in E2; [|exact YG|exact IH]. destruct E2 as [A2 B2]. split; [exact A2|apply Forall_app; split; assumption].
      + assert (H' : ([g], yc) = r') by congruence. subst r'. cbn [fst snd]. split; [constructor; [exact Hg|constructor]|exact YC].
    - destruct (yCut pos impl my cy el) as [[[ok yg] yc]| |] eqn:EY; cbn [rbind] in H; try discriminate. destruct (yCut_here _ _ _ _ _ _ He EY) as [YG YC].
      destruct ok; cbn [negb] in H.
      + match type of H with rbind ?x _ = _ => destruct x as [[r2| |]|] eqn:E2; try discriminate end. cbn [rbind] in H. assert (H' : (fst r2, xc ++ yc ++ snd r2) = r) by congruence. subst r. cbn [fst snd].
        apply for_groups_here in E2; [|exact YG|exact IH]. destruct E2 as [A2 B2]. split; [exact A2|]. apply Forall_app. split; [exact XC|apply Forall_app; split; assumption].
      + assert (H' : ([el], xc ++ yc) = r) by congruence. subst r. cbn [fst snd]. split; [constructor; [exact He|constructor]|apply Forall_app; split; assumption].
  Qed.
End Cuts.
Arguments here {A}. Arguments cuts_here {A}.
