(** PropsVisualization.v - C77 to C80: the visualisation of the results. *)
From Coq Require Import ZArith NArith Reals Lra Lia.
From Flocq Require Import Core BinarySingleNaN.
From Verif Require Import Base Double MathUtils Elements Document ImagingSpec Visualization VisualizationSpec VisualizationProofs.
From Verif Require ImagingProofs PropsParsing.
Local Open Scope R_scope.
Local Opaque TOL dadd dsub ddiv dmul dec.

(** ** C77 Boxes *)
(** Characters, figures, shapes, graphics, words and lines: one frame per element, on its own page, in the order of the document. *)
Theorem C77_frames : forall media enc s x doc, simple x ->
  (forall p, In p (boxes x doc) -> exists h, on_page media p h) ->
  exists l, visualize media enc s x doc = Ok l /\
    Forall2 (fun p a => fst a = pageNum p /\ exists h, media (pageNum p) = Some h /\ frame (s, Primary) h p (snd a)) (boxes x doc) l.
Proof.
  intros media enc s x doc SX H. set (P := fun (p : position) (a : placed) => fst a = pageNum p /\ exists h, media (pageNum p) = Some h /\ frame (s, Primary) h p (snd a)).
  assert (ONE : forall p, In p (boxes x doc) -> exists a, drawBoundingBox media s p = Ok [a] /\ P p a).
  { intros p I. destruct (H p I) as (h & EM & OS). destruct (bounding_box_ok media _ h p (s, Primary) EM OS) as (a & E & F). exists (pageNum p, a). split; [exact E|]. split; [reflexivity|]. exists h. split; assumption. }
  unfold visualize. destruct SX as [<-|[<-|[<-|[<-|[<-|[<-|[]]]]]]]; try (apply each_flat; exact ONE).
  cbn [boxes] in *. clear H. induction doc as [|p doc IH]; [exists []; split; [reflexivity|constructor]|]. cbn [flat_map] in ONE. rewrite flat_map_app in ONE.
  destruct (each_flat (drawBoundingBox media s) vs_lines (vp_segments p) P) as (r & E & F); [intros q I; apply ONE, in_or_app; left; exact I|].
  destruct IH as (r' & E' & F'); [intros q I; apply ONE, in_or_app; right; exact I|].
  exists (r ++ r')%list. cbn [each flat_map]. rewrite E, E', flat_map_app. split; [reflexivity|]. apply Forall2_app; assumption.
Qed.
Print Assumptions C77_frames.

(** Segments: a frame per segment, each followed by red frames for the preliminary blocks of the segment. *)
Theorem C77_segments : forall media enc s doc,
  (forall g, In g (flat_map vp_segments doc) -> exists h, on_page media (vs_pos g) h /\ forall b, In b (vs_blocks g) -> on_sheet h b) ->
  exists ls, visualize media enc s Segments doc = Ok (concat ls) /\
    Forall2 (fun g l => exists h a bs, media (pageNum (vs_pos g)) = Some h /\ l = a :: bs /\ Forall (fun a => fst a = pageNum (vs_pos g)) l /\
      frame (s, Primary) h (vs_pos g) (snd a) /\ Forall2 (fun b a => frame (Red, Primary) h b (snd a)) (vs_blocks g) bs) (flat_map vp_segments doc) ls.
Proof.
  intros media enc s doc H. set (P := fun (g : vseg) (l : list placed) => exists h a bs, media (pageNum (vs_pos g)) = Some h /\ l = a :: bs /\ Forall (fun a => fst a = pageNum (vs_pos g)) l /\
      frame (s, Primary) h (vs_pos g) (snd a) /\ Forall2 (fun b a => frame (Red, Primary) h b (snd a)) (vs_blocks g) bs).
  assert (ONE : forall g, In g (flat_map vp_segments doc) -> exists r, drawPageSegment media s g = Ok r /\ P g r).
  { intros g I. destruct (H g I) as (h & (EM & OS) & HB). destruct (bounding_box_ok media _ h _ (s, Primary) EM OS) as (a & E & F).
    destruct (each_single (fun p => bounding_box media (pageNum (vs_pos g)) p (Red, Primary)) (fun b a => fst a = pageNum (vs_pos g) /\ frame (Red, Primary) h b (snd a)) (vs_blocks g)) as (r & EB & FB).
    { intros b J. destruct (bounding_box_ok media _ h b (Red, Primary) EM (HB b J)) as (x & EX & FX). exists (pageNum (vs_pos g), x). split; [exact EX|]. split; [reflexivity|exact FX]. }
    exists ((pageNum (vs_pos g), a) :: r). unfold drawPageSegment, drawBoundingBox. rewrite E, EB. split; [reflexivity|]. exists h, (pageNum (vs_pos g), a), r.
    split; [exact EM|]. split; [reflexivity|]. split. { constructor; [reflexivity|]. clear -FB. induction FB as [|? ? ? ? (Q & _)]; constructor; assumption. }
    split; [exact F|]. clear -FB. induction FB as [|? ? ? ? (_ & Q)]; constructor; assumption. }
  clear H. unfold visualize. induction doc as [|p doc IH]; [exists []; split; [reflexivity|constructor]|]. cbn [flat_map] in ONE.
  destruct (each_ok (drawPageSegment media s) P (vp_segments p)) as (r & E & F); [intros q I; apply ONE, in_or_app; left; exact I|].
  destruct IH as (r' & E' & F'); [intros q I; apply ONE, in_or_app; right; exact I|].
  exists (r ++ r')%list. cbn [each flat_map]. rewrite E, E', concat_app. split; [reflexivity|]. apply Forall2_app; assumption.
Qed.
Print Assumptions C77_segments.

(** Blocks: a frame and the name of its role per block. *)
Theorem C77_blocks : forall media enc s doc, standard_encoding enc -> (forall p, In p doc -> exists n h, blocks_fine media p n h) ->
  exists ls, visualize media enc s TextBlocks doc = Ok (concat ls) /\
    Forall2 (fun p l => forall n h, blocks_fine media p n h -> blocks_drawn s p n h l) doc ls.
Proof.
  intros media enc s doc SE H. unfold visualize. apply each_ok. intros p I. destruct (H p I) as (n & h & HB).
  destruct (blocks_ok media enc s p n h SE HB) as (a & b & EA & EB & _). rewrite EA, EB. cbn [obind]. eexists. split; [reflexivity|].
  intros n' h' HB'. destruct (blocks_ok media enc s p n' h' SE HB') as (a' & b' & EA' & EB' & HP & FA & FB). rewrite EA in EA'. rewrite EB in EB'. apply ImagingProofs.Ok_inj in EA'. apply ImagingProofs.Ok_inj in EB'. subst a' b'.
  split; [exact HP|]. destruct (frames_squares vb_pos _ _ _ _ FA) as (S1 & S2 & _). destruct (labels_texts _ _ _ FB) as (T1 & T2 & _). rewrite !filter_app, S1, S2, T1, T2, app_nil_r. split; assumption.
Qed.
Print Assumptions C77_blocks.

(** ** C78 Reading order *)
Theorem C78_order : forall media enc s doc, standard_encoding enc -> (forall p, In p doc -> exists n h, media n = Some h /\ blocks_fine media p n h) ->
  exists ls, visualize media enc s ReadingOrderW doc = Ok (concat ls) /\
    Forall2 (fun p l => forall n h, media n = Some h -> blocks_fine media p n h -> blocks_drawn s p n h l /\ order_drawn s p h l) doc ls.
Proof.
  intros media enc s doc SE H. unfold visualize. apply each_ok. intros p I. destruct (H p I) as (n & h & EM & HB).
  assert (W : forall n h, media n = Some h -> blocks_fine media p n h -> exists l, (do a <- each (fun b => drawBoundingBox media s (vb_pos b)) (vp_blocks p); do b <- each (drawSemanticRole media enc) (vp_blocks p); do c <- drawReadingOrder media enc s (vp_blocks p); Ok (a ++ b ++ c)%list) = Ok l /\ blocks_drawn s p n h l /\ order_drawn s p h l).
  { clear n h EM HB. intros n h EM HB. destruct (blocks_ok media enc s p n h SE HB) as (a & b & EA & EB & HP & FA & FB).
    destruct (order_ok media enc s p n h EM SE) as (c & EC & HC & QS & QT & (QL & Q2 & Q1)). { intros b' J. destruct (HB b' J) as (E1 & (_ & E2) & _). split; assumption. }
    exists (a ++ b ++ c)%list. rewrite EA, EB, EC. split; [reflexivity|]. destruct (frames_squares vb_pos _ _ _ _ FA) as (S1 & S2 & S3 & S4 & S5). destruct (labels_texts _ _ _ FB) as (T1 & T2 & T3 & T4 & T5).
    split. { split; [rewrite app_assoc; apply Forall_app; split; assumption|]. rewrite !filter_app, S1, S2, T1, T2, QS, QT, !app_nil_r. split; assumption. }
    unfold order_drawn. cbv zeta. rewrite !filter_app, S3, S4, S5, T3, T4, T5. cbn [app]. split; [exact QL|]. split; [exact Q2|exact Q1]. }
  destruct (W n h EM HB) as (l & E & _). exists l. split; [exact E|]. intros n' h' EM' HB'. destruct (W n' h' EM' HB') as (l' & E' & D). rewrite E in E'. apply ImagingProofs.Ok_inj in E'. subst l'. exact D.
Qed.
Print Assumptions C78_order.

(** ** C79 Cuts *)
(** The cuts of a page: cut number i is drawn as [drawn_cut] says; the chosen ones are numbered 1, 2, ... on each page. *)
Definition cuts_drawn (media : Z -> option double) (s : scheme) (cuts : list vcut) (l : list placed) : Prop :=
  exists ls, l = concat ls /\ length ls = length cuts /\
    forall i c, nth_error cuts i = Some c -> exists li, nth_error ls i = Some li /\ drawn_cut media s c (S (length (filter vc_chosen (firstn i cuts)))) li.
Theorem C79_cuts : forall media enc s doc, standard_encoding enc -> forall x f, (x = SegmentCuts /\ f = vp_segmentCuts) \/ (x = ReadingOrderCuts /\ f = vp_readingOrderCuts) ->
  Forall (cut_fine media) (flat_map f doc) ->
  exists ls, visualize media enc s x doc = Ok (concat ls) /\ Forall2 (fun p l => cuts_drawn media s (f p) l) doc ls.
Proof.
  intros media enc s doc SE x f HX HF. assert (ONE : forall p, In p doc -> exists r, drawCuts media enc s (f p) = Ok r /\ cuts_drawn media s (f p) r).
  { intros p I. destruct (cuts_from_ok media enc s SE (f p) 0) as (ls & E & EL & HI). { apply Forall_forall. intros c J. rewrite Forall_forall in HF. apply HF, in_flat_map. exists p. split; assumption. }
    exists (concat ls). split; [exact E|]. exists ls. split; [reflexivity|]. split; [exact EL|]. exact HI. }
  unfold visualize. destruct HX as [(-> & ->)|(-> & ->)]; apply each_ok; exact ONE.
Qed.
Print Assumptions C79_cuts.

(** ** C80 Texts, and no failure *)
(** ASCII text is shown as it is. *)
Theorem C80_ascii : forall enc s, standard_encoding enc -> Forall printable s -> reads (convertToUtf16 enc s) s.
Proof. exact convert_reads. Qed.
Print Assumptions C80_ascii.
(** For every other text, each byte becomes a character: a character that takes several bytes in UTF-8 is shown as several. *)
Theorem C80_bytes : forall enc s, exists body us, convertToUtf16 enc s = ascii_of_nat 254 :: ascii_of_nat 255 :: body /\ units body = Some us /\ length us = length s.
Proof.
  intros enc s. eexists _, _. split; [reflexivity|]. split; [exact (units_length enc s)|]. apply map_length.
Qed.
Print Assumptions C80_bytes.
Theorem C80_utf8_refuted : forall enc, (forall n, (161 <= n <= 255)%N -> enc n = n \/ n = 173%N) ->
  exists body, convertToUtf16 enc (map ascii_of_nat [195; 164]%nat) = ascii_of_nat 254 :: ascii_of_nat 255 :: body /\ units body = Some [195; 164]%N /\ units body <> Some [228%N].
Proof.
  intros enc H. eexists. split; [reflexivity|].
  assert (A : enc 195%N = 195%N) by (destruct (H 195%N ltac:(lia)) as [E|E]; [exact E|discriminate]). assert (B : enc 164%N = 164%N) by (destruct (H 164%N ltac:(lia)) as [E|E]; [exact E|discriminate]).
  cbn [map flat_map app]. change (N_of_ascii (ascii_of_nat 195)) with 195%N. change (N_of_ascii (ascii_of_nat 164)) with 164%N. rewrite A, B. split; [vm_compute; reflexivity|vm_compute; discriminate].
Qed.
Print Assumptions C80_utf8_refuted.
Lemma each_total {A} (f : A -> outcome (list placed)) l : (forall x, In x l -> exists r, f x = Ok r) -> exists r, each f l = Ok r.
Proof. intros H. destruct (each_ok f (fun _ _ => True) l) as (rs & E & _); [intros x I; destruct (H x I) as (r & E); exists r; split; [exact E|exact Logic.I]|]. eexists. exact E. Qed.
Lemma page_total (media : Z -> option double) n : media n <> None -> exists h, media n = Some h.
Proof. destruct (media n) as [h|]; [exists h; reflexivity|congruence]. Qed.
Lemma box_total media on p c : media on <> None -> exists r, bounding_box media on p c = Ok r.
Proof. intros H. destruct (page_total _ _ H) as (h & E). unfold bounding_box, get_page. rewrite E. eexists. reflexivity. Qed.
Lemma role_total media enc b : media (pageNum (vb_pos b)) <> None -> (vb_role b < 14)%nat -> exists r, drawSemanticRole media enc b = Ok r.
Proof.
  intros H HR. destruct (page_total _ _ H) as (h & E). unfold drawSemanticRole, get_page, getSemanticRoleName, name_of. rewrite E. cbn [obind].
  destruct (nth_error SEMANTIC_ROLE_NAMES (vb_role b)) as [name|] eqn:EN; [eexists; reflexivity|]. apply nth_error_None in EN. change (length SEMANTIC_ROLE_NAMES) with 14%nat in EN. lia.
Qed.
Lemma order_total media enc s l : forall prev i, (forall b, In b l -> media (pageNum (vb_pos b)) <> None) -> exists r, readingOrder_from media enc s i prev l = Ok r.
Proof.
  induction l as [|c l IH]; intros prev i H; [eexists; reflexivity|]. cbn [readingOrder_from]. destruct (page_total _ _ (H c (or_introl eq_refl))) as (h & E). unfold get_page. rewrite E. cbn [obind].
  destruct (midpoint h (vb_pos prev)) as [px py]. destruct (midpoint h (vb_pos c)) as [cx cy]. destruct (IH c (S i)) as (r & ER); [intros b I; apply H; right; exact I|]. rewrite ER. eexists. reflexivity.
Qed.
Lemma cuts_total media enc s l : forall k, (forall c, In c l -> media (vc_page c) <> None) -> exists r, cuts_from media enc s k l = Ok r.
Proof.
  induction l as [|c l IH]; intros k H; [eexists; reflexivity|]. cbn [cuts_from]. destruct (page_total _ _ (H c (or_introl eq_refl))) as (h & E). unfold drawCut, get_page. rewrite E. cbn [obind].
  destruct (IH (if vc_chosen c then S k else k)) as (r & ER); [intros b I; apply H; right; exact I|]. rewrite ER. eexists. reflexivity.
Qed.
Lemma visualize_total media enc s x doc : drawable media doc -> exists r, visualize media enc s x doc = Ok r.
Proof.
  intros H. unfold visualize. apply each_total. intros p I. destruct (H p I) as (HE & HS & HB & HC).
  assert (ONE : forall l, (forall q, In q l -> In q (vp_chars p ++ vp_figures p ++ vp_shapes p ++ vp_graphics p ++ vp_words p)) -> exists r, each (drawBoundingBox media s) l = Ok r).
  { intros l HI. apply each_total. intros q J. apply box_total, HE, HI, J. }
  assert (BS : exists r, each (fun b => drawBoundingBox media s (vb_pos b)) (vp_blocks p) = Ok r) by (apply each_total; intros b J; apply box_total; exact (proj1 (HB b J))).
  assert (RS : exists r, each (drawSemanticRole media enc) (vp_blocks p) = Ok r) by (apply each_total; intros b J; destruct (HB b J); apply role_total; assumption).
  destruct x.
  1-5: apply ONE; intros q J; rewrite !in_app_iff; tauto.
  - apply each_total. intros g J. apply each_total. intros q K. apply box_total, (proj2 (HS g J)), K.
  - destruct BS as (a & ->). destruct RS as (b & ->). eexists. reflexivity.
  - apply each_total. intros g J. unfold drawPageSegment, drawBoundingBox. destruct (box_total media _ (vs_pos g) (s, Primary) (proj1 (HS g J))) as (a & ->). cbn [obind].
    destruct (each_total (fun q => bounding_box media (pageNum (vs_pos g)) q (Red, Primary)) (vs_blocks g)) as (b & ->); [|eexists; reflexivity].
    intros q _. apply box_total. exact (proj1 (HS g J)).
  - destruct BS as (a & ->). destruct RS as (b & ->). cbn [obind]. unfold drawReadingOrder. destruct (vp_blocks p) as [|b0 bs] eqn:EB; [eexists; reflexivity|].
    destruct (order_total media enc s bs b0 1) as (c & ->); [|eexists; reflexivity]. intros b' J. exact (proj1 (HB b' (or_intror J))).
  - apply cuts_total. intros c J. apply HC, in_or_app. left. exact J.
  - apply cuts_total. intros c J. apply HC, in_or_app. right. exact J.
Qed.
(** The requested visualisations are drawn one after the other, text blocks in red and everything else in blue. *)
Theorem C80_all : forall media enc requested doc, drawable media doc ->
  exists ls, visualize_all media enc requested doc = Ok (concat ls) /\
    Forall2 (fun x l => visualize media enc (match x with TextBlocks => Red | _ => Blue end) x doc = Ok l)
      (filter requested [Chars; Figures; Shapes; Graphics; WordsW; TextLines; TextBlocks; Segments; ReadingOrderW; SegmentCuts; ReadingOrderCuts]) ls.
Proof.
  intros media enc requested doc H. unfold visualize_all. apply each_ok. intros x _. destruct (visualize_total media enc (scheme_of x) x doc H) as (r & E). exists r. split; exact E.
Qed.
Print Assumptions C80_all.

(** ** Examples *)
(** A page of height 800: a word, a thin line (a shape), two blocks and a cut between them. *)
Definition ex_pos (l u r b : Z) : position := mkPos 1 (dZ l) (dZ u) (dZ r) (dZ b) 0 0.
Definition ex_media (n : Z) : option double := if Z.eqb n 1 then Some (dZ 800) else None.
Definition ex_vpage : vpage :=
  mkVPage [] [] [ex_pos 100 300 400 300] [] [ex_pos 100 100 150 110] [mkVSeg (ex_pos 100 100 400 300) [ex_pos 100 100 150 110] [ex_pos 100 100 150 110]]
    [mkVBlock (ex_pos 100 100 300 200) 0; mkVBlock (ex_pos 100 250 300 300) 3] [mkVCut (S_ "cut-y1") false 1 (dZ 100) (dZ 225) (dZ 300) (dZ 225) true] [].
Definition sheet_b (h : double) (p : position) : bool :=
  forallb (fun d => is_fin d && dle (dabs d) (dZ 1000000)) [h; leftX p; upperY p; rightX p; lowerY p] && dle (leftX p) (rightX p) && dle (upperY p) (lowerY p).
Lemma sheet_check h p : sheet_b h p = true -> on_sheet h p.
Proof.
  unfold sheet_b. cbn [forallb]. rewrite !andb_true_iff. intros ((((F1 & L1) & (F2 & L2) & (F3 & L3) & (F4 & L4) & (F5 & L5) & _) & A) & B).
  assert (U : forall d, dle (dabs d) (dZ 1000000) = true -> up_to 1000000 d) by (intros d H; apply (PropsParsing.up_to_check 1000000); [lia|exact H]).
  split; [apply U, L1|]. split; [apply U, L2|]. split; [apply U, L3|]. split; [apply U, L4|]. split; [apply U, L5|].
  rewrite DoubleFacts.dle_E in A by (apply DoubleFacts.fin_nn; assumption). rewrite DoubleFacts.dle_E in B by (apply DoubleFacts.fin_nn; assumption).
  rewrite !DoubleFacts.E_fin in A by assumption. rewrite !DoubleFacts.E_fin in B by assumption. split; assumption.
Qed.
(** What was drawn, without coordinates. *)
Definition kind (a : placed) : string * str :=
  match snd a with
  | Square _ (Red, _) _ => ("red square", []) | Square _ _ None => ("square", []) | Square _ _ _ => ("filled square", []) | Circle _ _ _ => ("circle", [])
  | Line _ _ _ (Gray, _) => ("gray line", []) | Line _ _ _ _ => ("line", []) | FreeText _ _ s _ => ("text", match units (skipn 2 s) with Some us => map ascii_of_N us | None => [] end)
  end%string.
Definition kinds (o : outcome (list placed)) : option (list (string * str)) := match o with Ok l => Some (map kind l) | _ => None end.
Example C77_example : let id := fun n : N => n in
  standard_encoding id /\ drawable ex_media [ex_vpage] /\
  (forall x p, In p (boxes x [ex_vpage]) -> exists h, on_page ex_media p h) /\
  (exists n h, ex_media n = Some h /\ blocks_fine ex_media ex_vpage n h) /\ Forall (cut_fine ex_media) (flat_map vp_segmentCuts [ex_vpage]) /\
  kinds (visualize_all ex_media id (fun _ => true) [ex_vpage]) = Some (
    [("square", []); ("square", []); ("square", []); ("red square", []); ("red square", []); ("text", S_ "paragraph"); ("text", S_ "footnote");
     ("square", []); ("red square", []);
     ("square", []); ("square", []); ("text", S_ "paragraph"); ("text", S_ "footnote"); ("line", []); ("circle", []); ("text", S_ "1"); ("circle", []); ("text", S_ "2");
     ("line", []); ("filled square", []); ("text", S_ "1"); ("text", S_ "cut-y1")]%string).
Proof.
  intros id. assert (SH : forall p, In p [ex_pos 100 300 400 300; ex_pos 100 100 150 110; ex_pos 100 100 400 300; ex_pos 100 100 300 200; ex_pos 100 250 300 300] -> on_page ex_media p (dZ 800)).
  { intros p I. split; [repeat (destruct I as [<-|I]; [reflexivity|]); destruct I|]. apply sheet_check. repeat (destruct I as [<-|I]; [vm_compute; reflexivity|]). destruct I. }
  split; [intros n _; reflexivity|]. split.
  { intros p [<-|[]]. split; [intros q I; repeat (destruct I as [<-|I]; [discriminate|]); destruct I|]. split; [intros g [<-|[]]; split; [discriminate|intros q [<-|[]]; discriminate]|].
    split; [intros b [<-|[<-|[]]]; (split; [discriminate|cbn; lia])|intros c [<-|[]]; discriminate]. }
  split. { intros x p I. exists (dZ 800). apply SH. destruct x; cbn [boxes flat_map vp_chars vp_figures vp_shapes vp_graphics vp_words vp_segments vp_blocks ex_vpage app vs_lines map vs_pos vb_pos] in I; cbn [In] in *; tauto. }
  split. { exists 1%Z, (dZ 800). split; [reflexivity|]. intros b I. cbn [vp_blocks ex_vpage] in I. split; [destruct I as [<-|[<-|[]]]; reflexivity|]. split; [apply SH; destruct I as [<-|[<-|[]]]; cbn; tauto|destruct I as [<-|[<-|[]]]; cbn; lia]. }
  split. { constructor; [|constructor]. assert (U : forall d, dle (dabs d) (dZ 1000000) = true -> up_to 1000000 d) by (intros d H; apply (PropsParsing.up_to_check 1000000); [lia|exact H]).
           split; [exists (dZ 800); split; [reflexivity|apply U; vm_compute; reflexivity]|]. cbn [vc_x1 vc_y1 vc_x2 vc_y2 vc_id]. repeat (split; [apply U; vm_compute; reflexivity|]).
           repeat (constructor; [vm_compute; split; discriminate|]). constructor. }
  vm_compute. reflexivity.
Qed.
(** A page with one block only: its box and its role are drawn, but no number. *)
Theorem C78_single_refuted : exists media doc, (forall p, In p doc -> exists n h, media n = Some h /\ blocks_fine media p n h) /\
  length (flat_map vp_blocks doc) = 1%nat /\ exists l, visualize media (fun n => n) Blue ReadingOrderW doc = Ok l /\ filter (is_text true) l = [] /\ filter is_circle l = [].
Proof.
  exists ex_media, [mkVPage [] [] [] [] [] [] [mkVBlock (ex_pos 100 100 300 200) 0] [] []]. split.
  { intros p [<-|[]]. exists 1%Z, (dZ 800). split; [reflexivity|]. intros b [<-|[]]. split; [reflexivity|]. split; [|cbn; lia]. split; [reflexivity|]. apply sheet_check. vm_compute. reflexivity. }
  split; [reflexivity|]. eexists. split; [reflexivity|]. split; reflexivity.
Qed.
Print Assumptions C78_single_refuted.
(** An element with a page number that the PDF does not have (such as the initial value -1): undefined behaviour. *)
Theorem C80_no_page_refuted : exists p enc s, visualize (fun n => if (1 <=? n)%Z then Some (dZ 800) else None) enc s WordsW [mkVPage [] [] [] [] [p] [] [] [] []] = UB "no such page" /\ pageNum p = pageNum pos_default.
Proof. exists pos_default, (fun n => n), Blue. split; reflexivity. Qed.
Print Assumptions C80_no_page_refuted.
