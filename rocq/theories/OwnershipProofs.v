(** OwnershipProofs.v - every object of a document is deleted once (C88). *)
From Coq Require Import ZArith NArith Permutation.
From Verif Require Import Base Double MathUtils Elements Sort Document Pipeline ContentSpec PipelineSpec PipelineLines PipelineProofs PipelineWords PipelineWhole PipelineContent PipelineStages PipelineStats Destruction.
From Verif Require Parsing Fonts Blocks BlocksSpec Cli ReadingOrder ReadingOrderProofs TotalWhole PropsBlocks PropsContent PropsPipeline.
Local Open Scope list_scope.
Local Opaque TOL dZ dadd dsub ddiv dmul dec DBL_MAX DBL_MIN.

(** ** Parsing: the numbers of the elements *)
Definition figure_ranks (f : Parsing.figure) : list Z :=
  map c_rank (Parsing.fg_chars f) ++ map e_rank (Parsing.fg_shapes f) ++ map e_rank (Parsing.fg_graphics f).
Definition ranks (cs : list character) (fs : list Parsing.figure) (ss gs : list elem) : list Z :=
  map c_rank cs ++ flat_map figure_ranks fs ++ map e_rank ss ++ map e_rank gs.
Definition page_ranks (q : Parsing.ppage) : list Z := ranks (Parsing.pp_chars q) (Parsing.pp_figures q) (Parsing.pp_shapes q) (Parsing.pp_graphics q).

Lemma perm_mid {A} (x : A) a b : Permutation (a ++ x :: b) (x :: a ++ b).
Proof. symmetry. apply Permutation_middle. Qed.
Lemma add_figure_ranks i f : Permutation (figure_ranks (Parsing.add_figure i f)) (Parsing.item_rank i :: figure_ranks f).
Proof.
  unfold figure_ranks, Parsing.add_figure. cbn [Parsing.fg_chars Parsing.fg_shapes Parsing.fg_graphics]. rewrite !map_app. destruct i; cbn [Parsing.opt_char Parsing.opt_shape Parsing.opt_graphic Parsing.item_rank map app];
    rewrite ?app_nil_r, <- ?app_assoc; cbn [app].
  - apply perm_mid.
  - etransitivity; [apply Permutation_app_head, perm_mid|]. apply perm_mid.
  - rewrite !app_assoc. etransitivity; [apply perm_mid|]. rewrite app_nil_r. reflexivity.
Qed.
Lemma add_figures_ranks k i fs : forall fs', Parsing.add_figures k i fs = Some fs' -> Permutation (flat_map figure_ranks fs') (Parsing.item_rank i :: flat_map figure_ranks fs).
Proof.
  induction fs as [|f fs IH]; intros fs' H; cbn [Parsing.add_figures] in H; [discriminate|]. destruct (Parsing.same_clip k (Parsing.fg_clip f)).
  - injection H as <-. cbn [flat_map]. rewrite add_figure_ranks. reflexivity.
  - destruct (Parsing.add_figures k i fs) as [r|]; [|discriminate]. injection H as <-. cbn [flat_map]. rewrite (IH r eq_refl). apply perm_mid.
Qed.
Lemma place_ranks k i q : Permutation (page_ranks (Parsing.place k i q)) (Parsing.item_rank i :: page_ranks q).
Proof.
  unfold Parsing.place. destruct (Parsing.same_clip k (Parsing.pp_clip q)).
  - unfold page_ranks, ranks, Parsing.add_page. cbn [Parsing.pp_chars Parsing.pp_shapes Parsing.pp_graphics Parsing.pp_figures]. rewrite !map_app.
    destruct i; cbn [Parsing.opt_char Parsing.opt_shape Parsing.opt_graphic Parsing.item_rank map app]; rewrite ?app_nil_r, <- ?app_assoc; cbn [app].
    + apply perm_mid.
    + rewrite !app_assoc. etransitivity; [apply perm_mid|]. rewrite <- !app_assoc. reflexivity.
    + rewrite !app_assoc. etransitivity; [apply perm_mid|]. rewrite app_nil_r, <- !app_assoc. reflexivity.
  - destruct (Parsing.add_figures k i (Parsing.pp_figures q)) as [fs|] eqn:E; unfold page_ranks, ranks, Parsing.set_figures; cbn [Parsing.pp_chars Parsing.pp_shapes Parsing.pp_graphics Parsing.pp_figures].
    + rewrite (add_figures_ranks _ _ _ _ E). cbn [app]. apply perm_mid.
    + rewrite flat_map_app. cbn [flat_map]. rewrite app_nil_r.
      assert (X : figure_ranks (Parsing.new_figure (Parsing.pp_num q) k i) = [Parsing.item_rank i]) by (destruct i; reflexivity). rewrite X, <- app_assoc. cbn [app].
      rewrite app_assoc. etransitivity; [apply perm_mid|]. rewrite <- app_assoc. reflexivity.
Qed.
Definition counted (p : Parsing.parser) : Prop :=
  (0 <= Parsing.pr_num p)%Z /\ Permutation (flat_map page_ranks (Parsing.pages p)) (map Z.of_nat (seq 0 (Z.to_nat (Parsing.pr_num p)))).
Lemma store_counted k mk p p' : (forall n r, Parsing.item_rank (mk n r) = r) -> Parsing.store k mk p = Ok p' -> counted p -> counted p'.
Proof.
  intros Hm H [C0 C]. unfold Parsing.store in H. destruct (Parsing.pr_page p) as [q|] eqn:E; [|discriminate]. destruct (_ =? _)%Z; [discriminate|]. apply Ok_inj in H. subst p'.
  unfold counted, Parsing.pages in *. cbn [Parsing.pr_done Parsing.pr_page Parsing.pr_num]. rewrite E in C. rewrite flat_map_app in C |- *. cbn [flat_map] in C |- *. rewrite app_nil_r in C |- *. split; [lia|].
  replace (Z.to_nat (Parsing.pr_num p + 1)) with (S (Z.to_nat (Parsing.pr_num p))) by lia. rewrite seq_S, map_app. cbn [map Nat.add]. rewrite place_ranks, Hm.
  etransitivity; [apply perm_mid|]. etransitivity; [|apply Permutation_cons_append]. rewrite Z2Nat.id by lia. apply perm_skip. exact C.
Qed.
Lemma parse_counted m es : forall p p',
  Parsing.handle_all (m_parseFont m) (m_mapUnicode m) (m_fromBytes m) (m_iswspace m) (m_charId m) es p = Ok p' ->
  counted p /\ NoDup (map fst (Parsing.pr_fonts p)) -> counted p' /\ NoDup (map fst (Parsing.pr_fonts p')).
Proof.
  induction es as [|e es IH]; intros p p' H F; cbn [Parsing.handle_all] in H; [apply Ok_inj in H; subst; exact F|].
  destruct (Parsing.handle _ _ _ _ _ p e) as [p1| |] eqn:E; try discriminate. cbn [obind] in H. apply (IH p1 p' H). clear IH H.
  assert (FS : forall k mk, Parsing.store k mk p = Ok p1 -> Parsing.pr_fonts p1 = Parsing.pr_fonts p).
  { intros k mk X. unfold Parsing.store in X. destruct (Parsing.pr_page p); [|discriminate]. destruct (_ =? _)%Z; [discriminate|]. apply Ok_inj in X. subst p1. reflexivity. }
  assert (ST : forall k mk, (forall n r, Parsing.item_rank (mk n r) = r) -> Parsing.store k mk p = Ok p1 -> counted p1 /\ NoDup (map fst (Parsing.pr_fonts p1))).
  { intros k mk Hm X. split; [exact (store_counted _ _ _ _ Hm X (proj1 F))|]. rewrite (FS _ _ X). exact (proj2 F). }
  destruct e as [num s| |s|s code nB u uL|s|s|s]; cbn [Parsing.handle] in E.
  - apply Ok_inj in E. subst p1. destruct F as [[C0 C] ND]. split; [|exact ND]. unfold Parsing.start_page, counted, Parsing.pages. cbn [Parsing.pr_done Parsing.pr_page Parsing.pr_num]. split; [exact C0|].
    rewrite flat_map_app. cbn [flat_map page_ranks ranks Parsing.pp_chars Parsing.pp_shapes Parsing.pp_graphics Parsing.pp_figures map app]. rewrite app_nil_r. exact C.
  - apply Ok_inj in E. subst p1. exact F.
  - unfold Parsing.update_font in E. destruct (Parsing.s_font s) as [f|]; [|apply Ok_inj in E; subst p1; exact F].
    destruct (Parsing.find_font _ _) as [i|] eqn:EF; [apply Ok_inj in E; subst p1; exact F|].
    destruct (m_parseFont m (Parsing.pf_info f)) as [i| |]; try discriminate. cbn [obind] in E. apply Ok_inj in E. subst p1. split; [exact (proj1 F)|]. cbn [Parsing.pr_fonts]. rewrite map_app. cbn [map fst].
    apply (Permutation_NoDup (l := Parsing.font_key f :: map fst (Parsing.pr_fonts p))); [apply Permutation_cons_append|]. constructor; [|exact (proj2 F)].
    intros I. apply in_map_iff in I as ([n x] & E1 & I). cbn in E1. subst n. unfold Parsing.find_font in EF.
    destruct (find _ (Parsing.pr_fonts p)) eqn:EF'; [discriminate|]. apply (find_none _ _ EF') in I. cbn [fst] in I. rewrite str_eqb_refl in I. discriminate.
  - unfold Parsing.draw_char in E. destruct (Parsing.pr_font p) as [i|]; [|apply Ok_inj in E; subst p1; exact F].
    destruct (Parsing.char_text _ _ _ _) as [[text us]| |]; try discriminate. cbn [obind] in E.
    destruct (Parsing.is_blank _ _ _) as [[]| |]; try discriminate; cbn [obind] in E; [apply Ok_inj in E; subst p1; exact F|].
    destruct (Parsing.s_font s) as [pf|]; [|discriminate].
    destruct (Parsing.char_width _ _ _) as [w| |]; try discriminate. cbn [obind] in E. revert E. apply ST.
    intros n r. destruct (Parsing.char_position _ _ _ _ _ _) as [pos base]. reflexivity.
  - unfold Parsing.stroke in E. destruct (fold_left _ _ _) as [[[l u] r] d]. revert E. apply ST. intros n k. reflexivity.
  - unfold Parsing.stroke in E. destruct (fold_left _ _ _) as [[[l u] r] d]. revert E. apply ST. intros n k. reflexivity.
  - unfold Parsing.draw_graphic in E. destruct (Parsing.outside _ _ _ _ _); [apply Ok_inj in E; subst p1; exact F|]. revert E. apply ST. intros n k. reflexivity.
Qed.
Lemma parsed_counted m es r : Parsing.parse_events (m_parseFont m) (m_mapUnicode m) (m_fromBytes m) (m_iswspace m) (m_charId m) es = Ok r ->
  counted r /\ NoDup (map fst (Parsing.pr_fonts r)).
Proof. intros H. unfold Parsing.parse_events in H. apply (parse_counted m es _ _ H). split; [split; [cbn; lia|constructor]|constructor]. Qed.

(** ** The stages *)
Definition gpage_ranks (p : gpage) : list Z := ranks (g_chars p) (g_figures p) (g_shapes p) (g_graphics p).
Lemma page_of_ranks q p : page_of q p -> gpage_ranks p = page_ranks q.
Proof.
  intros (_ & _ & E1 & E2 & E3 & F). unfold gpage_ranks, page_ranks. rewrite E1, E2, E3. unfold ranks. f_equal. clear -F.
  induction F as [|c c' l l' (_ & _ & E & _) F IH]; [reflexivity|]. cbn [map]. rewrite IH, E. reflexivity.
Qed.
Lemma pages_ranks qs ps : Forall2 page_of qs ps -> flat_map gpage_ranks ps = flat_map page_ranks qs.
Proof. intros F. induction F as [|q p qs ps X F IH]; [reflexivity|]. cbn [flat_map]. rewrite IH, (page_of_ranks _ _ X). reflexivity. Qed.
Lemma document_ranks m cfg c es code d : sane m -> text_enabled c -> process_pdf m cfg c es = Ok (code, d) ->
  exists n, Permutation (flat_map gpage_ranks (gd_pages d)) (map Z.of_nat (seq 0 n)) /\ NoDup (map fst (gd_fonts d)).
Proof.
  intros SA TE H. destruct (PropsPipeline.C52_text m cfg c es code d SA TE H) as (r & EP & F & _). destruct (parsed_counted m es r EP) as [[_ C] ND]. exists (Z.to_nat (Parsing.pr_num r)). split.
  - rewrite <- C, (pages_ranks _ _ F). reflexivity.
  - assert (EF : gd_fonts d = Parsing.pr_fonts r); [|rewrite EF; exact ND].
    unfold process_pdf in H. revert H. apply (PropsContent.process_keeps (fun d => gd_fonts d = Parsing.pr_fonts r)).
    + intros s1 E. cbn [run_module] in E. unfold run_parsing in E. rewrite EP in E. cbn [obind] in E. apply Ok_inj in E. subst s1. reflexivity.
    + intros x s1 s2 N I E. rewrite (PropsContent.modules_fonts _ _ _ _ _ _ N E). exact I.
    + intros s1 I. exact I.
    + intros s1 I. exact I.
Qed.
Lemma document_lines m cfg c es code d : sane m -> text_enabled c -> process_pdf m cfg c es = Ok (code, d) ->
  flat_map (fun p => flat_map sg_lines (g_segs p)) (gd_pages d) = seq 0 (length (gd_lines d)).
Proof.
  intros SA TE H. destruct (steps m cfg c es code d SA TE H) as (r & d0 & d1 & d2 & d3 & d4 & d5 & d6 & d7 & d8 & d9 & da & db & EP & E0 & E1 & E2 & E3 & E4 & E5 & E6 & E7 & E8 & E9 & Ea & Eb & Ed & I4 & N4 & L4 & G5 & I8).
  destruct (rest_all m cfg _ c d8 d9 da db SA I8 E9 Ea Eb) as (K & _ & _ & L). rewrite <- Ed in K, L. destruct I8 as (_ & _ & N). unfold PipelineWhole.numbered, segment_line_ids in N.
  apply (f_equal (@length _)) in L. rewrite !map_length in L. rewrite L, <- N. clear -K. induction K as [|p p' l l' [_ E] K IH]; [reflexivity|]. cbn [flat_map]. rewrite IH, E. reflexivity.
Qed.
Lemma nth_ext {A} : forall l l' : list A, (forall i, nth_error l i = nth_error l' i) -> l = l'.
Proof.
  induction l as [|x l IH]; intros [|y l'] H; [reflexivity|discriminate (H 0)|discriminate (H 0)|]. pose proof (H 0) as E. cbn in E. injection E as ->. f_equal. apply IH. intros i. exact (H (S i)).
Qed.
Definition block_ranks (p : gpage) : list Z := map b_rank (g_blocks p).
Lemma blocks_ranks m cfg qs d d' : sane m -> inv2 cfg qs d -> run_blocks m d = Ok d' ->
  Forall (fun p => block_ranks p = map Z.of_nat (seq 0 (length (g_blocks p)))) (gd_pages d').
Proof.
  intros SA (_ & FL & N) H. unfold run_blocks in H. destruct (Blocks.detectTextBlocks _ _ _ _ _ _ _ _ _) as [[[pre fin] lh]| |] eqn:E; try discriminate. cbn [obind] in H. apply Ok_inj in H. subst d'. cbn [gd_pages].
  destruct SA as (_ & _ & _ & _ & _ & _ & HS & HD & _).
  assert (ND : NoDup (concat (map (@concat nat) (map (fun p => map sg_lines (g_segs p)) (gd_pages d))))). 
  { unfold PipelineWhole.numbered, segment_line_ids in N. rewrite map_map. replace (concat _) with (flat_map (fun p => flat_map sg_lines (g_segs p)) (gd_pages d)); [rewrite N; apply seq_NoDup|].
    rewrite flat_map_concat_map. f_equal. apply map_ext. intros p. apply flat_map_concat_map. }
  destruct (PropsBlocks.C33_blocks _ _ _ _ _ _ _ _ _ _ _ _ HS HD ND E) as [_ GB]. apply Forall_forall. intros p Hp. apply in_map_iff in Hp as ([p0 bs] & <- & Hp).
  pose proof (in_combine_l _ _ _ _ Hp) as Hl. apply in_combine_r in Hp. rewrite Forall_forall in FL. destruct (FL p0 Hl) as [_ EB]. unfold block_ranks, set_blocks. cbn [g_blocks]. rewrite EB. cbn [app].
  rewrite map_length. specialize (GB bs Hp). rewrite map_map. cbn [new_block b_rank]. clear -GB.
  apply nth_ext. intros i. rewrite !nth_error_map. destruct (nth_error bs i) as [b|] eqn:E.
  - destruct (GB i b E) as (R & _). cbn [option_map]. rewrite R. assert (L : i < length bs) by (apply nth_error_Some; congruence).
    rewrite nth_error_nth' with (d := 0) by (rewrite seq_length; exact L). rewrite seq_nth by exact L. reflexivity.
  - cbn [option_map]. apply nth_error_None in E. assert (X : nth_error (seq 0 (length bs)) i = None) by (apply nth_error_None; rewrite seq_length; exact E). rewrite X. reflexivity.
Qed.
Lemma combine_ranks bs : forall rs : list nat, length rs = length bs -> map b_rank (map (fun '(b, r) => with_role r b) (combine bs rs)) = map b_rank bs.
Proof. induction bs as [|b bs IH]; intros [|r rs] L; try discriminate; [reflexivity|]. cbn [combine map with_role b_rank]. f_equal. apply IH. injection L as L. exact L. Qed.
Lemma document_blocks m cfg c es code d : sane m -> text_enabled c -> process_pdf m cfg c es = Ok (code, d) ->
  Forall (fun p => Permutation (block_ranks p) (map Z.of_nat (seq 0 (length (g_blocks p))))) (gd_pages d).
Proof.
  intros SA TE H. destruct (steps m cfg c es code d SA TE H) as (r & d0 & d1 & d2 & d3 & d4 & d5 & d6 & d7 & d8 & d9 & da & db & EP & E0 & E1 & E2 & E3 & E4 & E5 & E6 & E7 & E8 & E9 & Ea & Eb & Ed & I4 & N4 & L4 & G5 & I8).
  pose proof (blocks_ranks m cfg _ d8 d9 SA I8 E9) as B9.
  assert (Ba : Forall (fun p => Permutation (block_ranks p) (map Z.of_nat (seq 0 (length (g_blocks p))))) (gd_pages da)).
  { destruct Ea as [[_ Ea]|[_ ->]]; [|apply Forall_forall; intros p Hp; rewrite Forall_forall in B9; rewrite (B9 p Hp); reflexivity].
    destruct (readingOrder_parts m d9 da Ea) as (roles & parts & _ & _ & LP & F & _). destruct SA as (_ & _ & _ & _ & SR & TR & _).
    clear -B9 LP F SR TR. revert parts LP F. generalize (gd_pages da). induction (gd_pages d9) as [|p ps IH]; intros ps' [|part parts] LP F; try discriminate; inversion F as [|? p' ? ps1 R F1]; subst; [constructor|].
    inversion B9 as [|? ? B9a B9b]; subst. constructor; [|exact (IH B9b _ parts (f_equal pred LP) F1)].
    destruct R as (L & _ & _ & _ & q & OQ & EB). pose proof (ReadingOrderProofs.order_page_perm _ _ _ _ SR TR _ _ OQ) as P. cbn [doc_page set_blocks p_blocks g_blocks] in P.
    unfold block_ranks. rewrite EB. pose proof (Permutation_map b_rank P) as P1. rewrite (combine_ranks _ _ L) in P1. rewrite <- P1. fold (block_ranks p). rewrite B9a. apply Permutation_length in P. rewrite map_length, combine_length, L, Nat.min_id in P. rewrite <- P. reflexivity. }
  assert (Bb : Forall (fun p => Permutation (block_ranks p) (map Z.of_nat (seq 0 (length (g_blocks p))))) (gd_pages db)).
  { destruct Eb as [[_ Eb]|[_ ->]]; [|exact Ba]. unfold run_dehyphenation in Eb. cbv zeta in Eb. apply Ok_inj in Eb. subst db. exact Ba. }
  rewrite Ed. unfold fill_lines2. cbn [set_pages gd_pages]. apply Forall_forall. intros p Hp. apply in_map_iff in Hp as (p0 & <- & Hp). rewrite Forall_forall in Bb. exact (Bb p0 Hp).
Qed.

(** ** Deleting *)
Definition kind (o : object) : nat :=
  match o with OChar _ | OShape _ | OGraphic _ => 0 | OPage _ => 1 | OFigure _ _ => 2 | OWord _ => 3 | OSegment _ _ => 4 | OLine _ => 5 | OBlock _ _ => 6 | OFont _ => 7 end.
Definition of_kind (k : nat) (o : object) : bool := kind o =? k.
Definition the_rank (o : object) : Z := match o with OChar r | OShape r | OGraphic r => r | _ => 0%Z end.
Lemma nodup_kinds l : (forall k, NoDup (filter (of_kind k) l)) -> NoDup l.
Proof.
  induction l as [|x l IH]; intros H; constructor.
  - intros I. specialize (H (kind x)). cbn [filter] in H. unfold of_kind at 1 in H. rewrite Nat.eqb_refl in H. inversion H as [|? ? N _]. apply N. apply filter_In. split; [exact I|]. apply Nat.eqb_refl.
  - apply IH. intros k. specialize (H k). cbn [filter] in H. destruct (of_kind k x); [inversion H; assumption|exact H].
Qed.
Lemma filter_flat {A B} (f : B -> bool) (g : A -> list B) l : filter f (flat_map g l) = flat_map (fun x => filter f (g x)) l.
Proof. induction l as [|x l IH]; [reflexivity|]. cbn [flat_map]. rewrite filter_app, IH. reflexivity. Qed.
Lemma filter_kind {A} k (f : A -> object) l n : (forall x, kind (f x) = n) -> filter (of_kind k) (map f l) = if n =? k then map f l else [].
Proof.
  intros H. induction l as [|x l IH]; cbn [map filter]; [destruct (n =? k); reflexivity|]. unfold of_kind at 1. rewrite H, IH. destruct (n =? k); reflexivity.
Qed.
Lemma flat_indexed {A B} (g : A -> list B) : forall l n, flat_map (fun x => g (snd x)) (combine (seq n (length l)) l) = flat_map g l.
Proof. induction l as [|x l IH]; intros n; [reflexivity|]. cbn [length seq combine flat_map snd]. rewrite IH. reflexivity. Qed.
Lemma flat_ext {A B} (f g : A -> list B) l : (forall x, In x l -> f x = g x) -> flat_map f l = flat_map g l.
Proof. induction l as [|x l IH]; intros H; [reflexivity|]. cbn [flat_map]. rewrite (H x (or_introl eq_refl)), IH; [reflexivity|]. intros y Hy. apply H. right. exact Hy. Qed.
Lemma flat_nil {A B} (l : list A) : flat_map (fun _ => [] : list B) l = [].
Proof. induction l as [|x l IH]; [reflexivity|exact IH]. Qed.
Lemma nodup_app {A} (a b : list A) : NoDup a -> NoDup b -> (forall x, In x a -> ~ In x b) -> NoDup (a ++ b).
Proof.
  intros NA NB D. induction NA as [|x a Nx NA IH]; [exact NB|]. cbn [app]. constructor.
  - intros I. apply in_app_or in I as [I|I]; [exact (Nx I)|exact (D x (or_introl eq_refl) I)].
  - apply IH. intros y Hy. apply D. right. exact Hy.
Qed.
(** Parts that are told apart by an index. *)
Lemma nodup_indexed {A B} (g : nat * A -> list B) (tag : B -> nat) : (forall k x b, In b (g (k, x)) -> tag b = k) ->
  forall l n, Forall (fun x => forall k, NoDup (g (k, x))) l -> NoDup (flat_map g (combine (seq n (length l)) l)).
Proof.
  intros T. induction l as [|x l IH]; intros n F; cbn [length seq combine flat_map]; [constructor|]. inversion F as [|? ? F1 F2]; subst. apply nodup_app; [apply F1|apply IH, F2|]. intros b I1 I2. apply in_flat_map in I2 as ([k y] & I2 & I3). apply T in I1. apply T in I3. apply in_combine_l in I2. apply in_seq in I2. lia.
Qed.

(** What is deleted of each kind *)
Lemma figure_kind k n i f : filter (of_kind k) (delete_figure n i f) =
  match k with
  | 0 => map (fun c => OChar (c_rank c)) (Parsing.fg_chars f) ++ map (fun e => OShape (e_rank e)) (Parsing.fg_shapes f) ++ map (fun e => OGraphic (e_rank e)) (Parsing.fg_graphics f)
  | 2 => [OFigure n i] | _ => [] end.
Proof.
  unfold delete_figure. rewrite !filter_app, (filter_kind _ _ _ 0), (filter_kind _ _ _ 0), (filter_kind _ _ _ 0) by reflexivity.
  destruct k as [|[|[|k]]]; cbn [Nat.eqb filter of_kind kind app]; rewrite ?app_nil_r; reflexivity.
Qed.
Lemma segment_kind k n i s : filter (of_kind k) (delete_segment n i s) = match k with 4 => [OSegment n i] | 5 => map OLine (sg_lines s) | _ => [] end.
Proof.
  unfold delete_segment. rewrite !filter_app, (filter_kind _ _ _ 5) by reflexivity. destruct k as [|[|[|[|[|[|k]]]]]]; cbn [Nat.eqb filter of_kind kind app]; rewrite ?app_nil_r; reflexivity.
Qed.
Definition page_kind (k n : nat) (p : gpage) : list object :=
  match k with
  | 0 => map (fun c => OChar (c_rank c)) (g_chars p) ++
         flat_map (fun f => map (fun c => OChar (c_rank c)) (Parsing.fg_chars f) ++ map (fun e => OShape (e_rank e)) (Parsing.fg_shapes f) ++ map (fun e => OGraphic (e_rank e)) (Parsing.fg_graphics f)) (g_figures p) ++
         map (fun e => OShape (e_rank e)) (g_shapes p) ++ map (fun e => OGraphic (e_rank e)) (g_graphics p)
  | 1 => [OPage n]
  | 2 => flat_map (fun x => [OFigure n (fst x)]) (indexed (g_figures p))
  | 3 => map OWord (g_words p)
  | 4 => flat_map (fun x => [OSegment n (fst x)]) (indexed (g_segs p))
  | 5 => map OLine (flat_map sg_lines (g_segs p))
  | 6 => map (fun b => OBlock n (b_rank b)) (g_blocks p)
  | _ => []
  end.
Lemma page_kind_ok k n p : filter (of_kind k) (delete_page n p) = page_kind k n p.
Proof.
  unfold delete_page. rewrite !filter_app, (filter_kind _ _ (g_chars p) 0), (filter_kind _ _ (g_words p) 3), (filter_kind _ _ (g_blocks p) 6), (filter_kind _ _ (g_shapes p) 0), (filter_kind _ _ (g_graphics p) 0) by reflexivity.
  rewrite !filter_flat. 
  rewrite (flat_ext (fun x => filter (of_kind k) (let '(i, s) := x in delete_segment n i s)) (fun x => match k with 4 => [OSegment n (fst x)] | 5 => map OLine (sg_lines (snd x)) | _ => [] end)) by (intros [i s] _; apply segment_kind).
  rewrite (flat_ext (fun x => filter (of_kind k) (let '(i, f) := x in delete_figure n i f)) (fun x =>
    match k with
    | 0 => (fun f => map (fun c => OChar (c_rank c)) (Parsing.fg_chars f) ++ map (fun e => OShape (e_rank e)) (Parsing.fg_shapes f) ++ map (fun e => OGraphic (e_rank e)) (Parsing.fg_graphics f)) (snd x)
    | 2 => [OFigure n (fst x)] | _ => [] end)) by (intros [i f] _; apply figure_kind).
  destruct k as [|[|[|[|[|[|[|k]]]]]]]; cbn [Nat.eqb page_kind filter of_kind kind]; rewrite ?flat_nil; cbn [app]; rewrite ?app_nil_r; try reflexivity.
  - unfold indexed. rewrite (flat_indexed (fun f => map (fun c => OChar (c_rank c)) (Parsing.fg_chars f) ++ map (fun e => OShape (e_rank e)) (Parsing.fg_shapes f) ++ map (fun e => OGraphic (e_rank e)) (Parsing.fg_graphics f))). reflexivity.
  - unfold indexed. rewrite (flat_indexed (fun s => map OLine (sg_lines s))). rewrite flat_map_concat_map, (flat_map_concat_map sg_lines), concat_map, map_map. reflexivity.
Qed.
Lemma document_kind k d : filter (of_kind k) (delete_document d) =
  flat_map (fun x => page_kind k (fst x) (snd x)) (indexed (gd_pages d)) ++ (if 7 =? k then map (fun e => OFont (fst e)) (gd_fonts d) else []).
Proof.
  unfold delete_document. rewrite filter_app, filter_flat, (filter_kind _ _ (gd_fonts d) 7) by reflexivity. f_equal. apply flat_ext. intros [n p] _. apply page_kind_ok.
Qed.
