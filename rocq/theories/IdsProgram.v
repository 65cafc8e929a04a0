(** IdsProgram.v - proofs for C83: uninitialised memory, the output, the whole program. *)
From Coq Require Import ZArith NArith FunctionalExtensionality.
From Verif Require Import Base Double MathUtils Sort Elements Counter XYCut Document Pipeline Serialization Cli CliSpec Program IdsSpec IdsXY IdsOrder IdsStages IdsStages2.
From Verif Require Parsing Roles ReadingOrder Blocks CliProofs ImagingProofs.
Local Open Scope string_scope. Local Open Scope list_scope. Local Open Scope nat_scope.
Local Opaque TOL dZ dadd dsub ddiv dmul dec DBL_MAX DBL_MIN.

(** ** Memory *)
Definition Rp (p : gpage) : gpage := set_blocks (map (set_role 0) (g_blocks p)) p.
Definition Rd (d : gdoc) : gdoc := set_pages d (map Rp (gd_pages d)).
Lemma blocks_memory m j d : lift Rd (run_blocks (other_memory m j) d) = lift Rd (run_blocks m d).
Proof.
  unfold run_blocks. rewrite !lift_bind. cbn [other_memory m_ordS m_ordD m_absd m_labelRegex]. apply bind_ext. intros [[pre fin] lh]. cbn [lift]. unfold Rd, set_pages. cbn [gd_pages gd_fonts gd_stats gd_words gd_lines].
  f_equal. f_equal. rewrite !map_map. apply map_ext. intros [p bs]. unfold Rp, set_blocks. cbn. rewrite !map_app, !map_map. reflexivity.
Qed.
Lemma set_roles_R : forall ps roles, set_roles roles (map Rp ps) = set_roles roles ps.
Proof.
  induction ps as [|p t IH]; intros roles; [reflexivity|]. cbn [map set_roles]. change (g_blocks (Rp p)) with (map (set_role 0) (g_blocks p)). rewrite map_length, IH, combine_map_l, map_map. f_equal.
  unfold Rp, set_blocks. cbn [g_num g_clip g_chars g_figures g_shapes g_graphics g_words g_segs g_textLines g_blocks]. f_equal. apply map_ext. intros [b r]. reflexivity.
Qed.
Lemma order_memory m d : run_readingOrder m (Rd d) = run_readingOrder m d.
Proof.
  unfold run_readingOrder. cbv zeta. unfold Rd at 1 2 3 4 5 6 7 8. cbn [set_pages gd_words gd_fonts gd_pages gd_stats].
  replace (map (role_page (word_heap (gd_words d))) (map Rp (gd_pages d))) with (map (role_page (word_heap (gd_words d))) (gd_pages d)).
  - apply bind_ext. intros roles. rewrite set_roles_R. reflexivity.
  - rewrite map_map. apply map_ext. intros p. unfold role_page. cbn [Rp set_blocks g_blocks g_clip]. rewrite map_map. reflexivity.
Qed.
Lemma then_order m o o' : lift Rd o = lift Rd o' -> obind o (run_readingOrder m) = obind o' (run_readingOrder m).
Proof.
  destruct o as [d|w|w], o' as [d'|w'|w']; cbn [lift obind]; intros H; try discriminate; try (injection H as ->; reflexivity).
  rewrite <- (order_memory m d), <- (order_memory m d'). congruence.
Qed.
Lemma process_memory m cfg c no es j d : disabled c MReadingOrder = false ->
  Cli.process c no (run_module (other_memory m j) cfg es) fill_lines1 fill_lines2 d = Cli.process c no (run_module m cfg es) fill_lines1 fill_lines2 d.
Proof.
  intros RO. unfold Cli.process. destruct no as [code|]; [reflexivity|]. unfold Cli.step.
  change (run_module (other_memory m j) cfg es MParsing) with (run_module m cfg es MParsing). change (run_module (other_memory m j) cfg es MGlyphStats) with (run_module m cfg es MGlyphStats).
  change (run_module (other_memory m j) cfg es MDiacritics) with (run_module m cfg es MDiacritics). change (run_module (other_memory m j) cfg es MWords) with (run_module m cfg es MWords).
  change (run_module (other_memory m j) cfg es MWordStats) with (run_module m cfg es MWordStats). change (run_module (other_memory m j) cfg es MSegmentation) with (run_module m cfg es MSegmentation).
  change (run_module (other_memory m j) cfg es MLines) with (run_module m cfg es MLines). change (run_module (other_memory m j) cfg es MScripts) with (run_module m cfg es MScripts).
  change (run_module (other_memory m j) cfg es MLineStats) with (run_module m cfg es MLineStats). change (run_module (other_memory m j) cfg es MReadingOrder) with (run_module m cfg es MReadingOrder).
  change (run_module (other_memory m j) cfg es MDehyphenation) with (run_module m cfg es MDehyphenation).
  do 9 (apply bind_ext; intros ?). rewrite RO. cbn [Bool.eqb].
  match goal with |- obind ?a (fun s => obind (run_module m cfg es MReadingOrder s) ?k) = obind ?b _ => assert (H : obind (obind a (run_readingOrder m)) k = obind (obind b (run_readingOrder m)) k) end.
  - f_equal. apply then_order. destruct (Bool.eqb (disabled c MBlocks) false); [apply blocks_memory|reflexivity].
  - revert H. cbn [run_module]. generalize (fun s => do s0 <- (if Bool.eqb (disabled c MDehyphenation) false then run_dehyphenation m s else Ok s); Ok (0%Z, fill_lines2 s0)).
    intros k. destruct (if Bool.eqb (disabled c MBlocks) false then run_blocks (other_memory m j) _ else _), (if Bool.eqb (disabled c MBlocks) false then run_blocks m _ else _); exact (fun H => H).
Qed.

(** ** Output *)
Lemma write_chars_E : forall cs out, write_chars (map Ec cs) out = write_chars cs out.
Proof. induction cs as [|c t IH]; intros out; [reflexivity|]. cbn [map write_chars]. apply IH. Qed.
Lemma write_word_E h : write_word (Eh h) = write_word h.
Proof.
  apply functional_extensionality. intros [out p]. apply functional_extensionality. intros i. unfold write_word. cbv zeta. change (w_second (Eh h i)) with (w_second (h i)). change (w_first (Eh h i)) with (w_first (h i)).
  change (w_chars (Eh h i)) with (map Ec (w_chars (h i))). destruct (is_some _); [reflexivity|]. destruct (w_first (h i)); [reflexivity|]. now rewrite write_chars_E.
Qed.
Lemma fold_map {A B C} (g : A -> B) (f : C -> B -> C) l : forall s, fold_left f (map g l) s = fold_left (fun s x => f s (g x)) l s.
Proof. induction l as [|x t IH]; intros s; [reflexivity|]. cbn [map fold_left]. apply IH. Qed.
Lemma serializer_E s ps fs fs' h roles : run_serializer s (mkDoc (map fpage ps) fs) (Eh h) roles = run_serializer s (mkDoc ps fs') h roles.
Proof.
  assert (W : write_block_words (Eh h) = write_block_words h) by (unfold write_block_words; rewrite write_word_E; reflexivity).
  destruct s; cbn [run_serializer].
  - f_equal. unfold plain_serialize. cbn [d_pages]. rewrite fold_map. f_equal. f_equal.
    match goal with |- fold_left ?f _ _ = fold_left ?g _ _ => assert (Q : f = g) end.
    { apply functional_extensionality. intros st. apply functional_extensionality. intros p. cbn [fpage p_blocks]. rewrite fold_map. unfold write_block. rewrite W. reflexivity. }
    rewrite Q. reflexivity.
  - unfold ext_serialize. cbn [d_pages]. rewrite fold_map. match goal with |- obind (fold_left ?f _ _) _ = obind (fold_left ?g _ _) _ => assert (Q : f = g) end.
    { apply functional_extensionality. intros st. apply functional_extensionality. intros p. unfold write_page_ext. cbn [fpage p_blocks]. rewrite fold_map. unfold write_block_ext. rewrite W. reflexivity. }
    rewrite Q. reflexivity.
Qed.

(** ** The program *)
(** Two results of the engine that the rest of the program cannot tell apart. *)
Definition alike (r r' : engine_result) : Prop :=
  match r, r' with
  | Returned l s d h, Returned l' s' d' h' => l = l' /\ s = s' /\ forall z roles, run_serializer z d h roles = run_serializer z d' h' roles
  | _, _ => r = r'
  end.
Lemma alike_refl r : alike r r. Proof. destruct r; cbn; auto. Qed.
Lemma run_main_alike pa ti se en en' sh co vm :
  (forall c p, (disabled c MReadingOrder = true -> mem_str (S_ "skip-reading-order-detection") (v_flags vm) = true) -> alike (en c p) (en' c p)) ->
  run_main (mkEnv pa ti se en sh co) vm = run_main (mkEnv pa ti se en' sh co) vm.
Proof.
  intros H. unfold run_main. cbn [engine shell can_open]. destruct (mem_str (S_ "full-help") (v_flags vm)); [reflexivity|]. destruct (mem_str (S_ "help") _); [reflexivity|]. destruct (mem_str (S_ "version") _); [reflexivity|].
  cbv zeta. specialize (H (config_of vm (level_of (get_str vm "verbosity" (S_ "error"))) (match v_filter vm with Some z => z | None => (-1)%Z end)) (get_str vm "pdf-file" []) (fun E => E)).
  destruct (en _ _) as [l s d h|l|l o], (en' _ _) as [l' s' d' h'|l'|l' o']; cbn [alike] in H; try discriminate; try (injection H as -> -> || injection H as ->; reflexivity).
  destruct H as (-> & -> & HR). destruct (0 <? s')%Z; [reflexivity|]. destruct (getSerializer _) as [z|]; [|reflexivity]. now rewrite HR.
Qed.
Lemma cli_main_alike pa ti se en en' sh co :
  (forall vm, (forall os, pa = Ok os -> store se ti vm0 os = (vm, None) -> forall c p,
     (disabled c MReadingOrder = true -> mem_str (S_ "skip-reading-order-detection") (v_flags vm) = true) -> alike (en c p) (en' c p))) ->
  cli_main (mkEnv pa ti se en sh co) = cli_main (mkEnv pa ti se en' sh co).
Proof.
  intros H. unfold cli_main. cbn [parsed sers to_int]. destruct pa as [os|w|w]; [|reflexivity..]. destruct (store se ti vm0 os) as [vm [w|]] eqn:ST; [reflexivity|].
  destruct (is_some _); [|reflexivity]. apply run_main_alike. exact (H vm os eq_refl ST).
Qed.
Lemma engine_ids w w' c p : (forall b, blind_sort (m_sortR (w_machine w b)) /\ blind_top (m_topR (w_machine w b))) ->
  (forall b, anon (w_machine w' b) = anon (w_machine w b)) -> w_words w' = w_words w -> w_open w' = w_open w -> w_logs w' = w_logs w -> alike (the_engine w' c p) (the_engine w c p).
Proof.
  intros B A W O L. unfold the_engine. rewrite W, O, L. destruct (match w_open w p with Unreadable code => (Some code, []) | Calls es => (None, es) end) as [no es].
  destruct (B (skipFonts c)) as [HS HT]. specialize (A (skipFonts c)).
  assert (HS' : blind_sort (m_sortR (w_machine w' (skipFonts c)))) by (change (blind_sort (m_sortR (anon (w_machine w' (skipFonts c))))); rewrite A; exact HS).
  assert (HT' : blind_top (m_topR (w_machine w' (skipFonts c)))) by (change (blind_top (m_topR (anon (w_machine w' (skipFonts c))))); rewrite A; exact HT).
  pose proof (process_E (w_machine w (skipFonts c)) (w_words w) c no es gdoc_init HS HT) as E. pose proof (process_E (w_machine w' (skipFonts c)) (w_words w) c no es gdoc_init HS' HT') as E'.
  rewrite A, <- E in E'. clear E.
  destruct (Cli.process c no (run_module (w_machine w' (skipFonts c)) _ es) _ _ gdoc_init) as [[st d]|y|y], (Cli.process c no (run_module (w_machine w (skipFonts c)) _ es) _ _ gdoc_init) as [[st' d']|y'|y'];
    cbn [up_to_ids] in E'; try discriminate; try (injection E' as ->; apply alike_refl).
  apply ImagingProofs.Ok_inj in E'. apply pair_equal_spec in E' as [-> E']. cbn [alike]. split; [reflexivity|]. split; [reflexivity|]. intros z roles.
  assert (S : forall m d, run_serializer z (the_document m d) (word_heap (gd_words d)) roles = run_serializer z (the_document (anon m) (nameless d)) (word_heap (gd_words (nameless d))) roles).
  { intros m d0. unfold the_document. cbn [nameless gd_pages gd_words]. rewrite heap_E.
    replace (map (doc_page (anon m)) (map anon_page (gd_pages d0))) with (map fpage (map (doc_page m) (gd_pages d0))) by (rewrite !map_map; apply map_ext; intros q; apply doc_page_E).
    now rewrite (serializer_E z _ _ (all_fonts d0)). }
  rewrite (S _ d), (S _ d'), A, E'. reflexivity.
Qed.
