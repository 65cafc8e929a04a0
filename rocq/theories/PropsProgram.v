(** PropsProgram.v - the whole program (C76). *)
From Coq Require Import ZArith NArith.
From Verif Require Import Base Double MathUtils Elements Sort XYCut Document Serialization SerializationSpec Cli CliSpec Pipeline PipelineSpec PipelineLines PipelineProofs PipelineWords PipelineWhole
  PipelineContent PipelineStages ContentSpec PropsContent Program ProgramSpec.
From Verif Require Fonts Parsing Words WordsSpec Roles CliProofs TotalWhole PropsOutput PropsPipeline PropsTotal PropsCli DehyphenationProofs ParsingWhole BlocksProofs ParsingProofs TotalSpec RolesSpec XYCutProofs PropsParsing.
Local Open Scope string_scope. Local Open Scope list_scope. Local Open Scope nat_scope.
Local Opaque TOL dadd dsub ddiv dmul dec DBL_MAX DBL_MIN.

(** ** Roles *)
Lemma best_lt data base n : forall k best y r, snd best < y \/ snd best = 0 -> k + n <= y -> Roles.best_loop data base n k best = Ok r -> r < y \/ r = 0.
Proof.
  induction n as [|n IH]; intros k best y r HB L H; cbn [Roles.best_loop] in H; [apply Ok_inj in H; subst; exact HB|].
  destruct (nth_error data (base + k)) as [v|]; [|discriminate]. apply (IH (S k) _ y r) in H; [exact H| |lia]. destruct (Float.fgt v (fst best)); cbn [snd]; [lia|exact HB].
Qed.
Lemma assign_lt data y n : forall k rs, Roles.assign_roles data y n k = Ok rs -> Forall (fun r => r < y \/ r = 0) rs.
Proof.
  induction n as [|n IH]; intros k rs H; cbn [Roles.assign_roles] in H; [apply Ok_inj in H; subst; constructor|].
  destruct (Roles.best_loop data (k * y) y 0 (Float.fzero, 0)) as [r| |] eqn:B; cbn [obind] in H; try discriminate.
  destruct (Roles.assign_roles data y n (S k)) as [rs'| |] eqn:A; cbn [obind] in H; try discriminate. apply Ok_inj in H. subst rs. constructor; [|exact (IH _ _ A)].
  apply (best_lt _ _ _ _ _ y r) in B; [exact B|right; reflexivity|lia].
Qed.
Lemma predict_lt from fonts network fuel bpe roles p pages rs :
  (forall x y, snd (network x y) <= 14) -> option_map fst (Roles.predict from fonts network fuel bpe roles p pages) = Some (Ok rs) -> Forall (fun r => r < 14) rs.
Proof.
  intros HN H. unfold Roles.predict in H. destruct (if Roles.p_modelOk p then _ else _) as [[[u| |] p1]|]; cbn [option_map fst] in H; try discriminate.
  destruct (Roles.layout_tensor _ _ _) as [lay| |]; cbn [option_map fst] in H; try discriminate. destruct (Roles.words_tensor _ _ _) as [[ws| |]|]; cbn [option_map fst] in H; try discriminate.
  pose proof (HN lay ws) as Y. destruct (network lay ws) as [data y]. cbn [snd] in Y. cbn [option_map fst] in H. injection H as H. apply assign_lt in H. apply (Forall_impl (P := fun r => r < y \/ r = 0)); [intros r; lia|exact H].
Qed.
Lemma roles_lt m cfg c es code d : sane m -> text_enabled c -> disabled c MReadingOrder = false -> (forall x y, snd (m_network m x y) <= 14) ->
  process_pdf m cfg c es = Ok (code, d) -> forall p b, In p (gd_pages d) -> In b (g_blocks p) -> b_role b < 14.
Proof.
  intros SA TE RO HN H p b Hp Hb. destruct (C74_roles m cfg c es code d SA TE RO H) as (d0 & roles & parts & _ & PR & EC & _ & F).
  apply (predict_lt _ _ _ _ _ _ _ _ _ HN) in PR. destruct (TotalWhole.F2_in_r _ _ _ _ F Hp) as ([q part] & Hq & PM). cbn [fst snd] in PM.
  apply (Permutation_in b (Permutation_sym PM)) in Hb. apply in_map_iff in Hb as ([b0 r] & <- & Hb). cbn [with_role fst snd b_role].
  rewrite Forall_forall in PR. apply PR. rewrite EC. apply in_combine_r in Hb, Hq. apply in_concat. exists part. split; assumption.
Qed.
Lemma all_selected m d : (forall p b, In p (gd_pages d) -> In b (g_blocks p) -> b_role b < 14) ->
  flat_map (selected (seq 0 14)) (d_pages (the_document m d)) = flat_map g_blocks (gd_pages d).
Proof.
  unfold the_document. cbn [d_pages]. induction (gd_pages d) as [|p ps IH]; intros H; cbn [map flat_map]; [reflexivity|]. f_equal; [|apply IH; intros q b Hq; apply H; right; exact Hq].
  unfold selected. cbn [doc_page p_blocks]. apply ParsingWhole.filter_all. intros b Hb. destruct (in_dec Nat.eq_dec (b_role b) (seq 0 14)) as [_|N]; [reflexivity|].
  exfalso. apply N, in_seq. specialize (H p b (or_introl eq_refl) Hb). lia.
Qed.

(** ** Words *)
Lemma broken_next D h a b : broken_pair D h a b -> exists p q, doc_words D = p ++ a :: b :: q /\ hyphenated (w_text (h a)).
Proof.
  intros (l1 & l2 & (p & q & E) & L1 & L2 & HY). unfold doc_words. rewrite E. destruct l2 as [|b' l2]; [discriminate|]. cbn [hd_error] in L2. injection L2 as ->.
  destruct (BlocksProofs.snoc_cases l1) as [->|(x & a' & ->)]; [discriminate|]. rewrite BlocksProofs.last_opt_snoc in L1. injection L1 as ->.
  exists (concat p ++ x), (l2 ++ concat q). split; [|exact HY]. rewrite concat_app. cbn [concat]. rewrite <- !app_assoc. reflexivity.
Qed.
Lemma nodup_split {A} (x : A) p q p' q' : NoDup (p ++ x :: q) -> p ++ x :: q = p' ++ x :: q' -> p = p' /\ q = q'.
Proof.
  revert p'. induction p as [|y p IH]; intros [|y' p'] N E; cbn [app] in *.
  - injection E as ->. split; reflexivity.
  - injection E as -> E. exfalso. apply NoDup_cons_iff in N as [N _]. apply N. rewrite E. apply in_or_app. right. left. reflexivity.
  - injection E as E1 E2. subst y. exfalso. apply NoDup_cons_iff in N as [N _]. apply N. apply in_or_app. right. left. reflexivity.
  - injection E as -> E. apply NoDup_cons_iff in N as [_ N]. destruct (IH p' N E) as [-> ->]. split; reflexivity.
Qed.
Lemma contributes_printed D h (ws : list (list character)) : NoDup (doc_words D) ->
  ws = map (fun i => w_chars (h i)) (doc_words D) -> (forall i, In i (doc_words D) -> w_text (h i) = letters (w_chars (h i))) ->
  forall ks, Forall2 (contributes D h) (doc_words D) ks -> forall i k, nth_error ks i = Some k -> printed_as ws i k.
Proof.
  intros ND -> HT ks F i k Hk.
  assert (exists x, nth_error (doc_words D) i = Some x /\ contributes D h x k) as (x & Hx & C).
  { clear -F Hk. revert i Hk. induction F as [|x k0 xs ks C F IH]; intros [|i] Hk; cbn [nth_error] in *; try discriminate; [injection Hk as ->; exists x; split; [reflexivity|exact C]|exact (IH i Hk)]. }
  assert (EN : forall j y, nth_error (doc_words D) j = Some y -> nth j (map (fun i => w_chars (h i)) (doc_words D)) [] = w_chars (h y) /\ w_text (h y) = letters (w_chars (h y))).
  { intros j y Hj. split; [|apply HT; exact (nth_error_In _ _ Hj)]. apply nth_error_nth. rewrite nth_error_map, Hj. reflexivity. }
  destruct (EN i x Hx) as [E1 E2]. unfold printed_as. rewrite E1, <- E2.
  destruct C as [[(a & a' & B1 & B2) ->]|[(_ & [(b & B) _] & ->)|(_ & _ & ->)]].
  - right. right. split; [reflexivity|].
    destruct (broken_next _ _ _ _ B2) as (p & q & E & HY). destruct (broken_next _ _ _ _ B1) as (p' & q' & E' & HY').
    assert (EP : p = p' ++ [a']).
    { apply (nodup_split a p (x :: q) (p' ++ [a']) q'); [rewrite <- E; exact ND|]. rewrite <- E, E', <- app_assoc. reflexivity. }
    subst p. assert (Li : i = length p' + 2).
    { apply (proj1 (NoDup_nth_error (doc_words D)) ND); [apply nth_error_Some; congruence|]. rewrite Hx, E, <- app_assoc. cbn [app]. rewrite nth_error_app2 by lia.
      replace (length p' + 2 - length p') with 2 by lia. reflexivity. }
    split; [lia|].
    assert (Ha : nth_error (doc_words D) (i - 1) = Some a) by (rewrite E, <- app_assoc; cbn [app]; rewrite nth_error_app2 by lia; replace (i - 1 - length p') with 1 by lia; reflexivity).
    assert (Ha' : nth_error (doc_words D) (i - 2) = Some a') by (rewrite E'; rewrite nth_error_app2 by lia; replace (i - 2 - length p') with 0 by lia; reflexivity).
    destruct (EN _ _ Ha) as [X1 X2]. destruct (EN _ _ Ha') as [Y1 Y2]. rewrite X1, <- X2, Y1, <- Y2. split; assumption.
  - right. left. destruct (broken_next _ _ _ _ B) as (p & q & E & (s & NE & ES)). rewrite ES. unfold stem. rewrite removelast_last. split; [exact NE|reflexivity].
  - left. reflexivity.
Qed.

(** The words of the final document: their numbers, characters and texts. *)
Lemma final_words m cfg c es code d : sane m -> text_enabled c -> process_pdf m cfg c es = Ok (code, d) ->
  (forall p, In p (gd_pages d) -> stacks_apart cfg (page_words d p)) ->
  Permutation (doc_words (the_document m d)) (seq 0 (length (gd_words d))) /\
  (forall i, In i (doc_words (the_document m d)) -> w_text (the_word d i) = letters (w_chars (the_word d i))) /\
  Permutation (map PipelineSpec.plain (concat (map (fun i => w_chars (the_word d i)) (doc_words (the_document m d))))) (map PipelineSpec.plain (characters d)).
Proof.
  intros SA TE H AP. destruct (content_final m cfg c es code d SA TE H) as (r & EP & CD). pose proof (doc_words_perm m cfg _ d CD AP) as PM. split; [exact PM|]. split.
  - intros i Hi. apply (Permutation_in i PM), in_seq in Hi. pose proof CD as (_ & Ma & _ & Qa).
    assert (IP : In i (flat_map g_words (gd_pages d))) by (unfold word_numbers in Qa; rewrite Qa; apply in_seq; lia). apply in_flat_map in IP as (p & Hp & Hi').
    rewrite Forall_forall in Ma. destruct (Ma p Hp i Hi') as (_ & (TX & _) & _). change (the_word d i) with (at_words (gd_words d) i). rewrite TX.
    unfold letters. f_equal. apply map_ext_in. intros ch Hch. destruct (chars_on_page m cfg es d r EP CD p i ch Hp Hi' Hch) as (_ & c' & Hc' & _ & EM).
    unfold WordsSpec.shown_text, char_text. apply filter_In in Hc' as [_ Hc']. rewrite EM in Hc'. destruct (c_hasMark ch); [reflexivity|]. destruct (c_markOf ch); [discriminate|reflexivity].
  - pose proof CD as (((_ & GO) & _) & _ & _ & Q). unfold word_numbers in Q. rewrite <- Q in PM.
    rewrite (Permutation_map PipelineSpec.plain (l' := concat (map (fun i => w_chars (the_word d i)) (flat_map g_words (gd_pages d))))) by (rewrite <- !flat_map_concat_map; apply Permutation_flat_map; exact PM).
    unfold characters. clear -GO. induction (gd_pages d) as [|p ps IH]; [constructor|]. inversion GO as [|? ? [G1 _] G2]; subst. cbn [flat_map]. rewrite map_app, concat_app, !map_app.
    apply Permutation_app; [|exact (IH G2)]. rewrite <- G1, <- flat_map_concat_map. reflexivity.
Qed.

Lemma block_texts (f : nat -> str) bs : concat (map (fun b => map f (concat (b_lines b))) bs) = map f (concat (concat (map b_lines bs))).
Proof. induction bs as [|b bs IH]; [reflexivity|]. cbn [map concat]. rewrite IH, concat_app, map_app. reflexivity. Qed.

(** ** C76 The program as a whole *)

(** What is run, and what is printed. *)
Theorem C76_text : forall w os path es acts,
  (forall b, sane (w_machine w b)) -> (forall b x y, snd (m_network (w_machine w b) x y) <= 14) -> Permutation (w_sers w) SERIALIZERS -> harmless_logs w ->
  w_open w path = Calls es -> runs_on os path -> extracts_text os -> prints_all os -> quiet os -> program w (Ok os) = Ok (0%Z, acts) ->
  exists c d, config_for (w_toInt w) os c /\ process_pdf (w_machine w (skipFonts c)) (w_words w) c es = Ok (0%Z, d) /\
    ((forall p, In p (gd_pages d) -> stacks_apart (w_words w) (page_words d p)) ->
     exists blocks words ks, laid_out (stdout_text acts) blocks /\ concat (concat blocks) = concat ks /\
       Permutation (map PipelineSpec.plain (concat words)) (map PipelineSpec.plain (characters d)) /\
       length ks = length words /\ (forall i k, nth_error ks i = Some k -> printed_as words i k) /\
       (given os "skip-words-dehyphenation" -> ks = map letters words)).
Proof.
  intros w os path es acts SA HN HP HL HO [RO1 RO2] ET (PA1 & PA2 & PA3) [Q1 Q2] H. unfold program in H. set (e := mkEnv _ _ _ _ _ _) in H.
  assert (H' : exists c d, config_for (w_toInt w) os c /\ process_pdf (w_machine w (skipFonts c)) (w_words w) c es = Ok (0%Z, d) /\
               stdout_text acts = plain_serialize (the_document (w_machine w (skipFonts c)) d) (the_word d) (seq 0 14) []).
  { apply CliProofs.main_ok in H; [|exact HP]. destruct H as [(_ & _ & os' & s & HO' & Hs & G)|[[H _]|(os' & HO' & H)]]; [|discriminate|].
    - exfalso. injection HO' as <-. exact (RO2 s Hs G).
    - injection HO' as <-. destruct H as (c & pdf & HC & Hp & _ & H). rewrite RO1 in Hp. injection Hp as <-. exists c. cbn [engine e] in H. unfold the_engine in H. rewrite HO in H.
      change (process c None (run_module (w_machine w (skipFonts c)) (w_words w) es) fill_lines1 fill_lines2 gdoc_init) with (process_pdf (w_machine w (skipFonts c)) (w_words w) c es) in H.
      destruct (process_pdf (w_machine w (skipFonts c)) (w_words w) c es) as [[status d]| |why] eqn:E; [|destruct H|destruct (String.eqb why _); [destruct H; discriminate|destruct H]].
      assert (status = 0%Z) as ->.
      { unfold process_pdf in E. rewrite CliProofs.process_ok in E. destruct (run_all _ _ _) as [s'| |]; cbn [obind] in E; try discriminate. apply Ok_inj in E. exact (eq_sym (f_equal fst E)). }
      exists d. split; [exact HC|]. split; [reflexivity|].
      destruct H as [(H1 & _)|(_ & _ & f & roles & op & text & rest & Wf & Wr & Wp & HT & HNE & ->)]; [lia|].
      destruct Wf as [[_ ->]|(t & Wf & _)]; [|exfalso; rewrite (CliProofs.not_given_tokens _ _ PA1) in Wf; discriminate].
      destruct Wr as [[_ ->]|[Wr _]]; [|exfalso; exact (PA2 Wr)].
      destruct Wp as [[_ ->]|Wp]; [|exfalso; rewrite (CliProofs.not_given_tokens _ _ PA3) in Wp; discriminate].
      destruct HT as [[_ HT]|[X _]]; [|discriminate]. rewrite CliProofs.visible_quiet.
      + change (serialize (shell e) (can_open e) text (S_ "-")) with [Stdout text]. unfold stdout_text. cbn [map app concat].
        replace (concat (map _ rest)) with (@nil ascii); [rewrite app_nil_r; exact (eq_sym HT)|]. symmetry.
        clear -HNE. induction rest as [|a rest IH]; [reflexivity|]. cbn [map concat]. rewrite IH by (intros b Hb; apply HNE; right; exact Hb).
        specialize (HNE a (or_introl eq_refl)). destruct a; try destruct HNE; reflexivity.
      + intros x l p t I. apply HL in I. destruct (cf_level _ _ _ HC x (Q2 x)) as (v & [[_ ->]|Wv] & Hv).
        * destruct Hv as [(n & Hn & En)|[_ ->]]; [|lia]. exfalso. cbn in Hn.
          repeat (destruct Hn as [Hn|Hn]; [injection Hn as E1 _; subst n; vm_compute in En; discriminate En|]). destruct Hn.
        * exfalso. rewrite (CliProofs.not_given_tokens _ _ Q1) in Wv. discriminate. }
  clear H. destruct H' as (c & d & HC & H & ES). exists c, d. split; [exact HC|]. split; [exact H|]. intros AP. set (m := w_machine w (skipFonts c)) in *.
  assert (ON : forall x s, skip_flag x = Some s -> ~ given os s -> disabled c x = false).
  { intros x s ES' N. destruct (disabled c x) eqn:D; [|reflexivity]. exfalso. apply (proj1 (cf_disabled _ _ _ HC x)) in D as (s' & E' & G). rewrite ES' in E'. injection E' as <-. exact (N G). }
  destruct ET as (T1 & T2 & T3 & T4 & T5).
  assert (TE : text_enabled c) by (unfold text_enabled; repeat match goal with |- _ /\ _ => split end; [exact (ON MWords _ eq_refl T1)|exact (ON MSegmentation _ eq_refl T2)|exact (ON MLines _ eq_refl T3)|exact (ON MBlocks _ eq_refl T4)]).
  pose proof (roles_lt m _ c es _ d (SA _) TE (ON MReadingOrder _ eq_refl T5) (HN _) H) as RL.
  destruct (final_words m _ c es _ d (SA _) TE H AP) as (PM & HT & PC).
  assert (ND : NoDup (doc_words (the_document m d))) by (apply (Permutation_NoDup (Permutation_sym PM)), seq_NoDup).
  rewrite PropsOutput.C17_plain_text, (all_selected m d RL) in ES.
  assert (LO : laid_out (stdout_text acts) (map (block_shown (the_word d)) (flat_map g_blocks (gd_pages d)))) by (unfold laid_out; rewrite ES, map_map; reflexivity).
  destruct (disabled c MDehyphenation) eqn:DE.
  - (* without dehyphenation *)
    destruct (C75_marks m _ c es _ d (SA _) TE H AP) as [_ NM]. specialize (NM DE).
    exists (map (block_shown (the_word d)) (flat_map g_blocks (gd_pages d))), (map (fun i => w_chars (the_word d i)) (doc_words (the_document m d))),
      (map (fun i => letters (w_chars (the_word d i))) (doc_words (the_document m d))).
    split; [exact LO|]. split; [|split; [exact PC|split; [rewrite !map_length; reflexivity|split; [|intros _; rewrite map_map; reflexivity]]]].
    + assert (EB : forall b, In b (flat_map g_blocks (gd_pages d)) -> block_shown (the_word d) b = map (fun i => letters (w_chars (the_word d i))) (concat (b_lines b))).
      { intros b Hb. unfold block_shown. rewrite ParsingWhole.filter_all.
        - rewrite map_map. apply map_ext_in. intros i Hi. unfold shown.
          assert (Li : i < length (gd_words d)).
          { apply in_flat_map in Hb as (p & Hp & Hb). destruct (C73_blocks m _ c es _ d (SA _) TE H p b Hp Hb) as (_ & _ & IW & _).
            apply (proj1 (proj2 (C73_words m _ c es _ d (SA _) TE H))). exists p. split; [exact Hp|exact (IW i Hi)]. }
          rewrite (proj1 (NM i Li)). reflexivity.
        - intros x Hx. apply in_map_iff in Hx as (i & <- & Hi).
          assert (Li : i < length (gd_words d)).
          { apply in_flat_map in Hb as (p & Hp & Hb). destruct (C73_blocks m _ c es _ d (SA _) TE H p b Hp Hb) as (_ & _ & IW & _).
            apply (proj1 (proj2 (C73_words m _ c es _ d (SA _) TE H))). exists p. split; [exact Hp|exact (IW i Hi)]. }
          rewrite (proj2 (NM i Li)). reflexivity. }
      rewrite (map_ext_in _ _ _ EB). unfold doc_words, text_lines, the_document. cbn [d_pages]. rewrite no_empty, map_map. cbn [doc_page p_blocks].
      f_equal. rewrite block_texts. f_equal. f_equal. rewrite flat_map_concat_map. clear.
      induction (gd_pages d) as [|p ps IH]; [reflexivity|]. cbn [map concat]. rewrite map_app, concat_app, IH. reflexivity.
    + intros i k Hk. left. rewrite nth_error_map in Hk. destruct (nth_error (doc_words (the_document m d)) i) as [x|] eqn:Hx; [|discriminate]. injection Hk as <-.
      symmetry. f_equal. apply nth_error_nth. rewrite nth_error_map, Hx. reflexivity.
  - (* with dehyphenation *)
    destruct (C75_text m _ c es _ d (SA _) TE DE H AP) as (_ & _ & ks & F & EK).
    exists (map (block_shown (the_word d)) (flat_map g_blocks (gd_pages d))), (map (fun i => w_chars (the_word d i)) (doc_words (the_document m d))), ks.
    split; [exact LO|]. split; [exact EK|]. split; [exact PC|]. split; [rewrite map_length; symmetry; exact (ParsingProofs.Forall2_length _ _ _ F)|]. split.
    + exact (contributes_printed _ _ _ ND eq_refl HT ks F).
    + intros G. exfalso. assert (X : disabled c MDehyphenation = true) by (apply (cf_disabled _ _ _ HC); exists "skip-words-dehyphenation"; split; [reflexivity|exact G]). congruence.
Qed.
Print Assumptions C76_text.

(** Run with the path of a PDF only: the exit code and everything that is written, for every result of the engine. *)
Lemma default_run w path : harmless_logs w -> program w (Ok (path_only path)) =
  match the_engine w default_config path with
  | Crashed _ (UB why) => UB why
  | Crashed _ (Throw why) => Throw why
  | Crashed _ (Ok _) => UB "impossible"
  | Invalid _ => Ok (3%Z, [InvalidArgument])
  | Returned _ status d h => if (0 <? status)%Z then Ok (status, []) else Ok (0%Z, [Eff (Stdout (plain_serialize d h (seq 0 14) []))])
  end.
Proof.
  intros HL.
  assert (EL : forall logs, (exists c p, logs = w_logs w c p) -> visible default_config logs = []).
  { intros logs (c & p & ->). apply CliProofs.visible_quiet. intros x l q t I. apply HL in I. cbn [default_config logLevel]. lia. }
  unfold program, cli_main, path_only. cbn [parsed sers to_int].
  assert (ES : store (w_sers w) (w_toInt w) vm0 [(S_ "pdf-file", [path])] = (mkVm [] None None None [(S_ "pdf-file", path)] None, None)) by reflexivity.
  rewrite ES. cbn [v_strs]. assert (EA : assoc_str (S_ "pdf-file") [(S_ "pdf-file", path)] = Some path) by reflexivity. rewrite EA. cbn [is_some].
  unfold run_main. cbn [v_flags v_filter v_format v_roles mem_str existsb]. set (vm := mkVm [] None None None [(S_ "pdf-file", path)] None).
  assert (EC : config_of vm (level_of (get_str vm "verbosity" (S_ "error"))) (-1) = default_config).
  { unfold config_of, default_config. f_equal; apply FunctionalExtensionality.functional_extensionality; intros []; reflexivity. }
  rewrite EC. change (get_str vm "pdf-file" []) with path. change (get_str vm "output-file" (S_ "-")) with (S_ "-"). change (get_str vm "visualization-path" []) with (@nil ascii).
  cbn [engine shell can_open].
  assert (LG : match the_engine w default_config path with Returned logs _ _ _ | Invalid logs | Crashed logs _ => logs = w_logs w default_config path end).
  { unfold the_engine. destruct (match w_open w path with Unreadable code => (Some code, []) | Calls es => (None, es) end) as [no es].
    destruct (process _ _ _ _ _ _) as [[? ?]| |why]; try reflexivity. destruct (String.eqb why "invalid_argument"); reflexivity. }
  destruct (the_engine w default_config path) as [logs status d h|logs|logs [[]| |]]; try reflexivity.
  - rewrite EL by (exists default_config, path; exact LG). destruct (0 <? status)%Z; [reflexivity|]. cbn [getSerializer]. reflexivity.
  - rewrite EL by (exists default_config, path; exact LG). reflexivity.
Qed.
Theorem C76_default : forall w path, harmless_logs w -> let m := w_machine w false in
  match w_open w path with
  | Unreadable code => (0 < code)%Z -> program w (Ok (path_only path)) = Ok (code, [])
  | Calls es =>
      match process_pdf m (w_words w) default_config es with
      | Ok (_, d) => program w (Ok (path_only path)) = Ok (0%Z, [Eff (Stdout (
          intercalate [nl; nl] (map (fun b => intercalate [" "%char] (block_shown (the_word d) b)) (flat_map (selected (seq 0 14)) (d_pages (the_document m d)))) ++ [nl]))])
      | Throw why => (why = "invalid_argument" -> program w (Ok (path_only path)) = Ok (3%Z, [InvalidArgument])) /\
                     (why <> "invalid_argument" -> program w (Ok (path_only path)) = Throw why)
      | UB why => program w (Ok (path_only path)) = UB why
      end
  end.
Proof.
  intros w path HL m. rewrite (default_run w path HL). unfold the_engine. destruct (w_open w path) as [code|es].
  - intros L. cbn [process]. apply Z.ltb_lt in L. rewrite L. reflexivity.
  - cbn [default_config skipFonts]. fold m. change (process default_config None (run_module m (w_words w) es) fill_lines1 fill_lines2 gdoc_init) with (process_pdf m (w_words w) default_config es).
    destruct (process_pdf m (w_words w) default_config es) as [[status d]|why|why] eqn:E; [|reflexivity|].
    + assert (status = 0%Z) as ->.
      { unfold process_pdf in E. rewrite CliProofs.process_ok in E. destruct (run_all _ _ _) as [s'| |]; cbn [obind] in E; try discriminate. apply Ok_inj in E. exact (eq_sym (f_equal fst E)). }
      cbn [Z.ltb]. rewrite PropsOutput.C17_plain_text. reflexivity.
    + split; [intros ->; reflexivity|]. intros N. apply String.eqb_neq in N. rewrite N. reflexivity.
Qed.
Print Assumptions C76_default.

(** An ordinary document is processed to the end, and the output contains all of its text: total correctness of
    "pdftotext++ file.pdf". *)
Theorem C76_ordinary : forall w path es r, let m := w_machine w false in
  sane m -> (forall x y, snd (m_network m x y) <= 14) -> harmless_logs w -> w_open w path = Calls es ->
  Parsing.parse_events (m_parseFont m) (m_mapUnicode m) (m_fromBytes m) (m_iswspace m) (m_charId m) es = Ok r -> TotalSpec.ordinary r ->
  exists d0, process_pdf m (w_words w) (PropsTotal.before_roles default_config) es = Ok (0%Z, d0) /\
    forall p, Roles.readModel (m_fuel m) (m_bpe m) (m_roles m) Roles.new_predictor = Some (Ok tt, p) ->
      (Z.of_nat (length (gd_pages d0)) < 2 ^ 24)%Z ->
      (forall q b, In (q, b) (RolesSpec.blocks_of (PropsTotal.role_pages d0)) ->
         RolesSpec.usual_block (m_fromBytes m) (PropsTotal.role_fonts d0) (Z.of_nat (length (gd_pages d0))) q b /\ (exists k, RolesSpec.size_tenths (Roles.rb_fontSize b) k) /\
         exists t, m_fromBytes m (Roles.rb_text b) = Some t /\ (N.of_nat (length t) < 2 ^ 32 - 1)%N) ->
      (forall layout words, length (fst (m_network m layout words)) = Z.to_nat (fst (snd layout)) * snd (m_network m layout words)) ->
      exists d text, Forall2 page_of (Parsing.pages r) (gd_pages d) /\ program w (Ok (path_only path)) = Ok (0%Z, [Eff (Stdout text)]) /\
        ((forall p, In p (gd_pages d) -> stacks_apart (w_words w) (page_words d p)) ->
         exists blocks words ks, laid_out text blocks /\ concat (concat blocks) = concat ks /\
           Permutation (map PipelineSpec.plain (concat words)) (map PipelineSpec.plain (characters d)) /\
           length ks = length words /\ (forall i k, nth_error ks i = Some k -> printed_as words i k)).
Proof.
  intros w path es r m SA HN HL HO EP OR. destruct (PropsTotal.C72_roles m (w_words w) default_config es r SA EP OR) as (d0 & E0 & R). exists d0. split; [exact E0|].
  intros p HM LP HB HW. destruct (R p HM LP HB HW) as (d & E). exists d.
  assert (TE : text_enabled default_config) by (repeat split).
  pose proof (C76_default w path HL) as D. cbn zeta in D. rewrite HO in D. fold m in D. rewrite E in D. eexists.
  split. { destruct (PropsPipeline.C52_text m _ _ _ _ _ SA TE E) as (r' & EP' & PO & _). rewrite EP in EP'. apply Ok_inj in EP'. subst r'. exact PO. }
  split; [exact D|]. intros AP.
  pose proof (roles_lt m _ _ es _ d SA TE eq_refl HN E) as RL.
  destruct (final_words m _ _ es _ d SA TE E AP) as (PM & HT & PC).
  assert (ND : NoDup (doc_words (the_document m d))) by (apply (Permutation_NoDup (Permutation_sym PM)), seq_NoDup).
  destruct (C75_text m _ _ es _ d SA TE eq_refl E AP) as (_ & _ & ks & F & EK).
  exists (map (block_shown (the_word d)) (flat_map g_blocks (gd_pages d))), (map (fun i => w_chars (the_word d i)) (doc_words (the_document m d))), ks.
  split; [unfold laid_out; rewrite (all_selected m d RL), map_map; reflexivity|]. split; [exact EK|]. split; [exact PC|]. split; [rewrite map_length; symmetry; exact (ParsingProofs.Forall2_length _ _ _ F)|].
  exact (contributes_printed _ _ _ ND eq_refl HT ks F).
Qed.
Print Assumptions C76_ordinary.

(** If a vocabulary file of the model cannot be opened, an ordinary document is not converted: exit code 3, nothing on
    standard output - even though the roles are not needed for the text. *)
Theorem C76_no_model_refuted : forall w path es r, let m := w_machine w false in
  sane m -> harmless_logs w -> w_open w path = Calls es ->
  Parsing.parse_events (m_parseFont m) (m_mapUnicode m) (m_fromBytes m) (m_iswspace m) (m_charId m) es = Ok r -> TotalSpec.ordinary r ->
  m_bpe m = None -> program w (Ok (path_only path)) = Ok (3%Z, [InvalidArgument]).
Proof.
  intros w path es r m SA HL HO EP OR NB. pose proof (C76_default w path HL) as D. cbn zeta in D. rewrite HO in D. fold m in D.
  destruct (PropsTotal.upto_blocks m (w_words w) default_config es r SA EP OR) as (d9 & _ & H). rewrite (H default_config (fun _ _ _ => eq_refl)) in D.
  unfold step in D. cbn [default_config disabled Bool.eqb run_module] in D. unfold run_readingOrder, Roles.predict in D. cbn [Roles.p_modelOk Roles.new_predictor] in D. unfold Roles.readModel in D.
  rewrite NB in D. cbn [option_map fst from_run obind] in D. apply D. reflexivity.
Qed.
Print Assumptions C76_no_model_refuted.

(** ** Examples *)
Import PropsPipeline.
(** "a" is drawn on the page, "b" inside of a smaller clip box (that contains it) *)
Definition in_box (k : Parsing.clip) (s : Parsing.gstate) : Parsing.gstate :=
  Parsing.mkGState k (Parsing.s_ctm s) (Parsing.s_font s) (Parsing.s_trans s) (Parsing.s_fontSize s) (Parsing.s_horiz s) (Parsing.s_rise s)
    (Parsing.s_textMat s) (Parsing.s_curX s) (Parsing.s_curY s) (Parsing.s_tfs s) (Parsing.s_opacity s) (Parsing.s_rgb s) (Parsing.s_path s).
Definition ex_clipped : list Parsing.event :=
  ex_start 1 ++ [ex_draw 50 700 10 97; Parsing.DrawChar (in_box PropsParsing.ex_inner (ex_st 110 650 10)) 98 1 (Some [98%N]) 1].
Definition ex_world (bpe : Roles.file) : world :=
  mkWorld (fun _ => mkMachine PropsParsing.ex_parse PropsParsing.ex_map PropsParsing.ex_bytes PropsParsing.ex_space (fun _ => []) (fun _ => false) (fun x => x)
    (fun _ => []) (fun _ _ => []) (fun _ _ => []) (fun _ _ => []) (fun l => l) (fun l => l) (fun l => l) (fun l => l) (fun l => l)
    isort XYCutProofs.top_first isort isort isort XYCutProofs.top_first bpe ex_bpe 9 (fun layout _ => (repeat Float.fzero (Z.to_nat (fst (snd layout)) * 2), 2)) (fun _ _ => 0))
    Words.default_words_config (fun p => if str_eqb p (S_ "x.pdf") then Calls ex_hyph else if str_eqb p (S_ "y.pdf") then Calls ex_doc else if str_eqb p (S_ "c.pdf") then Calls ex_clipped else Unreadable 1)
    (fun _ _ => [(MWords, 1, 1%Z, S_ "message")]) (fun _ => None) SERIALIZERS (fun _ => 0%Z) (fun _ => true).
Definition o (name : string) (vals : list string) : occ := (S_ name, map S_ vals).
Definition no_hyph : list occ := [o "pdf-file" ["x.pdf"]; o "skip-words-dehyphenation" []].
Lemma ex_world_sane : forall bpe b, sane (w_machine (ex_world bpe) b).
Proof.
  intros bpe b. unfold sane. cbn [ex_world w_machine m_sortP m_topP m_sortW m_sortL m_sortR m_topR m_ordS m_ordD m_ordF m_ordR m_ordY].
  repeat (split; [first [exact isort_ok|exact XYCutProofs.top_first_ok|intros x; reflexivity]|]). intros x. reflexivity.
Qed.
Lemma ex_world_quiet : forall bpe, harmless_logs (ex_world bpe).
Proof. intros bpe c path x l p t [E|[]]. injection E as _ <- _ _. lia. Qed.
Example C76_example : let w := ex_world ex_bpe in
  sane (w_machine w false) /\ (forall b x y, snd (m_network (w_machine w b) x y) <= 14) /\ harmless_logs w /\
  runs_on no_hyph (S_ "x.pdf") /\ extracts_text no_hyph /\ prints_all no_hyph /\ quiet no_hyph /\
  program w (Ok (path_only (S_ "x.pdf"))) = Ok (0%Z, [Eff (Stdout (S_ "abcde" ++ [nl]))]) /\
  program w (Ok no_hyph) = Ok (0%Z, [Eff (Stdout (S_ "ab- cde" ++ [nl]))]) /\
  program w (Ok [o "pdf-file" ["x.pdf"]; o "role" ["title"]]) = Ok (0%Z, [Eff (Stdout [nl])]) /\
  program w (Ok [o "pdf-file" ["x.pdf"]; o "verbosity" ["debug"]]) = Ok (0%Z, [Eff (Stdout (S_ "message")); Eff (Stdout (S_ "abcde" ++ [nl]))]) /\
  program w (Ok (path_only (S_ "y.pdf"))) = Ok (0%Z, [Eff (Stdout (sigma ++ S_ " Hi n a" ++ [nl; nl] ++ S_ "Z" ++ [nl]))]) /\
  program w (Ok (path_only (S_ "z.pdf"))) = Ok (1%Z, []) /\
  program (ex_world None) (Ok (path_only (S_ "x.pdf"))) = Ok (3%Z, [InvalidArgument]).
Proof.
  assert (NG : forall n, negb (existsb (fun o => str_eqb (fst o) (S_ n)) no_hyph) = true -> ~ given no_hyph n).
  { intros n H (vals & I). apply negb_true_iff in H. assert (X : existsb (fun o => str_eqb (fst o) (S_ n)) no_hyph = true) by (apply existsb_exists; exists (S_ n, vals); split; [exact I|apply str_eqb_refl]). congruence. }
  split; [apply ex_world_sane|].
  split; [intros b x y; cbn; lia|]. split; [apply ex_world_quiet|].
  split; [split; [reflexivity|intros s [<-|[<-|[<-|[]]]]; apply NG; reflexivity]|].
  split; [unfold extracts_text; repeat match goal with |- _ /\ _ => split end; apply NG; reflexivity|].
  split; [unfold prints_all; repeat match goal with |- _ /\ _ => split end; apply NG; reflexivity|].
  split; [split; [apply NG; reflexivity|intros []; apply NG; reflexivity]|].
  repeat match goal with |- _ /\ _ => split end; vm_compute; reflexivity.
Qed.

(** Text that is drawn inside of another clip box than the page's belongs to a figure for the program and is not part of the
    output: of "a" and "b" only "a" is printed, although nothing is reported and the exit code is 0. *)
Theorem C76_clipped_refuted : exists w path es s, sane (w_machine w false) /\ harmless_logs w /\ w_open w path = Calls es /\
  In (Parsing.DrawChar s 98 1 (Some [98%N]) 1) es /\ s = in_box PropsParsing.ex_inner (ex_st 110 650 10) /\
  program w (Ok (path_only path)) = Ok (0%Z, [Eff (Stdout (S_ "a" ++ [nl]))]).
Proof.
  exists (ex_world ex_bpe), (S_ "c.pdf"), ex_clipped, (in_box PropsParsing.ex_inner (ex_st 110 650 10)).
  split; [apply ex_world_sane|]. split; [apply ex_world_quiet|]. split; [reflexivity|].
  split; [right; right; right; left; reflexivity|]. split; [reflexivity|]. vm_compute. reflexivity.
Qed.
Print Assumptions C76_clipped_refuted.
