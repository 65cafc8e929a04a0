(** PropsLegible.v - C72_characters: with the detection of roles and reading order, in terms of the characters of the document. *)
From Coq Require Import ZArith NArith Permutation.
From Verif Require Import Base Double DoubleFacts MathUtils Elements Sort GeometrySpec Document Serialization SerializationSpec Cli CliSpec Pipeline PipelineSpec PipelineLines TotalSpec TotalPos TotalWhole LegibleSpec LegibleProofs ContentSpec Program ProgramSpec PropsPipeline PropsTotal.
From Verif Require Fonts Parsing Words Roles RolesSpec Cli PropsParsing PropsRoles Bpe Float DiacriticsSpec XYCutProofs TextlessProofs PropsProgram PropsContent ParsingProofs PropsOutput DehyphenationProofs.
Local Opaque TOL dadd dsub ddiv dmul DBL_MAX DBL_MIN.

Lemma text_or_not c : text_enabled c \/ ~ text_enabled c.
Proof.
  unfold text_enabled. destruct (Cli.disabled c Cli.MWords), (Cli.disabled c Cli.MSegmentation), (Cli.disabled c Cli.MLines), (Cli.disabled c Cli.MBlocks);
    first [left; repeat split; reflexivity|right; intros (A & B & C & D); congruence].
Qed.
(** The whole program gets to its end - no exception, no undefined behaviour, no endless loop - on every ordinary document whose
    pages are legible (and whose fonts are read by PdfFontInfoParser), with the detection of the roles and of the reading order or without, whichever modules
    are skipped; provided that the files of the byte pair encoding and of the roles can be read,
    and that the network returns as many rows as it is given. *)
Theorem C72_characters : forall m wcfg c es r k p, sane m ->
  Parsing.parse_events (m_parseFont m) (m_mapUnicode m) (m_fromBytes m) (m_iswspace m) (m_charId m) es = Ok r -> ordinary r ->
  piecewise (m_fromBytes m) -> (forall q, In q (Parsing.pages r) -> legible m k q) -> reads_fonts m ->
  Roles.readModel (m_fuel m) (m_bpe m) (m_roles m) Roles.new_predictor = Some (Ok tt, p) ->
  (forall layout words, length (fst (m_network m layout words)) = Z.to_nat (fst (snd layout)) * snd (m_network m layout words)) ->
  exists d, process_pdf m wcfg c es = Ok (0%Z, d).
Proof.
  intros m wcfg c es r k p SA EP OR PW LG0 RF HM HN. pose proof (legible_known m es r k RF EP LG0) as LG.
  destruct (upto_blocks m wcfg c es r SA EP OR) as (d9 & (G9 & _) & H9).
  assert (E : process_pdf m wcfg (before_roles c) es = Ok (0%Z, fill_lines2 d9)).
  { rewrite H9 by (intros [] N1 N2; first [reflexivity|congruence]). unfold Cli.step, before_roles. cbn [Cli.disabled Bool.eqb obind]. reflexivity. }
  set (d := fill_lines2 d9) in *.
  assert (FN : gd_fonts d = Parsing.pr_fonts r).
  { unfold process_pdf in E. revert E. apply (PropsContent.process_keeps (fun d => gd_fonts d = Parsing.pr_fonts r)).
    - intros s1 E. cbn [run_module] in E. unfold run_parsing in E. rewrite EP in E. cbn [obind] in E. apply Ok_inj in E. subst s1. reflexivity.
    - intros x s1 s2 N I E. rewrite (PropsContent.modules_fonts _ _ _ _ _ _ N E). exact I.
    - intros s1 I. exact I.
    - intros s1 I. exact I. }
  assert (FC : forall q, In q (gd_pages d) -> forall ch, In ch (visible_chars q) -> finite_box (c_pos ch) /\ is_nan_d (c_fontSize ch) = false).
  { intros q Hq ch Hch. unfold d, fill_lines2 in Hq. cbn [set_pages gd_pages] in Hq. apply in_map_iff in Hq as (q0 & <- & Hq0). unfold visible_chars in Hch. cbn [set_textLines g_chars] in Hch.
    apply filter_In in Hch as [Hch _]. destruct (proj1 (proj2 G9 q0 Hq0) ch Hch) as (OP & FS & _). split; [exact (on_page_fin _ OP)|].
    destruct (c_fontSize ch); try reflexivity. exfalso. revert FS. clear. destruct (dec 1 1); discriminate. }
  assert (HS : forall q b, In q (role_pages d) -> In b (Roles.rp_blocks q) -> seen (m_fromBytes m) (role_fonts d) b /\
      exists t, m_fromBytes m (Roles.rb_text b) = Some t /\ (N.of_nat (length t) < 2 ^ 32 - 1)%N).
  { intros q b Hq Hb. unfold role_pages in Hq. apply in_map_iff in Hq as (q0 & <- & Hq0). unfold role_page in Hb. cbn [Roles.rp_blocks] in Hb. apply in_map_iff in Hb as (b0 & <- & Hb0).
    destruct (text_or_not (before_roles c)) as [TE'|NT]; [|exfalso; rewrite (TextlessProofs.textless m wcfg _ es _ _ SA NT eq_refl E q0 Hq0) in Hb0; exact Hb0].
    destruct (blocks_legible m wcfg (before_roles c) es 0%Z d r _ k SA TE' E EP PW LG q0 b0 Hq0 Hb0 (FC q0 Hq0)) as ((t & ET & LT) & FO & W).
    unfold role_block. cbn [Roles.rb_text Roles.rb_fontName Roles.rb_words]. split; [|exists t; split; assumption]. unfold seen. cbn [Roles.rb_text Roles.rb_fontName Roles.rb_words]. split; [|split].
    - unfold role_fonts, Parsing.find_font. rewrite FN. apply in_map_iff in FO as ((x & i) & Ex & Hx). cbn [fst] in Ex.
      destruct (find (fun e => str_eqb (fst e) (b_fontName b0)) (Parsing.pr_fonts r)) as [e|] eqn:EF; [eexists; reflexivity|].
      pose proof (find_none _ _ EF _ Hx) as X. cbn [fst] in X. rewrite Ex, str_eqb_refl in X. discriminate.
    - exists t. exact ET.
    - intros s Hs. apply in_map_iff in Hs as (i & <- & Hi). exact (W i Hi). }
  destruct (layout_defined (m_fromBytes m) (role_fonts d) (role_pages d)) as (lv & EL).
  { intros q b Hq Hb. exact (proj1 (HS q b Hq Hb)). }
  destruct (PropsRoles.C62_words (m_fromBytes m) (Roles.p_bpeVocab p) (role_pages d)) as (wv & EW & _).
  { intros q b I. unfold RolesSpec.blocks_of in I. apply in_concat in I as (l & Hl & I). apply in_map_iff in Hl as (q0 & <- & Hq). apply in_map_iff in I as (b0 & X & Hb).
    injection X as -> ->. exact (proj2 (HS q b Hq Hb)). }
  destruct (PropsRoles.C37_predict (m_fromBytes m) (role_fonts d) (m_network m) (m_fuel m) (m_bpe m) (m_roles m) Roles.new_predictor p (role_pages d) _ _ (or_intror (conj eq_refl HM)) EL EW) as (rs & EPr & _).
  { rewrite HN. cbn [fst snd]. rewrite Nat2Z.id. f_equal. clear. unfold RolesSpec.blocks_of. induction (role_pages d) as [|q l IH]; cbn [map concat]; [reflexivity|]. rewrite !app_length, map_length, IH. reflexivity. }
  apply (reading_order_step m wcfg c es r rs d SA EP OR E). unfold prediction. fold (role_pages d). change (fun n => option_map _ (Parsing.find_font n (gd_fonts d))) with (role_fonts d). rewrite EPr. reflexivity.
Qed.
Print Assumptions C72_characters.

(** The program as a whole, run as `pdftotext++ file.pdf` on an ordinary, legible document, with well-formed vocabulary files and a
    network with at most 14 classes: it ends with exit code 0 and writes exactly one text to standard output; the pages are the pages of the
    document; and if the stacked math symbols of a page don't interleave, every character (but those that were merged into a letter, as
    accents) stands in that text exactly once, except for hyphens at line ends and the third of three words that are joined by hyphens. *)
Theorem C76_legible : forall w path es r k s1 ls1 rest1 es1 s2 ls2 rest2 es2, let m := w_machine w false in
  sane m -> (forall x y, snd (m_network m x y) <= 14) ->
  (forall layout words, length (fst (m_network m layout words)) = Z.to_nat (fst (snd layout)) * snd (m_network m layout words)) ->
  harmless_logs w -> w_open w path = Calls es ->
  m_bpe m = Some (s1, true) -> RolesSpec.has_lines s1 ls1 rest1 -> Forall2 RolesSpec.line_entry ls1 es1 -> length ls1 < m_fuel m ->
  m_roles m = Some (s2, true) -> RolesSpec.has_lines s2 ls2 rest2 -> Forall2 RolesSpec.line_entry ls2 es2 -> length ls2 < m_fuel m ->
  Parsing.parse_events (m_parseFont m) (m_mapUnicode m) (m_fromBytes m) (m_iswspace m) (m_charId m) es = Ok r -> ordinary r ->
  piecewise (m_fromBytes m) -> (forall q, In q (Parsing.pages r) -> legible m k q) -> reads_fonts m ->
  exists d text, Forall2 page_of (Parsing.pages r) (gd_pages d) /\ program w (Ok (path_only path)) = Ok (0%Z, [Eff (Stdout text)]) /\
    ((forall p, In p (gd_pages d) -> stacks_apart (w_words w) (page_words d p)) ->
     exists blocks words ks, laid_out text blocks /\ concat (concat blocks) = concat ks /\
       Permutation (map PipelineSpec.plain (concat words)) (map PipelineSpec.plain (characters d)) /\
       length ks = length words /\ (forall i k, nth_error ks i = Some k -> printed_as words i k)).
Proof.
  intros w path es r k s1 ls1 rest1 es1 s2 ls2 rest2 es2 m SA HN HW HL HO B1 A1 A2 A3 B2 A4 A5 A6 EP OR PW LG RF.
  destruct (PropsRoles.C63_load s1 ls1 rest1 es1 s2 ls2 rest2 es2 (m_fuel m) A1 A2 A4 A5 A3 A6) as (p & HM & _). rewrite <- B1, <- B2 in HM.
  assert (TE : text_enabled default_config) by (repeat split).
  destruct (C72_characters m (w_words w) default_config es r k p SA EP OR PW LG RF HM HW) as (d & E). exists d.
  pose proof (PropsProgram.C76_default w path HL) as D. cbn zeta in D. rewrite HO in D. fold m in D. rewrite E in D. eexists.
  split. { destruct (PropsPipeline.C52_text m _ _ _ _ _ SA TE E) as (r' & EP' & PO & _). rewrite EP in EP'. apply Ok_inj in EP'. subst r'. exact PO. }
  split; [exact D|]. intros AP.
  pose proof (PropsProgram.roles_lt m _ _ es _ d SA TE eq_refl HN E) as RL.
  destruct (PropsProgram.final_words m _ _ es _ d SA TE E AP) as (PM & HT & PC).
  assert (ND : NoDup (doc_words (the_document m d))) by (apply (Permutation_NoDup (Permutation_sym PM)), seq_NoDup).
  destruct (PropsContent.C75_text m _ _ es _ d SA TE eq_refl E AP) as (_ & _ & ks & F & EK).
  exists (map (block_shown (the_word d)) (flat_map g_blocks (gd_pages d))), (map (fun i => w_chars (the_word d i)) (doc_words (the_document m d))), ks.
  split; [unfold laid_out; rewrite (PropsProgram.all_selected m d RL), map_map; reflexivity|]. split; [exact EK|]. split; [exact PC|]. split; [rewrite map_length; symmetry; exact (ParsingProofs.Forall2_length _ _ _ F)|].
  exact (PropsProgram.contributes_printed _ _ _ ND eq_refl HT ks F).
Qed.
Print Assumptions C76_legible.

(** ** Example: the demo document of C52, with fonts that are read by PdfFontInfoParser *)
Definition read_font (g : Fonts.gfx_font) : outcome Fonts.font :=
  match Fonts.parse_font (fun _ => None) true 0 (Some g) false with Some (Ok (Some f)) => Ok f | _ => Throw "" end.
Definition ex_world3 : world :=
  mkWorld (fun _ => mkMachine read_font PropsParsing.ex_map PropsParsing.ex_bytes PropsParsing.ex_space (fun _ => []) (fun _ => false) (fun x => x)
    (fun _ => []) (fun _ _ => []) (fun _ _ => []) (fun _ _ => []) (fun l => l) (fun l => l) (fun l => l) (fun l => l) (fun l => l)
    isort XYCutProofs.top_first isort isort isort XYCutProofs.top_first ex_bpe ex_bpe 9 (fun layout _ => (repeat Float.fzero (Z.to_nat (fst (snd layout)) * 2), 2)) (fun _ _ => 0))
    Words.default_words_config (fun p => if str_eqb p (S_ "y.pdf") then Calls ex_doc else Unreadable 1)
    (fun _ _ => []) (fun _ => None) SERIALIZERS (fun _ => 0%Z) (fun _ => true).
Definition ex_machine3 : machine := w_machine ex_world3 false.
Lemma ex_sane3 : sane ex_machine3.
Proof.
  unfold sane, ex_machine3. cbn [ex_world3 w_machine m_sortP m_topP m_sortW m_sortL m_sortR m_topR m_ordS m_ordD m_ordF m_ordR m_ordY].
  repeat (split; [first [exact isort_ok|exact XYCutProofs.top_first_ok|intros x; reflexivity]|]). intros x. reflexivity.
Qed.
Lemma ex_reads : reads_fonts ex_machine3.
Proof.
  intros g f H. exists (fun _ => None), true, 0, false. unfold ex_machine3 in H. cbn [ex_world3 w_machine m_parseFont] in H. unfold read_font in H.
  destruct (Fonts.parse_font _ _ _ _ _) as [[[f'|]| |]|]; try discriminate. apply Ok_inj in H. subst f'. reflexivity.
Qed.
Lemma ex_quiet3 : harmless_logs ex_world3.
Proof. intros c path x l p t []. Qed.
Definition parsed3 (es : list Parsing.event) : outcome Parsing.parser :=
  Parsing.parse_events (m_parseFont ex_machine3) (m_mapUnicode ex_machine3) (m_fromBytes ex_machine3) (m_iswspace ex_machine3) (m_charId ex_machine3) es.
Lemma ex_piecewise : piecewise (m_fromBytes ex_machine3).
Proof.
  split; [reflexivity|]. split; [reflexivity|]. intros a b u v A B. change (Some (map N_of_ascii a) = Some u) in A. change (Some (map N_of_ascii b) = Some v) in B.
  injection A as <-. injection B as <-. change (Some (map N_of_ascii (a ++ b)) = Some (map N_of_ascii a ++ map N_of_ascii b)). rewrite map_app. reflexivity.
Qed.
Definition readable_b (from : str -> option (list N)) (k : nat) (s : str) : bool :=
  match from s with Some t => (length t <=? k) && match t with c :: _ => (c <? 256)%N | [] => true end | None => false end.
Lemma readable_check from k s : readable_b from k s = true -> readable from k s.
Proof.
  unfold readable_b, readable. destruct (from s) as [t|]; [|discriminate]. rewrite andb_true_iff. intros [A B]. exists t. split; [reflexivity|]. split; [apply Nat.leb_le, A|].
  destruct t; [exact I|apply N.ltb_lt, B].
Qed.
(** A page on which no character is a mark. *)
Definition plain_code (x : N) : bool := ((x <? 688) || (879 <? x))%N && negb (existsb (fun e => existsb (N.eqb x) (snd e)) DiacriticsSpec.SPACING_FORMS).
Definition legible_b (m : machine) (k : nat) (q : Parsing.ppage) : bool :=
  let n := N.of_nat (length (Parsing.pp_chars q)) in
  (n * (n + 1) * (N.of_nat k + 2) <? 2 ^ 32 - 1)%N &&
  forallb (fun c => readable_b (m_fromBytes m) k (c_text c) && negb (is_nan_d (c_base c)) &&
                    forallb plain_code (c_unicodes c)) (Parsing.pp_chars q).
Lemma low_no_mark c u : forallb plain_code (c_unicodes c) = true -> ~ DiacriticsSpec.is_mark c u.
Proof.
  intros H (u0 & E & [X|[_ X]] & B); rewrite E in H; cbn [forallb] in H; rewrite andb_true_r in H; unfold plain_code in H; apply andb_prop in H as [H H'].
  - destruct X as (us & I1 & I2). apply negb_true_iff in H'.
    assert (Y : existsb (fun e => existsb (N.eqb u0) (snd e)) DiacriticsSpec.SPACING_FORMS = true) by (apply existsb_exists; exists (u, us); split; [exact I1|]; apply existsb_exists; exists u0; split; [exact I2|apply N.eqb_refl]).
    congruence.
  - apply orb_prop in H as [H|H]; apply N.ltb_lt in H; lia.
Qed.
Lemma legible_check m k q : legible_b m k q = true -> legible m k q.
Proof.
  unfold legible_b, legible. cbv zeta. rewrite andb_true_iff, forallb_forall. intros [A B]. split; [apply N.ltb_lt, A|]. intros c Hc. pose proof (B c Hc) as X. rewrite !andb_true_iff in X.
  destruct X as [[X1 X3] X4]. split; [apply readable_check, X1|]. split.
  - destruct (is_nan_d (c_base c)); [discriminate|reflexivity].
  - intros mk u Hmk IM. exfalso. specialize (B mk Hmk). rewrite !andb_true_iff in B. exact (low_no_mark mk u (proj2 B) IM).
Qed.
Example C72_characters_example : text_enabled ex_all /\ reads_fonts ex_machine3 /\
  (exists r, parsed3 ex_doc = Ok r /\ ordinary r /\ length (flat_map Parsing.pp_chars (Parsing.pages r)) = 6 /\
     forall q, In q (Parsing.pages r) -> legible ex_machine3 3 q) /\
  exists d, process_pdf ex_machine3 Words.default_words_config ex_all ex_doc = Ok (0%Z, d).
Proof.
  assert (H : match parsed3 ex_doc with Ok r => ordinary_b r && (length (flat_map Parsing.pp_chars (Parsing.pages r)) =? 6) && forallb (legible_b ex_machine3 3) (Parsing.pages r) | _ => false end = true)
    by (vm_compute; reflexivity).
  destruct (parsed3 ex_doc) as [r| |] eqn:E; try discriminate. rewrite !andb_true_iff in H. destruct H as [[H1 H2] H3]. rewrite forallb_forall in H3. apply ordinary_check in H1.
  assert (L : forall q, In q (Parsing.pages r) -> legible ex_machine3 3 q) by (intros q Hq; apply legible_check, H3, Hq).
  assert (TE : text_enabled ex_all) by (repeat split).
  split; [exact TE|]. split; [exact ex_reads|]. split; [exists r; split; [reflexivity|]; split; [exact H1|]; split; [apply Nat.eqb_eq in H2; exact H2|exact L]|].
  assert (R : match Roles.readModel (m_fuel ex_machine3) (m_bpe ex_machine3) (m_roles ex_machine3) Roles.new_predictor with Some (Ok tt, _) => true | _ => false end = true) by (vm_compute; reflexivity).
  destruct (Roles.readModel _ _ _ _) as [[[[]| |] p]|] eqn:EM; try discriminate.
  apply (C72_characters ex_machine3 _ ex_all ex_doc r 3 p ex_sane3 E H1 ex_piecewise L ex_reads EM).
  intros layout words. unfold ex_machine3. cbn [m_network fst snd]. apply repeat_length.
Qed.

(** The program on this document ("y.pdf" in the world of C76); the vocabulary files have one line: "a", a tab, "0". *)
Definition a_line : list N := map N_of_ascii (S_ "a") ++ 9%N :: map N_of_ascii (S_ "0") ++ [10%N].
Lemma a_line_ok : RolesSpec.has_lines a_line [[97; 9; 48]%N] [] /\ Forall2 RolesSpec.line_entry [[97; 9; 48]%N] [Some ([97%N], 0%Z)].
Proof.
  split.
  - split; [reflexivity|]. split; [constructor; [|constructor]|]; unfold RolesSpec.no_char; intros X; cbn in X; intuition discriminate.
  - constructor; [|constructor]. apply (RolesSpec.le_entry [97%N] [48%N] 0%Z).
    + unfold RolesSpec.no_char. intros X. cbn in X. intuition discriminate.
    + exists [], [], [48%N], []. split; [reflexivity|]. split; [constructor|]. split; [discriminate|]. split; [constructor; [unfold RolesSpec.digit; lia|constructor]|]. split; [exact I|].
      left. split; reflexivity.
    + unfold RolesSpec.is_int. lia.
Qed.
Example C76_legible_example : let w := ex_world3 in w_machine w false = ex_machine3 /\ w_open w (S_ "y.pdf") = Calls ex_doc /\
  m_bpe ex_machine3 = Some (a_line, true) /\ m_roles ex_machine3 = Some (a_line, true) /\ 1 < m_fuel ex_machine3 /\ harmless_logs w /\
  (forall x y, snd (m_network ex_machine3 x y) <= 14) /\
  exists d text, program w (Ok (path_only (S_ "y.pdf"))) = Ok (0%Z, [Eff (Stdout text)]) /\ length (gd_pages d) = 2.
Proof.
  cbv zeta. split; [reflexivity|]. split; [reflexivity|]. split; [reflexivity|]. split; [reflexivity|]. split; [cbn; lia|]. split; [apply ex_quiet3|]. split; [intros x y; cbn; lia|].
  destruct C72_characters_example as (_ & _ & (r & E & OR & N & L) & _). destruct a_line_ok as [A B].
  destruct (C76_legible ex_world3 (S_ "y.pdf") ex_doc r 3 a_line _ _ _ a_line _ _ _ ex_sane3
    (fun x y => ltac:(cbn; lia)) (fun layout words => repeat_length _ _) ex_quiet3 eq_refl eq_refl A B ltac:(cbn; lia) eq_refl A B ltac:(cbn; lia) E OR ex_piecewise L ex_reads) as (d & text & F & P & _).
  exists d, text. split; [exact P|]. apply F2_len in F. rewrite <- F. clear F P.
  assert (X : match parsed3 ex_doc with Ok r => length (Parsing.pages r) =? 2 | _ => false end = true) by (vm_compute; reflexivity). rewrite E in X. apply Nat.eqb_eq, X.
Qed.
