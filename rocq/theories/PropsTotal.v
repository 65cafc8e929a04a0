(** PropsTotal.v - the whole program gets to its end on ordinary documents (C72). *)
From Coq Require Import ZArith NArith Reals Lra.
From Flocq Require Import Core IEEE754.BinarySingleNaN.
From Verif Require Import Base Double DoubleFacts MathUtils Elements Sort XYCut GeometrySpec GridProofs Document Pipeline PipelineSpec PipelineLines PipelineProofs PipelineWords PipelineWhole
  TotalSpec TotalPos TotalLines TotalWhole PropsPipeline.
From Verif Require Fonts Parsing Words Roles RolesSpec RolesProofs Cli PropsParsing PropsRoles Bpe Float ParsingSpec.
Local Opaque TOL dadd dsub ddiv dmul dec DBL_MAX DBL_MIN.

(** ** C72 Ordinary documents are processed to the end *)

(** The modules up to the detection of the text blocks. *)
Lemma upto_blocks m wcfg c es r : sane m ->
  Parsing.parse_events (m_parseFont m) (m_mapUnicode m) (m_fromBytes m) (m_iswspace m) (m_charId m) es = Ok r -> ordinary r ->
  exists d, S4 (length (Parsing.pages r)) d /\
    forall c', (forall x, x <> Cli.MReadingOrder -> x <> Cli.MDehyphenation -> Cli.disabled c' x = Cli.disabled c x) ->
      process_pdf m wcfg c' es = (do s <- Cli.step c' (run_module m wcfg es) Cli.MReadingOrder d;
                                  do s <- Cli.step c' (run_module m wcfg es) Cli.MDehyphenation s; Ok (0%Z, fill_lines2 s)).
Proof.
  intros SA EP (CNT & OR). set (n := length (Parsing.pages r)).
  assert (E0 : exists d0, run_parsing m es gdoc_init = Ok d0) by (unfold run_parsing; rewrite EP; eexists; reflexivity). destruct E0 as [d0 E0].
  destruct (parsing_inv m (Parsing.pages r) es d0 r EP eq_refl E0) as [(PO & BL & W0 & L0) F0].
  assert (I0 : S0 n d0).
  { split; [|split; [|split; [exact BL|split; [exact W0|split; [exact L0|]]]]].
    - split; [symmetry; exact (F2_len _ _ _ PO)|]. unfold run_parsing in E0. rewrite EP in E0. cbn [obind] in E0. apply Ok_inj in E0. subst d0. cbn [gd_pages].
      intros p Hp. apply in_map_iff in Hp as (q & <- & Hq). exact (OR q Hq).
    - unfold run_parsing in E0. rewrite EP in E0. cbn [obind] in E0. apply Ok_inj in E0. subst d0. unfold few. cbn [gd_pages].
      rewrite flat_map_concat_map, map_map. cbn [new_page g_chars]. rewrite <- flat_map_concat_map. exact CNT.
    - unfold run_parsing in E0. rewrite EP in E0. cbn [obind] in E0. apply Ok_inj in E0. subst d0. reflexivity. }
  assert (X1 : exists d1, Cli.step c (run_module m wcfg es) Cli.MGlyphStats d0 = Ok d1 /\ S0 n d1 /\ fresh_chars d1).
  { unfold Cli.step. destruct (Bool.eqb (Cli.disabled c Cli.MGlyphStats) false); [|exists d0; split; [reflexivity|split; assumption]].
    destruct (glyphs_total m SA n d0 I0) as (d1 & A & B & C). exists d1. split; [exact A|]. split; [exact B|]. unfold fresh_chars in *. rewrite C. exact F0. }
  destruct X1 as (d1 & E1 & I1 & F1).
  assert (X2 : exists d2, Cli.step c (run_module m wcfg es) Cli.MDiacritics d1 = Ok d2 /\ S0 n d2).
  { unfold Cli.step. destruct (Bool.eqb (Cli.disabled c Cli.MDiacritics) false); [|exists d1; split; [reflexivity|assumption]]. exact (diacritics_total m n d1 I1 F1). }
  destruct X2 as (d2 & E2 & I2).
  assert (X3 : exists d3, Cli.step c (run_module m wcfg es) Cli.MWords d2 = Ok d3 /\ S1 n d3).
  { unfold Cli.step. destruct (Bool.eqb (Cli.disabled c Cli.MWords) false); [|exists d2; split; [reflexivity|apply S0_S1; assumption]]. exact (words_total m wcfg SA n d2 I2). }
  destruct X3 as (d3 & E3 & I3).
  assert (X4 : exists d4, Cli.step c (run_module m wcfg es) Cli.MWordStats d3 = Ok d4 /\ S1 n d4).
  { unfold Cli.step. destruct (Bool.eqb (Cli.disabled c Cli.MWordStats) false); [|exists d3; split; [reflexivity|assumption]]. exact (wordStats_total m SA n d3 I3). }
  destruct X4 as (d4 & E4 & I4).
  assert (X5 : exists d5, Cli.step c (run_module m wcfg es) Cli.MSegmentation d4 = Ok d5 /\ S2 n d5).
  { unfold Cli.step. destruct (Bool.eqb (Cli.disabled c Cli.MSegmentation) false); [|exists d4; split; [reflexivity|apply S1_S2; assumption]]. exact (segmentation_total m SA n d4 I4). }
  destruct X5 as (d5 & E5 & I5).
  assert (X6 : exists d6, (if Bool.eqb (Cli.disabled c Cli.MLines) false then do s <- run_module m wcfg es Cli.MLines d5; Ok (fill_lines1 s) else Ok d5) = Ok d6 /\ S3 n d6).
  { destruct (Bool.eqb (Cli.disabled c Cli.MLines) false); [|exists d5; split; [reflexivity|apply S2_S3; assumption]]. destruct (lines_total m SA n d5 I5) as (d6 & A & B). cbn [run_module]. rewrite A. cbn [obind].
    eexists. split; [reflexivity|]. apply lines1_total, B. }
  destruct X6 as (d6 & E6 & I6).
  assert (X7 : exists d7, Cli.step c (run_module m wcfg es) Cli.MScripts d6 = Ok d7 /\ S3 n d7).
  { unfold Cli.step. destruct (Bool.eqb (Cli.disabled c Cli.MScripts) false); [|exists d6; split; [reflexivity|assumption]]. exact (scripts_total n d6 I6). }
  destruct X7 as (d7 & E7 & I7).
  assert (X8 : exists d8, Cli.step c (run_module m wcfg es) Cli.MLineStats d7 = Ok d8 /\ S3b n d8).
  { unfold Cli.step. destruct (Bool.eqb (Cli.disabled c Cli.MLineStats) false); [|exists d7; split; [reflexivity|apply S3_S3b; assumption]]. exact (lineStats_total m SA n d7 I7). }
  destruct X8 as (d8 & E8 & I8).
  assert (X9 : exists d9, Cli.step c (run_module m wcfg es) Cli.MBlocks d8 = Ok d9 /\ S4 n d9).
  { unfold Cli.step. destruct (Bool.eqb (Cli.disabled c Cli.MBlocks) false); [|exists d8; split; [reflexivity|apply S3b_S4; assumption]]. exact (blocks_total m SA n d8 I8). }
  destruct X9 as (d9 & E9 & I9). exists d9. split; [exact I9|]. intros c' HC.
  assert (ST : forall x s, x <> Cli.MReadingOrder -> x <> Cli.MDehyphenation -> Cli.step c' (run_module m wcfg es) x s = Cli.step c (run_module m wcfg es) x s).
  { intros x s N1 N2. unfold Cli.step. rewrite (HC x N1 N2). reflexivity. }
  unfold process_pdf, Cli.process. cbn [run_module]. rewrite E0. cbn [obind]. rewrite !ST by discriminate. rewrite E1. cbn [obind]. rewrite !ST by discriminate. rewrite E2. cbn [obind].
  rewrite !ST by discriminate. rewrite E3. cbn [obind]. rewrite !ST by discriminate. rewrite E4. cbn [obind]. rewrite !ST by discriminate. rewrite E5. cbn [obind].
  rewrite HC by discriminate. cbn [run_module] in E6. rewrite E6. cbn [obind]. rewrite !ST by discriminate. rewrite E7. cbn [obind]. rewrite !ST by discriminate. rewrite E8. cbn [obind].
  rewrite !ST by discriminate. rewrite E9. cbn [obind]. reflexivity.
Qed.

(** Without the detection of the reading order (and with whatever other modules skipped), the program gets to its end on every
    ordinary document: no exception, no undefined behaviour, no endless loop; its exit code is 0. *)
Theorem C72_total : forall m wcfg c es r, sane m ->
  Parsing.parse_events (m_parseFont m) (m_mapUnicode m) (m_fromBytes m) (m_iswspace m) (m_charId m) es = Ok r -> ordinary r ->
  Cli.disabled c Cli.MReadingOrder = true -> exists d, process_pdf m wcfg c es = Ok (0%Z, d).
Proof.
  intros m wcfg c es r SA EP OR NR. destruct (upto_blocks m wcfg c es r SA EP OR) as (d & _ & H). rewrite (H c (fun _ _ _ => eq_refl)).
  unfold Cli.step. rewrite NR. cbn [Bool.eqb obind]. destruct (Bool.eqb (Cli.disabled c Cli.MDehyphenation) false); [|eexists; reflexivity].
  cbn [run_module]. unfold run_dehyphenation. cbn [obind]. eexists. reflexivity.
Qed.
Print Assumptions C72_total.

(** The options [c], but without the detection of the reading order and without dehyphenation: the document the prediction of
    the roles is given. *)
Definition before_roles (c : Cli.config) : Cli.config :=
  Cli.mkConf (fun x => match x with Cli.MReadingOrder | Cli.MDehyphenation => true | _ => Cli.disabled c x end) (Cli.logLevel c) (Cli.logPageFilter c) (Cli.skipFonts c).
(** The blocks of a document as the prediction sees them, and the fonts. *)
Definition role_pages (d : gdoc) : list Roles.rpage := map (role_page (word_heap (gd_words d))) (gd_pages d).
Definition role_fonts (d : gdoc) (name : str) : option (Z * bool) :=
  option_map (fun f => (Fonts.f_weight f, Fonts.f_italic f)) (Parsing.find_font name (gd_fonts d)).

Lemma reading_order_step m wcfg c es r roles d : sane m ->
  Parsing.parse_events (m_parseFont m) (m_mapUnicode m) (m_fromBytes m) (m_iswspace m) (m_charId m) es = Ok r -> ordinary r ->
  process_pdf m wcfg (before_roles c) es = Ok (0%Z, d) -> prediction m d = Ok roles -> exists d', process_pdf m wcfg c es = Ok (0%Z, d').
Proof.
  intros SA EP OR E P. destruct (upto_blocks m wcfg c es r SA EP OR) as (d9 & I9 & H).
  assert (AG : forall x, x <> Cli.MReadingOrder -> x <> Cli.MDehyphenation -> Cli.disabled (before_roles c) x = Cli.disabled c x) by (intros [] N1 N2; first [reflexivity|congruence]).
  rewrite (H _ AG) in E. unfold Cli.step, before_roles in E. cbn [Cli.disabled Bool.eqb obind] in E. apply Ok_inj in E. apply pair_equal_spec in E as [_ <-].
  rewrite (H c (fun _ _ _ => eq_refl)).
  assert (P9 : prediction m d9 = Ok roles).
  { rewrite <- P. unfold prediction, fill_lines2, set_pages. cbn [gd_fonts gd_words gd_pages]. rewrite map_map. reflexivity. }
  assert (X : exists s, Cli.step c (run_module m wcfg es) Cli.MReadingOrder d9 = Ok s).
  { unfold Cli.step. destruct (Bool.eqb (Cli.disabled c Cli.MReadingOrder) false); [|eexists; reflexivity]. exact (readingOrder_total m SA _ d9 roles I9 P9). }
  destruct X as [s ES]. rewrite ES. cbn [obind]. unfold Cli.step. destruct (Bool.eqb (Cli.disabled c Cli.MDehyphenation) false); [|eexists; reflexivity].
  cbn [run_module]. unfold run_dehyphenation. cbn [obind]. eexists. reflexivity.
Qed.

(** With the detection of the reading order: the document the prediction of the roles is given exists; and if the model can be
    read, the blocks of that document are usual ones (with text that can be decoded, in a known font) and the network returns
    as many rows as it is given, then the program gets to its end. *)
Theorem C72_roles : forall m wcfg c es r, sane m ->
  Parsing.parse_events (m_parseFont m) (m_mapUnicode m) (m_fromBytes m) (m_iswspace m) (m_charId m) es = Ok r -> ordinary r ->
  exists d, process_pdf m wcfg (before_roles c) es = Ok (0%Z, d) /\
    forall p, Roles.readModel (m_fuel m) (m_bpe m) (m_roles m) Roles.new_predictor = Some (Ok tt, p) ->
      (Z.of_nat (length (gd_pages d)) < 2 ^ 24)%Z ->
      (forall q b, In (q, b) (RolesSpec.blocks_of (role_pages d)) ->
         RolesSpec.usual_block (m_fromBytes m) (role_fonts d) (Z.of_nat (length (gd_pages d))) q b /\ (exists k, RolesSpec.size_tenths (Roles.rb_fontSize b) k) /\
         exists t, m_fromBytes m (Roles.rb_text b) = Some t /\ (N.of_nat (length t) < 2 ^ 32 - 1)%N) ->
      (forall layout words, length (fst (m_network m layout words)) = Z.to_nat (fst (snd layout)) * snd (m_network m layout words)) ->
      exists d', process_pdf m wcfg c es = Ok (0%Z, d').
Proof.
  intros m wcfg c es r SA EP OR. destruct (C72_total m wcfg (before_roles c) es r SA EP OR eq_refl) as (d & E). exists d. split; [exact E|].
  intros p HM LP HB HN.
  destruct (PropsRoles.C62_layout (m_fromBytes m) (role_fonts d) (role_pages d)) as (lv & EL & _).
  { unfold role_pages. rewrite map_length. exact LP. }
  { intros q b I. destruct (HB q b I) as (A & B & _). unfold role_pages. rewrite map_length. split; assumption. }
  destruct (PropsRoles.C62_words (m_fromBytes m) (Roles.p_bpeVocab p) (role_pages d)) as (wv & EW & _).
  { intros q b I. apply (HB q b I). }
  destruct (PropsRoles.C37_predict (m_fromBytes m) (role_fonts d) (m_network m) (m_fuel m) (m_bpe m) (m_roles m) Roles.new_predictor p (role_pages d) _ _ (or_intror (conj eq_refl HM)) EL EW) as (rs & EPr & _).
  { rewrite HN. cbn [fst snd]. rewrite Nat2Z.id. reflexivity. }
  apply (reading_order_step m wcfg c es r rs d SA EP OR E). unfold prediction. fold (role_pages d). change (fun n => option_map _ (Parsing.find_font n (gd_fonts d))) with (role_fonts d). rewrite EPr. reflexivity.
Qed.
Print Assumptions C72_roles.

(** ** Examples *)
Definition on_page_b (p : position) : bool := parsed_b p && dlt dzero (rightX p) && dlt dzero (lowerY p).
Lemma on_page_check p : on_page_b p = true -> on_page p.
Proof. unfold on_page_b. rewrite !andb_true_iff. intros [[A B] C]. split; [apply parsed_check, A|split; assumption]. Qed.
Definition stored_b (d : double) : bool := rounded1_b d || deq d dinf.
Lemma stored_check d : stored_b d = true -> stored1 d.
Proof.
  unfold stored_b. rewrite orb_true_iff. intros [H|H]; [left; apply rounded1_check, H|right].
  destruct d as [[]|[]| |[]]; cbn in H; try discriminate H; reflexivity.
Qed.
Definition stored_pos_b (p : position) : bool := stored_b (leftX p) && stored_b (upperY p) && stored_b (rightX p) && stored_b (lowerY p).
Lemma stored_pos_check p : stored_pos_b p = true -> stored_coordinates p.
Proof. unfold stored_pos_b. rewrite !andb_true_iff. intros [[[A B] C] D]. repeat split; apply stored_check; assumption. Qed.
Definition ordinary_b (r : Parsing.parser) : bool :=
  let ps := Parsing.pages r in let n := Z.of_nat (length ps) in
  (Z.of_nat (length (flat_map Parsing.pp_chars ps)) <? 2 ^ 31)%Z &&
  forallb (fun q =>
    forallb (fun c => on_page_b (c_pos c) && dle (dec 1 1) (c_fontSize c) && (1 <=? pageNum (c_pos c))%Z && (pageNum (c_pos c) <=? n)%Z) (Parsing.pp_chars q) &&
    forallb (fun f => stored_pos_b (Parsing.fg_pos f)) (Parsing.pp_figures q) &&
    forallb (fun e => stored_pos_b (e_pos e)) (Parsing.pp_shapes q ++ Parsing.pp_graphics q)) ps.
Lemma ordinary_check r : ordinary_b r = true -> ordinary r.
Proof.
  unfold ordinary_b. cbv zeta. rewrite andb_true_iff. intros [A B]. apply Z.ltb_lt in A. split; [exact A|]. rewrite forallb_forall in B. intros q Hq. specialize (B q Hq).
  rewrite !andb_true_iff, !forallb_forall in B. destruct B as [[B1 B2] B3]. split; [|split].
  - intros c Hc. specialize (B1 c Hc). rewrite !andb_true_iff, !Z.leb_le in B1. destruct B1 as [[[X1 X2] X3] X4]. split; [apply on_page_check, X1|split; [exact X2|split; assumption]].
  - intros f Hf. apply stored_pos_check, B2, Hf.
  - intros e He. apply stored_pos_check, B3, He.
Qed.
(** The demo document of C52 is ordinary, also with an invisible shape on its first page. *)
Definition parsed (es : list Parsing.event) := Parsing.parse_events (m_parseFont ex_machine) (m_mapUnicode ex_machine) (m_fromBytes ex_machine) (m_iswspace ex_machine) (m_charId ex_machine) es.
Definition ex_invisible : Parsing.event := Parsing.Stroke (PropsParsing.ex_state PropsParsing.ex_inner 0 0 [[(dZ 50, dZ 150); (dZ 250, dZ 150)]]).
Example C72_example : (exists r, parsed (ex_doc ++ [ex_invisible]) = Ok r /\ ordinary r /\ length (Parsing.pages r) = 2) /\
  exists d, process_pdf ex_machine Words.default_words_config (before_roles ex_all) (ex_doc ++ [ex_invisible]) = Ok (0%Z, d).
Proof.
  assert (H : match parsed (ex_doc ++ [ex_invisible]) with Ok r => ordinary_b r && Nat.eqb (length (Parsing.pages r)) 2 | _ => false end = true) by (vm_compute; reflexivity).
  destruct (parsed _) as [r| |] eqn:E; try discriminate. apply andb_prop in H as [H N]. apply ordinary_check in H. apply Nat.eqb_eq in N. split; [exists r; split; [reflexivity|split; assumption]|].
  exact (C72_total ex_machine _ (before_roles ex_all) _ r ex_sane E H eq_refl).
Qed.

(** A check of the condition on the blocks. *)
Definition scaled (d : double) : Z :=
  match d with B754_finite s m e _ => (SpecFloat.cond_Zopp s (Zpos m) * 2 ^ (e + 1074))%Z | _ => 0%Z end.
Lemma scaled_R d : is_fin d = true -> (B2R d * bpow radix2 1074 = IZR (scaled d))%R.
Proof.
  destruct d as [s|s| |s m e H]; intros F; try discriminate F; cbn [scaled B2R]; [apply Rmult_0_l|]. clear F.
  assert (E : (-1074 <= e)%Z).
  { unfold SpecFloat.bounded in H. apply andb_prop in H as [H _]. unfold SpecFloat.canonical_mantissa in H. apply Zeq_bool_eq in H. unfold SpecFloat.fexp, SpecFloat.emin in H. lia. }
  clear H. unfold Defs.F2R. cbn [Defs.Fnum Defs.Fexp]. rewrite mult_IZR, Rmult_assoc, <- bpow_plus. f_equal.
  change 2%Z with (radix_val radix2). rewrite IZR_Zpower by lia. reflexivity.
Qed.
Definition near_b (x lo hi : double) : bool := (Z.abs (scaled x) <=? 4 * (scaled hi - scaled lo))%Z.
Definition extent_b (lo hi : double) : bool := ((2 ^ 1074 <=? scaled hi - scaled lo) && (scaled hi - scaled lo <=? 2 ^ 1094))%Z.
Definition fin4_b (a b c d : double) : bool := is_fin a && is_fin b && is_fin c && is_fin d.
Lemma fin4_check a b c d : fin4_b a b c d = true -> RolesSpec.finite4 a b c d.
Proof. unfold fin4_b. rewrite !andb_true_iff. intros [[[A B] C] D]. repeat split; assumption. Qed.
Lemma scale_pos : (0 < bpow radix2 1074)%R. Proof. apply bpow_gt_0. Qed.
Lemma near_check x lo hi : is_fin x = true -> is_fin lo = true -> is_fin hi = true -> near_b x lo hi = true -> RolesSpec.near_page (B2R x) (B2R hi - B2R lo).
Proof.
  intros F1 F2 F3 H. apply Z.leb_le in H. apply IZR_le in H. rewrite abs_IZR, mult_IZR, minus_IZR, <- !scaled_R in H by assumption.
  pose proof scale_pos as P. unfold RolesSpec.near_page. rewrite Rabs_mult, (Rabs_pos_eq (bpow radix2 1074)) in H by lra.
  apply (Rmult_le_reg_r (bpow radix2 1074)); [exact P|]. lra.
Qed.
Lemma extent_check lo hi : is_fin lo = true -> is_fin hi = true -> extent_b lo hi = true -> (1 <= B2R hi - B2R lo <= bpow radix2 20)%R.
Proof.
  intros F2 F3 H. apply andb_prop in H as [A B]. apply Z.leb_le in A, B. apply IZR_le in A, B. rewrite minus_IZR, <- !scaled_R in A, B by assumption.
  change 2%Z with (radix_val radix2) in A, B. rewrite IZR_Zpower in A, B by lia. replace 1094%Z with (20 + 1074)%Z in B by lia. rewrite bpow_plus in B.
  pose proof scale_pos as P. split; apply (Rmult_le_reg_r (bpow radix2 1074)); try exact P; lra.
Qed.
Definition block_b (from : str -> option Bpe.wstr) (fonts : str -> option (Z * bool)) (n : Z) (p : Roles.rpage) (b : Roles.rblock) : bool :=
  let q := Roles.rb_pos b in
  fin4_b (Roles.rp_leftX p) (Roles.rp_upperY p) (Roles.rp_rightX p) (Roles.rp_lowerY p) && extent_b (Roles.rp_leftX p) (Roles.rp_rightX p) && extent_b (Roles.rp_upperY p) (Roles.rp_lowerY p) &&
  fin4_b (leftX q) (upperY q) (rightX q) (lowerY q) && near_b (leftX q) (Roles.rp_leftX p) (Roles.rp_rightX p) && near_b (rightX q) (Roles.rp_leftX p) (Roles.rp_rightX p) &&
  near_b (upperY q) (Roles.rp_upperY p) (Roles.rp_lowerY p) && near_b (lowerY q) (Roles.rp_upperY p) (Roles.rp_lowerY p) &&
  ((1 <=? pageNum q) && (pageNum q <=? n))%Z && match fonts (Roles.rb_fontName b) with Some _ => true | None => false end &&
  match from (Roles.rb_text b) with Some t => (N.of_nat (length t) <? 2 ^ 24)%N | None => false end &&
  (N.of_nat (length (Roles.rb_words b)) <? 2 ^ 24)%N &&
  forallb (fun s => match from s with Some (c :: _) => (c <? 256)%N | Some [] => true | None => false end) (Roles.rb_words b) &&
  is_fin (Roles.rb_fontSize b) && existsb (fun z => deq (Roles.rb_fontSize b) (dZ z)) [8; 10; 20]%Z.
Lemma block_check from fonts n p b : block_b from fonts n p b = true ->
  RolesSpec.usual_block from fonts n p b /\ (exists k, RolesSpec.size_tenths (Roles.rb_fontSize b) k) /\ exists t, from (Roles.rb_text b) = Some t /\ (N.of_nat (length t) < 2 ^ 32 - 1)%N.
Proof.
  unfold block_b. cbv zeta. rewrite !andb_true_iff. intros [[[[[[[[[[[[[[A1 A2] A3] A4] A5] A6] A7] A8] A9] A10] A11] A12] A13] A14] A15].
  apply fin4_check in A1, A4. pose proof A1 as (F1 & F2 & F3 & F4). pose proof A4 as (G1 & G2 & G3 & G4). destruct A9 as [A9 A9']. apply Z.leb_le in A9, A9'.
  destruct (from (Roles.rb_text b)) as [t|] eqn:ET; [|discriminate A11]. apply N.ltb_lt in A11, A12. destruct (fonts (Roles.rb_fontName b)) as [fi|] eqn:EF; [|discriminate A10].
  rewrite forallb_forall in A13. split; [|split].
  - unfold RolesSpec.usual_block. cbv zeta. split; [exact A1|]. split; [apply extent_check; assumption|]. split; [apply extent_check; assumption|]. split; [exact A4|].
    repeat (split; [apply near_check; assumption|]). split; [lia|]. split; [exists fi; exact EF|]. split; [exists t; split; assumption|]. split; [exact A12|].
    intros s Hs. specialize (A13 s Hs). destruct (from s) as [u|]; [|discriminate A13]. exists u. split; [reflexivity|]. destruct u as [|c u]; [exact I|]. apply N.ltb_lt, A13.
  - apply existsb_exists in A15 as (z & Hz & D). assert (Z1 : (1 <= z <= 256)%Z) by (destruct Hz as [<-|[<-|[<-|[]]]]; lia). exists (10 * z)%Z.
    destruct (PropsRoles.demo_size z Z1) as (K & FZ & V). split; [exact K|]. split; [exact A14|]. rewrite <- V.
    apply deq_E in D; [|apply fin_nn, A14|apply fin_nn, FZ]. rewrite !E_fin in D by assumption. exact D.
  - exists t. split; [reflexivity|]. assert (2 ^ 24 < 2 ^ 32 - 1)%N by (vm_compute; reflexivity). lia.
Qed.
(** The demo document, and a network that returns two numbers per block. *)
Definition ex_machine2 : machine :=
  mkMachine PropsParsing.ex_parse PropsParsing.ex_map PropsParsing.ex_bytes PropsParsing.ex_space (fun _ => []) (fun _ => false) (fun x => x)
    (fun _ => []) (fun _ _ => []) (fun _ _ => []) (fun _ _ => []) (fun l => l) (fun l => l) (fun l => l) (fun l => l) (fun l => l)
    isort XYCutProofs.top_first isort isort isort XYCutProofs.top_first ex_bpe ex_bpe 9 (fun layout _ => (repeat Float.fzero (Z.to_nat (fst (snd layout)) * 2), 2)) (fun _ _ => 0).
Example C72_roles_example : exists r, parsed ex_doc = Ok r /\ ordinary r /\
  exists p, Roles.readModel (m_fuel ex_machine2) (m_bpe ex_machine2) (m_roles ex_machine2) Roles.new_predictor = Some (Ok tt, p) /\
  exists d, process_pdf ex_machine2 Words.default_words_config (before_roles ex_all) ex_doc = Ok (0%Z, d) /\ length (RolesSpec.blocks_of (role_pages d)) = 2 /\
    (forall q b, In (q, b) (RolesSpec.blocks_of (role_pages d)) ->
         RolesSpec.usual_block (m_fromBytes ex_machine2) (role_fonts d) (Z.of_nat (length (gd_pages d))) q b /\ (exists k, RolesSpec.size_tenths (Roles.rb_fontSize b) k) /\
         exists t, m_fromBytes ex_machine2 (Roles.rb_text b) = Some t /\ (N.of_nat (length t) < 2 ^ 32 - 1)%N) /\
    (forall layout words, length (fst (m_network ex_machine2 layout words)) = Z.to_nat (fst (snd layout)) * snd (m_network ex_machine2 layout words)).
Proof.
  assert (H : match parsed ex_doc with Ok r => ordinary_b r | _ => false end = true) by (vm_compute; reflexivity).
  destruct (parsed ex_doc) as [r| |] eqn:E; try discriminate. exists r. split; [reflexivity|]. split; [apply ordinary_check, H|].
  assert (R : match Roles.readModel (m_fuel ex_machine2) (m_bpe ex_machine2) (m_roles ex_machine2) Roles.new_predictor with Some (Ok tt, _) => true | _ => false end = true) by (vm_compute; reflexivity).
  destruct (Roles.readModel _ _ _ _) as [[[[]| |] p]|]; try discriminate. exists p. split; [reflexivity|].
  assert (B : match process_pdf ex_machine2 Words.default_words_config (before_roles ex_all) ex_doc with
    | Ok (z, d) => (z =? 0)%Z && Nat.eqb (length (RolesSpec.blocks_of (role_pages d))) 2 &&
                   forallb (fun x => block_b (m_fromBytes ex_machine2) (role_fonts d) (Z.of_nat (length (gd_pages d))) (fst x) (snd x)) (RolesSpec.blocks_of (role_pages d))
    | _ => false end = true) by (vm_compute; reflexivity).
  destruct (process_pdf _ _ _ _) as [[z d]| |]; try discriminate. apply andb_prop in B as [B C]. apply andb_prop in B as [B1 B2]. apply Z.eqb_eq in B1. apply Nat.eqb_eq in B2. subst z.
  exists d. split; [reflexivity|]. split; [exact B2|]. split.
  - intros q b I. rewrite forallb_forall in C. specialize (C (q, b) I). cbn [fst snd] in C. apply block_check, C.
  - intros layout words. unfold ex_machine2. cbn [m_network fst snd]. apply repeat_length.
Qed.

(** A single character drawn with font size 0 suffices to end the program with an exception. *)
Theorem C72_no_size_refuted : (exists r, parsed (ex_start 1 ++ [ex_draw 50 700 0 72]) = Ok r) /\
  exists why, process_pdf ex_machine2 Words.default_words_config (before_roles ex_all) (ex_start 1 ++ [ex_draw 50 700 0 72]) = Throw why.
Proof.
  split.
  - assert (H : match parsed (ex_start 1 ++ [ex_draw 50 700 0 72]) with Ok r => true | _ => false end = true) by (vm_compute; reflexivity).
    destruct (parsed _) as [r| |]; try discriminate. exists r. reflexivity.
  - assert (H : match process_pdf ex_machine2 Words.default_words_config (before_roles ex_all) (ex_start 1 ++ [ex_draw 50 700 0 72]) with Throw _ => true | _ => false end = true) by (vm_compute; reflexivity).
    destruct (process_pdf _ _ _ _) as [x| |w]; try discriminate. exists w. reflexivity.
Qed.
Print Assumptions C72_no_size_refuted.
