(** PropsPipeline.v - the whole program (C52). *)
From Coq Require Import ZArith NArith.
From Verif Require Import Base Double Elements Sort XYCut XYCutProofs Document Pipeline PipelineSpec PipelineLines PipelineProofs PipelineWords PipelineWhole.
From Verif Require Fonts Parsing Words Lines LinesSpec LinesDefined Roles Cli PropsParsing PropsWords WordsSpec DiacriticsSpec.

(** ** C52 The text of a page reaches the blocks *)

(** The modules one after the other. *)
Lemma run_if {S0} (b : bool) (o : outcome S0) s s' : (if Bool.eqb b false then o else Ok s) = Ok s' -> (b = false /\ o = Ok s') \/ (b = true /\ s' = s).
Proof. destruct b; cbn [Bool.eqb]; intros H; [right; apply Ok_inj in H; subst; split; reflexivity|left; split; [reflexivity|exact H]]. Qed.
Lemma run_chain m wcfg c es code d : sane m -> text_enabled c -> process_pdf m wcfg c es = Ok (code, d) ->
  exists r, Parsing.parse_events (m_parseFont m) (m_mapUnicode m) (m_fromBytes m) (m_iswspace m) (m_charId m) es = Ok r /\
    inv3 wcfg (Parsing.pages r) d /\ code = 0%Z /\ (forall p, In p (gd_pages d) -> g_textLines p = flat_map b_lines (g_blocks p)).
Proof.
  intros SA (TW & TS & TL & TB) H. unfold process_pdf, Cli.process in H. cbn [run_module] in H.
  destruct (run_parsing m es gdoc_init) as [d0| |] eqn:E0; try discriminate. cbn [obind] in H.
  assert (EP : exists r, Parsing.parse_events (m_parseFont m) (m_mapUnicode m) (m_fromBytes m) (m_iswspace m) (m_charId m) es = Ok r).
  { unfold run_parsing in E0. destruct (Parsing.parse_events _ _ _ _ _ es) as [r| |]; try discriminate. exists r. reflexivity. }
  destruct EP as [r EP]. exists r. split; [exact EP|].
  destruct (parsing_inv m (Parsing.pages r) es d0 r EP eq_refl E0) as [I0 F0].
  unfold Cli.step in H. rewrite TW, TS, TL, TB in H. cbn [Bool.eqb run_module] in H.
  destruct (if Bool.eqb (Cli.disabled c Cli.MGlyphStats) false then _ else _) as [d1| |] eqn:E1; try discriminate. cbn [obind] in H.
  assert (I1 : inv0 (Parsing.pages r) d1 /\ fresh_chars d1).
  { apply run_if in E1 as [[_ E1]|[_ ->]]; [|split; assumption]. apply glyphStats_inv in E1 as (P & W & L). unfold inv0, fresh_chars in *. rewrite P, W, L. split; assumption. }
  destruct I1 as [I1 F1]. clear E0 E1 I0 F0.
  destruct (if Bool.eqb (Cli.disabled c Cli.MDiacritics) false then _ else _) as [d2| |] eqn:E2; try discriminate. cbn [obind] in H.
  assert (I2 : inv0 (Parsing.pages r) d2).
  { apply run_if in E2 as [[_ E2]|[_ ->]]; [|assumption]. exact (diacritics_inv m _ _ _ I1 F1 E2). }
  clear E2 I1 F1. destruct (run_words m wcfg d2) as [d3| |] eqn:E3; try discriminate. cbn [obind] in H.
  destruct (words_inv m wcfg SA _ _ _ I2 E3) as (I3 & N3 & _). clear E3 I2.
  destruct (if Bool.eqb (Cli.disabled c Cli.MWordStats) false then _ else _) as [d4| |] eqn:E4; try discriminate. cbn [obind] in H.
  assert (I4 : inv1 wcfg (Parsing.pages r) d4 /\ Forall no_text (gd_pages d4)).
  { apply run_if in E4 as [[_ E4]|[_ ->]]; [|split; assumption]. apply wordStats_inv in E4 as (P & W & L). unfold inv1 in *. rewrite P, W. split; assumption. }
  destruct I4 as [I4 N4]. clear E4 I3 N3.
  destruct (run_segmentation m d4) as [d5| |] eqn:E5; try discriminate. cbn [obind] in H.
  destruct (segmentation_inv m wcfg SA _ _ _ I4 N4 E5) as (I5 & G5 & _). clear E5 I4 N4.
  destruct (run_lines m d5) as [d6| |] eqn:E6; try discriminate. cbn [obind] in H.
  pose proof (lines1_inv wcfg _ _ (lines_inv m wcfg SA _ _ _ I5 G5 E6)) as I6. set (d6' := fill_lines1 d6) in *. clearbody d6'. clear E6 I5 G5.
  destruct (if Bool.eqb (Cli.disabled c Cli.MScripts) false then _ else _) as [d7| |] eqn:E7; try discriminate. cbn [obind] in H.
  assert (I7 : inv2 wcfg (Parsing.pages r) d7).
  { apply run_if in E7 as [[_ E7]|[_ ->]]; [|assumption]. exact (scripts_inv wcfg _ _ _ I6 E7). }
  clear E7 I6. destruct (if Bool.eqb (Cli.disabled c Cli.MLineStats) false then _ else _) as [d8| |] eqn:E8; try discriminate. cbn [obind] in H.
  assert (I8 : inv2 wcfg (Parsing.pages r) d8).
  { apply run_if in E8 as [[_ E8]|[_ ->]]; [|assumption]. apply lineStats_inv in E8 as (P & W & L). unfold inv2, inv1, numbered, segment_line_ids in *. rewrite P, W, L. exact I7. }
  clear E8 I7. destruct (run_blocks m d8) as [d9| |] eqn:E9; try discriminate. cbn [obind] in H.
  pose proof (blocks_inv m wcfg SA _ _ _ I8 E9) as I9. clear E9 I8.
  destruct (if Bool.eqb (Cli.disabled c Cli.MReadingOrder) false then _ else _) as [da| |] eqn:Ea; try discriminate. cbn [obind] in H.
  assert (Ia : inv3 wcfg (Parsing.pages r) da).
  { apply run_if in Ea as [[_ Ea]|[_ ->]]; [|assumption]. exact (readingOrder_inv m wcfg SA _ _ _ I9 Ea). }
  clear Ea I9. destruct (if Bool.eqb (Cli.disabled c Cli.MDehyphenation) false then _ else _) as [db| |] eqn:Eb; try discriminate. cbn [obind] in H.
  assert (Ib : inv3 wcfg (Parsing.pages r) db).
  { apply run_if in Eb as [[_ Eb]|[_ ->]]; [|assumption]. exact (dehyphenation_inv m wcfg _ _ _ Ia Eb). }
  apply Ok_inj in H. apply pair_equal_spec in H as [<- <-]. split; [exact (lines2_inv wcfg _ _ Ib)|]. split; [reflexivity|].
  intros p Hp. unfold fill_lines2 in Hp. cbn [set_pages gd_pages] in Hp. apply in_map_iff in Hp as (p0 & <- & _). reflexivity.
Qed.

(** If the text modules run, and the program gets to its end, the result has the parsed pages, with their characters; and on a
    page on which the stacked math symbols don't overlap, the characters of the blocks are exactly the characters of the page
    that were not merged into another one, each of them once - whatever Poppler delivers, whatever the coordinates, the other
    options and the iteration orders of hash maps are. The lines of the page are those of its blocks, in their order. *)
Theorem C52_text : forall m wcfg c es code d, sane m -> text_enabled c -> process_pdf m wcfg c es = Ok (code, d) ->
  exists r, Parsing.parse_events (m_parseFont m) (m_mapUnicode m) (m_fromBytes m) (m_iswspace m) (m_charId m) es = Ok r /\
    Forall2 page_of (Parsing.pages r) (gd_pages d) /\
    forall p, In p (gd_pages d) ->
      g_textLines p = flat_map b_lines (g_blocks p) /\
      (stacks_apart wcfg (page_words d p) -> Permutation (map plain (extracted d p)) (map plain (visible_chars p))).
Proof.
  intros m wcfg c es code d SA TE H. destruct (run_chain m wcfg c es code d SA TE H) as (r & EP & ((PO & GO) & IB) & _ & TL).
  exists r. split; [exact EP|]. split; [exact PO|]. intros p Hp. split; [exact (TL p Hp)|]. intros ST.
  rewrite Forall_forall in GO, IB. destruct (GO p Hp) as [G1 G2]. specialize (IB p Hp).
  assert (S0 : LinesSpec.separate_symbols (word_heap (gd_words d)) (g_words p)) by (apply G2; exact ST).
  apply LinesDefined.separate_perm in S0. rewrite <- G1, !map_flat_map. unfold in_blocks in IB. rewrite <- S0 in IB.
  unfold extracted. rewrite map_flat_map.
  transitivity (flat_map (fun i => map plain (w_chars (the_word d i))) (flat_map (fun b => concat (b_lines b)) (g_blocks p))).
  - clear. induction (g_blocks p) as [|b bs IH]; cbn [flat_map]; [constructor|]. rewrite flat_map_app. apply Permutation_app; [|exact IH].
    rewrite map_flat_map. clear. induction (b_lines b) as [|l ls IH]; cbn [flat_map concat]; [constructor|]. rewrite flat_map_app. apply Permutation_app; [|exact IH].
    rewrite map_flat_map. reflexivity.
  - apply Permutation_flat_map. symmetry. exact IB.
Qed.
Print Assumptions C52_text.

(** On every page, overlapping symbols or not: the words of the blocks are those that are no part of a symbol, each with its
    parts (each once per mention); and the words of the page together have the characters of the page that were not merged. *)
Theorem C52_words : forall m wcfg c es code d, sane m -> text_enabled c -> process_pdf m wcfg c es = Ok (code, d) ->
  forall p, In p (gd_pages d) ->
    Permutation (concat (concat (map b_lines (g_blocks p))))
      (flat_map (fun i => match w_partOf (the_word d i) with Some _ => [] | None => i :: w_parts (the_word d i) end) (g_words p)) /\
    map plain (flat_map (fun i => w_chars (the_word d i)) (g_words p)) = map plain (visible_chars p).
Proof.
  intros m wcfg c es code d SA TE H p Hp. destruct (run_chain m wcfg c es code d SA TE H) as (r & EP & ((PO & GO) & IB) & _ & TL).
  rewrite Forall_forall in GO, IB. destruct (GO p Hp) as [G1 G2]. specialize (IB p Hp). split; [|exact G1].
  unfold in_blocks in IB. change (flat_map (fun i => match w_partOf (the_word d i) with Some _ => [] | None => i :: w_parts (the_word d i) end) (g_words p))
    with (flat_map (LinesSpec.with_parts (word_heap (gd_words d))) (g_words p)). rewrite IB. clear.
  induction (g_blocks p) as [|b bs IH]; cbn [map concat flat_map]; [constructor|]. rewrite concat_app, IH. reflexivity.
Qed.
Print Assumptions C52_words.

(** In a document without stacked math symbols, the condition holds on all pages. *)
Lemma no_symbols_apart wcfg ws : (forall w, In w ws -> ~ WordsSpec.is_symbol wcfg w) -> stacks_apart wcfg ws.
Proof.
  intros H. assert (N : forall i j, ~ WordsSpec.belongs wcfg ws i j).
  { intros i j (b & Hb & Sy & _). exact (H b (nth_error_In _ _ Hb) Sy). }
  split; [intros i i' j A; destruct (N i j A)|intros i j k A; destruct (N i j A)].
Qed.
Theorem C52_without_symbols : forall m wcfg c es code d, sane m -> text_enabled c -> process_pdf m wcfg c es = Ok (code, d) ->
  (forall p w, In p (gd_pages d) -> In w (page_words d p) -> ~ WordsSpec.is_symbol wcfg w) ->
  forall p, In p (gd_pages d) -> Permutation (map plain (extracted d p)) (map plain (visible_chars p)).
Proof.
  intros m wcfg c es code d SA TE H NS p Hp. destruct (C52_text m wcfg c es code d SA TE H) as (r & _ & _ & K).
  apply (K p Hp), no_symbols_apart. intros w. apply NS, Hp.
Qed.
Print Assumptions C52_without_symbols.

(** ** Examples *)
Definition ex_names (c : Z) : option str := if (c =? 1)%Z then Some (S_ "summationdisplay") else None.
Definition ex_st (x y fs : Z) : Parsing.gstate :=
  Parsing.mkGState PropsParsing.ex_page PropsParsing.flip
    (Some (Parsing.mkPFont (Fonts.mkGfx (Some (S_ "F")) [] 0 false 0 [] None) (Parsing.Font8Bit ex_names (fun _ => dec 5 1)) 0))
    (dZ fs, dzero, dzero, dopp (dZ fs)) (dZ fs) done dzero PropsParsing.ident (dZ x) (dZ y) (dZ fs) done (dzero, dzero, dzero) [].
Definition ex_draw (x y fs code : Z) : Parsing.event := Parsing.DrawChar (ex_st x y fs) code 1 (Some [Z.to_N code]) 1.
Definition ex_start (n : Z) : list Parsing.event := [Parsing.StartPage n (ex_st 0 0 10); Parsing.UpdateFont (ex_st 0 0 10)].
Definition ex_bpe : Roles.file := Some (map N_of_ascii (S_ "a") ++ 9%N :: map N_of_ascii (S_ "0") ++ [10%N], true).
Definition ex_machine : machine :=
  mkMachine PropsParsing.ex_parse PropsParsing.ex_map PropsParsing.ex_bytes PropsParsing.ex_space (fun _ => []) (fun _ => false) (fun x => x)
    (fun _ => []) (fun _ _ => []) (fun _ _ => []) (fun _ _ => []) (fun l => l) (fun l => l) (fun l => l) (fun l => l) (fun l => l)
    isort top_first isort isort isort top_first ex_bpe ex_bpe 9 (fun _ _ => (repeat Float.fzero 20, 2)) (fun _ _ => 0).
Lemma ex_sane : sane ex_machine.
Proof.
  unfold sane, ex_machine. cbn [m_sortP m_topP m_sortW m_sortL m_sortR m_topR m_ordS m_ordD m_ordF m_ordR m_ordY].
  repeat (split; [first [exact isort_ok|exact top_first_ok|intros x; reflexivity]|]). intros x. reflexivity.
Qed.
Definition ex_all : Cli.config := Cli.mkConf (fun _ => false) (fun _ => 0) 0 false.
Definition texts (o : outcome (Z * gdoc)) : option (list (list str * list str)) :=
  match o with Ok (_, d) => Some (map (fun p => (map c_text (extracted d p), map c_text (visible_chars p))) (gd_pages d)) | _ => None end.
Definition ex_doc : list Parsing.event :=
  ex_start 1 ++ [ex_draw 50 700 10 72; ex_draw 55 700 10 105; ex_draw 50 650 20 1; ex_draw 50 640 8 110; ex_draw 80 650 10 97] ++ ex_start 2 ++ [ex_draw 50 700 10 90].
Definition ex_run (es : list Parsing.event) := process_pdf ex_machine Words.default_words_config ex_all es.
Definition sigma : str := map ascii_of_nat [226; 136; 145].
(** Two pages, with a line, a stacked symbol with a word below it, and more. *)
Example C52_example : text_enabled ex_all /\
  texts (ex_run ex_doc) = Some [([sigma; S_ "H"; S_ "i"; S_ "n"; S_ "a"], [S_ "H"; S_ "i"; sigma; S_ "n"; S_ "a"]); ([S_ "Z"], [S_ "Z"])].
Proof. split; [repeat split|vm_compute; reflexivity]. Qed.
(** A check of the condition. *)
Definition clear (w : word) : word :=
  mkWord (w_id w) (w_rank w) (w_pos w) (w_text w) (w_fontName w) (w_fontSize w) (w_chars w) None [] (w_first w) (w_second w).
Definition apart_b (cfg : Words.words_config) (ws : list word) : bool :=
  let parts := map w_parts (Words.mergeStackedMathSymbols cfg (map clear ws)) in
  forallb (fun i => forallb (fun i' => forallb (fun j =>
    (negb (existsb (Nat.eqb j) (nth i parts [])) || negb (existsb (Nat.eqb j) (nth i' parts [])) || Nat.eqb i i') &&
    (negb (existsb (Nat.eqb i') (nth i parts [])) || negb (existsb (Nat.eqb j) (nth i' parts []))))
    (seq 0 (length ws))) (seq 0 (length ws))) (seq 0 (length ws)).
Lemma apart_check cfg ws : apart_b cfg ws = true -> stacks_apart cfg ws.
Proof.
  intros H. unfold apart_b in H. set (parts := map w_parts _) in H. rewrite forallb_forall in H.
  assert (E0 : forall w, In w (map clear ws) -> w_parts w = [] /\ w_partOf w = None) by (intros w Hw; apply in_map_iff in Hw as (w0 & <- & _); split; reflexivity).
  destruct (PropsWords.C24_relation cfg (map clear ws) E0) as [L R].
  assert (B : forall i j, WordsSpec.belongs cfg ws i j -> In j (nth i parts []) /\ In i (seq 0 (length ws)) /\ In j (seq 0 (length ws))).
  { intros i j BE. assert (Li : i < length ws /\ j < length ws) by (destruct BE as (b & Eb & _ & _ & Lj & _); split; [apply nth_error_Some; congruence|exact Lj]).
    split; [|split; apply in_seq; lia]. destruct (nth_error ws i) as [w|] eqn:E; [|apply nth_error_None in E; lia].
    destruct (R i (clear w) (map_nth_error clear i ws E)) as (w' & E' & _ & P & _).
    unfold parts. rewrite (nth_error_nth _ i [] (map_nth_error w_parts i _ E')). apply P. revert BE. apply belongs_shape; [symmetry; apply map_length|].
    intros k x Hx. rewrite nth_error_map in Hx. destruct (nth_error ws k) as [x0|] eqn:Ex; [|discriminate]. cbn [option_map] in Hx. injection Hx as <-. exists x0. split; [reflexivity|repeat split]. }
  assert (X : forall l j, In j l -> existsb (Nat.eqb j) l = true) by (intros l j I; apply existsb_exists; exists j; split; [exact I|apply Nat.eqb_refl]).
  split.
  - intros i i' j H1 H2. destruct (B _ _ H1) as (P1 & S1 & S2). destruct (B _ _ H2) as (P2 & S3 & _). specialize (H i S1). rewrite forallb_forall in H.
    specialize (H i' S3). rewrite forallb_forall in H. specialize (H j S2). rewrite (X _ _ P1), (X _ _ P2) in H. cbn [negb orb andb] in H.
    apply andb_prop in H as [H _]. apply Nat.eqb_eq, H.
  - intros i i' j H1 H2. destruct (B _ _ H1) as (P1 & S1 & S2). destruct (B _ _ H2) as (P2 & S3 & S4). specialize (H i S1). rewrite forallb_forall in H.
    specialize (H i' S2). rewrite forallb_forall in H. specialize (H j S4). rewrite (X _ _ P1), (X _ _ P2) in H. cbn [negb orb andb] in H.
    apply andb_prop in H as [_ H]. discriminate.
Qed.
Example C52_apart : match ex_run ex_doc with
  | Ok (_, d) => forall p, In p (gd_pages d) -> stacks_apart Words.default_words_config (page_words d p)
  | _ => False
  end.
Proof.
  assert (H : match ex_run ex_doc with
              | Ok (_, d) => forallb (fun p => apart_b Words.default_words_config (page_words d p)) (gd_pages d)
              | _ => false end = true) by (vm_compute; reflexivity).
  destruct (ex_run ex_doc) as [[c d]| |]; try discriminate. intros p Hp. apply apart_check. rewrite forallb_forall in H. exact (H p Hp).
Qed.

(** Where stacked symbols overlap, text is duplicated (a word between two symbols) or lost (a symbol that is part of a larger one
    has a part that is not part of the larger one). *)
Definition ex_between : list Parsing.event := ex_start 1 ++ [ex_draw 50 700 20 1; ex_draw 50 680 8 110; ex_draw 50 650 20 1].
Definition ex_nested : list Parsing.event := ex_start 1 ++ [ex_draw 50 700 40 1; ex_draw 65 640 20 1; ex_draw 71 600 8 110].
Theorem C52_overlapping_symbols_refuted :
  texts (ex_run ex_between) = Some [([sigma; S_ "n"; sigma; S_ "n"], [sigma; S_ "n"; sigma])] /\
  texts (ex_run ex_nested) = Some [([sigma; sigma], [sigma; sigma; S_ "n"])].
Proof. split; vm_compute; reflexivity. Qed.
Print Assumptions C52_overlapping_symbols_refuted.
