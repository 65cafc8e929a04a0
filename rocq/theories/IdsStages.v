(** IdsStages.v - proofs for C83: each module gives the same result, up to the ids, with and without ids. *)
From Coq Require Import ZArith NArith FunctionalExtensionality.
From Verif Require Import Base Double MathUtils Sort Elements Counter XYCut Document Pipeline IdsSpec IdsXY IdsOrder.
From Verif Require Fonts Parsing Statistics Diacritics Words PageSegmentation Lines Scripts Blocks Roles ReadingOrder Dehyphenation Cli.
Local Opaque TOL dZ dadd dsub ddiv dmul dec DBL_MAX DBL_MIN.

Definition anon (m : machine) : machine := other_ids m (fun _ => []) (fun _ _ => []) (fun _ _ => []) (fun _ _ => []).
Notation Ec := anon_char. Notation Ee := anon_elem. Notation Ew := anon_word. Notation Eb := anon_block. Notation Ef := anon_figure.

(** ** Parsing *)
Definition Ei (i : Parsing.item) : Parsing.item :=
  match i with Parsing.IChar c => Parsing.IChar (Ec c) | Parsing.IShape e => Parsing.IShape (Ee e) | Parsing.IGraphic e => Parsing.IGraphic (Ee e) end.
Definition Epp (p : Parsing.ppage) : Parsing.ppage :=
  Parsing.mkPPage (Parsing.pp_num p) (Parsing.pp_clip p) (map Ec (Parsing.pp_chars p)) (map Ee (Parsing.pp_shapes p)) (map Ee (Parsing.pp_graphics p))
    (map Ef (Parsing.pp_figures p)).
Definition Epr (p : Parsing.parser) : Parsing.parser :=
  Parsing.mkParser (map Epp (Parsing.pr_done p)) (option_map Epp (Parsing.pr_page p)) (Parsing.pr_fonts p) (Parsing.pr_font p) (Parsing.pr_num p).

Lemma add_figure_E i f : Ef (Parsing.add_figure i f) = Parsing.add_figure (Ei i) (Ef f).
Proof. unfold Parsing.add_figure, anon_figure. cbn [Parsing.fg_pos Parsing.fg_clip Parsing.fg_chars Parsing.fg_shapes Parsing.fg_graphics]. rewrite !map_app. destruct i; reflexivity. Qed.
Lemma add_figures_E k i : forall fs, option_map (map Ef) (Parsing.add_figures k i fs) = Parsing.add_figures k (Ei i) (map Ef fs).
Proof.
  induction fs as [|f r IH]; [reflexivity|]. cbn [Parsing.add_figures map]. change (Parsing.fg_clip (Ef f)) with (Parsing.fg_clip f).
  destruct (Parsing.same_clip k _); [cbn [option_map map]; now rewrite add_figure_E|]. rewrite <- IH. destruct (Parsing.add_figures k i r); reflexivity.
Qed.
Lemma place_E k i p : Epp (Parsing.place k i p) = Parsing.place k (Ei i) (Epp p).
Proof.
  unfold Parsing.place. change (Parsing.pp_clip (Epp p)) with (Parsing.pp_clip p). destruct (Parsing.same_clip k _).
  - unfold Epp, Parsing.add_page. cbn [Parsing.pp_num Parsing.pp_clip Parsing.pp_chars Parsing.pp_shapes Parsing.pp_graphics Parsing.pp_figures]. rewrite !map_app. destruct i; reflexivity.
  - change (Parsing.pp_figures (Epp p)) with (map Ef (Parsing.pp_figures p)). rewrite <- add_figures_E. destruct (Parsing.add_figures k i _) as [fs|]; cbn [option_map]; [reflexivity|].
    unfold Epp, Parsing.set_figures. cbn [Parsing.pp_num Parsing.pp_clip Parsing.pp_chars Parsing.pp_shapes Parsing.pp_graphics Parsing.pp_figures]. rewrite map_app. destruct i; reflexivity.
Qed.
Lemma store_E k mk mk' p : (forall n r, Ei (mk n r) = mk' n r) -> lift Epr (Parsing.store k mk p) = Parsing.store k mk' (Epr p).
Proof.
  intros H. unfold Parsing.store. cbn [Epr Parsing.pr_page Parsing.pr_num]. destruct (Parsing.pr_page p) as [q|]; cbn [option_map]; [|reflexivity].
  destruct (Parsing.pr_num p =? 2 ^ 31 - 1)%Z; [reflexivity|]. cbn [lift]. unfold Epr. cbn [Parsing.pr_done Parsing.pr_page Parsing.pr_fonts Parsing.pr_font Parsing.pr_num option_map].
  rewrite place_E, H. reflexivity.
Qed.
Lemma pages_E p : Parsing.pages (Epr p) = map Epp (Parsing.pages p).
Proof. unfold Parsing.pages. cbn [Epr Parsing.pr_page Parsing.pr_done]. rewrite map_app. destruct (Parsing.pr_page p); reflexivity. Qed.

Section Parse.
  Context (pf : Fonts.gfx_font -> outcome Fonts.font) (mu : option (N -> str)) (fb : str -> option (list N)) (sp : N -> bool) (ids : Z -> str).
  Lemma handle_E e p : lift Epr (Parsing.handle pf mu fb sp ids p e) = Parsing.handle pf mu fb sp (fun _ => []) (Epr p) e.
  Proof.
    destruct e as [num s| |s|s code nb u ul|s|s|s]; cbn [Parsing.handle].
    - cbn [lift]. f_equal. unfold Parsing.start_page. rewrite pages_E. reflexivity.
    - reflexivity.
    - unfold Parsing.update_font. destruct (Parsing.s_font s) as [f|]; [|reflexivity]. cbn [Epr Parsing.pr_fonts]. destruct (Parsing.find_font _ _); [reflexivity|].
      rewrite lift_bind. apply bind_ext. intros i. reflexivity.
    - unfold Parsing.draw_char. cbn [Epr Parsing.pr_font]. destruct (Parsing.pr_font p) as [i|]; [|reflexivity]. cbv zeta. rewrite lift_bind. apply bind_ext. intros [text us].
      rewrite lift_bind. apply bind_ext. intros []; [reflexivity|]. destruct (Parsing.s_font s) as [f|]; [|reflexivity]. rewrite lift_bind. apply bind_ext. intros w.
      apply store_E. intros n r. destruct (Parsing.char_position _ _ _ _ _ _). reflexivity.
    - unfold Parsing.stroke. cbv zeta. destruct (fold_left _ _ _) as [[[l u] r] d]. apply store_E. reflexivity.
    - unfold Parsing.stroke. cbv zeta. destruct (fold_left _ _ _) as [[[l u] r] d]. apply store_E. reflexivity.
    - unfold Parsing.draw_graphic. cbv zeta. destruct (Parsing.outside _ _ _ _ _); [reflexivity|]. apply store_E. reflexivity.
  Qed.
  Lemma handle_all_E : forall es p, lift Epr (Parsing.handle_all pf mu fb sp ids es p) = Parsing.handle_all pf mu fb sp (fun _ => []) es (Epr p).
  Proof. induction es as [|e r IH]; intros p; [reflexivity|]. cbn [Parsing.handle_all]. rewrite <- handle_E, lift_bind, bind_lift. apply bind_ext. exact IH. Qed.
End Parse.
Lemma run_parsing_E m es d : lift nameless (run_parsing m es d) = run_parsing (anon m) es (nameless d).
Proof.
  unfold run_parsing, Parsing.parse_events. cbn [anon other_ids m_parseFont m_mapUnicode m_fromBytes m_iswspace m_charId].
  change Parsing.parser_init with (Epr Parsing.parser_init) at 2. rewrite <- (handle_all_E _ _ _ _ (m_charId m)), lift_bind, bind_lift. apply bind_ext. intros r. cbn [lift].
  f_equal. unfold nameless. cbn [gd_pages gd_fonts gd_stats gd_words gd_lines]. f_equal. rewrite pages_E, !map_map. reflexivity.
Qed.

(** ** Statistics, diacritical marks *)
Lemma g_loop_E : forall cs s, Statistics.g_loop s (map Ec cs) = Statistics.g_loop s cs.
Proof. induction cs as [|c t IH]; intros s; [reflexivity|]. cbn [map Statistics.g_loop]. apply bind_ext. exact IH. Qed.
Lemma g_pages_E : forall ps s, Statistics.g_pages s (map (map Ec) ps) = Statistics.g_pages s ps.
Proof. induction ps as [|p t IH]; intros s; [reflexivity|]. cbn [map Statistics.g_pages]. rewrite g_loop_E. apply bind_ext. exact IH. Qed.
Lemma run_glyphStats_E m d : lift nameless (run_glyphStats m d) = run_glyphStats (anon m) (nameless d).
Proof.
  unfold run_glyphStats, Statistics.glyphStatistics. cbn [anon other_ids m_ordS m_ordD nameless gd_pages gd_stats]. rewrite map_map. cbn [anon_page g_chars].
  replace (map (fun x => map Ec (g_chars x)) (gd_pages d)) with (map (map Ec) (map g_chars (gd_pages d))) by (rewrite map_map; reflexivity). rewrite g_pages_E, lift_bind.
  apply bind_ext. intros st. reflexivity.
Qed.

Lemma update_map {A B} (f : A -> B) x : forall l i, map f (update i x l) = update i (f x) (map f l).
Proof. induction l as [|y t IH]; intros [|i]; cbn; auto. now rewrite IH. Qed.
Lemma diac_step_E cmp cs i : lift (map Ec) (Diacritics.diac_step cmp cs i) = Diacritics.diac_step cmp (map Ec cs) i.
Proof.
  unfold Diacritics.diac_step. rewrite !nth_error_mapf. destruct (nth_error cs i) as [c|]; cbn [option_map]; [|reflexivity].
  change (Diacritics.mark_unicode (Ec c)) with (Diacritics.mark_unicode c). cbv zeta.
  replace (match i with 0 => None | S j => nth_error (map Ec cs) j end) with (option_map Ec (match i with 0 => None | S j => nth_error cs j end)) by (destruct i; [reflexivity|now rewrite nth_error_mapf]).
  generalize (match i with 0 => None | S j => nth_error cs j end) as prev. intros prev. generalize (nth_error cs (S i)) as next. intros next.
  destruct (Diacritics.mark_unicode c) as [u|]; [|reflexivity].
  replace (Diacritics.prev_overlap (option_map Ec prev) (Ec c)) with (Diacritics.prev_overlap prev c) by (destruct prev; reflexivity).
  replace (Diacritics.next_overlap (Ec c) (option_map Ec next)) with (Diacritics.next_overlap c next) by (destruct next; reflexivity).
  destruct (_ && _); [reflexivity|]. destruct (larger _ _ TOL).
  - destruct prev as [b|]; cbn [option_map]; [|reflexivity]. cbn [lift]. now rewrite !update_map.
  - destruct next as [b|]; cbn [option_map]; [|reflexivity]. cbn [lift]. now rewrite !update_map.
Qed.
Lemma diac_loop_E cmp : forall is cs, lift (map Ec) (Diacritics.diac_loop cmp cs is) = Diacritics.diac_loop cmp (map Ec cs) is.
Proof. induction is as [|i t IH]; intros cs; [reflexivity|]. cbn [Diacritics.diac_loop]. rewrite <- diac_step_E, lift_bind, bind_lift. apply bind_ext. exact IH. Qed.
Lemma omap_lift {A B C D} (f : A -> outcome B) (g : C -> outcome D) (a : A -> C) (b : B -> D) :
  (forall x, lift b (f x) = g (a x)) -> forall l, lift (map b) (omap f l) = omap g (map a l).
Proof.
  intros H. induction l as [|x t IH]; [reflexivity|]. cbn [omap map]. rewrite <- H, <- IH, bind_lift, lift_bind. apply bind_ext. intros y.
  rewrite bind_lift, lift_bind. reflexivity.
Qed.
Lemma run_diacritics_E m d : lift nameless (run_diacritics m d) = run_diacritics (anon m) (nameless d).
Proof.
  unfold run_diacritics. cbn [anon other_ids m_compose nameless gd_pages]. rewrite lift_bind.
  rewrite <- (omap_lift (fun p => do cs <- Diacritics.merge_marks (m_compose m) (g_chars p); Ok (set_chars cs p)) _ anon_page anon_page).
  - rewrite bind_lift. apply bind_ext. intros ps. reflexivity.
  - intros p. unfold Diacritics.merge_marks. cbn [anon_page g_chars]. rewrite map_length, <- diac_loop_E, lift_bind, bind_lift. apply bind_ext. intros cs. reflexivity.
Qed.

(** ** Words *)
Definition Ea (a : Words.active) : Words.active := Words.mkActive (map Ec (Words.a_chars a)) (Words.a_pos a) (Words.a_fontSize a).
Section WordsE.
  Context (oS : list (str * N) -> list (str * N)) (oD : list (double * N) -> list (double * N)) (ids : Z -> str) (cfg : Words.words_config).
  Lemma append_E a c : Ea (Words.append_char a c) = Words.append_char (Ea a) (Ec c).
  Proof. unfold Words.append_char, Ea. cbn [Words.a_chars Words.a_pos Words.a_fontSize]. rewrite map_app. reflexivity. Qed.
  Lemma createWord_E r cs : lift Ew (Words.createWord oS oD ids r cs) = Words.createWord oS oD (fun _ => []) r (map Ec cs).
  Proof.
    unfold Words.createWord. destruct cs as [|c0 cs]; [reflexivity|]. cbn [map]. unfold Words.mostFreqFontName, Words.mostFreqFontSize.
    change (Ec c0 :: map Ec cs) with (map Ec (c0 :: cs)). rewrite !map_map. cbn [anon_char c_fontName c_fontSize c_pos].
    rewrite lift_bind. apply bind_ext. intros fn. rewrite lift_bind. apply bind_ext. intros fs. reflexivity.
  Qed.
  Lemma starts_E a c : Words.startsWord cfg (Ea a) (Ec c) = Words.startsWord cfg a c.
  Proof. unfold Words.startsWord, Ea. cbn [Words.a_chars Words.a_pos]. destruct (Words.a_chars a); reflexivity. Qed.
  Lemma words_loop_E n : forall cs a ws,
    lift (fun r => (Ea (fst r), map Ew (snd r))) (Words.words_loop oS oD ids cfg n a ws cs) = Words.words_loop oS oD (fun _ => []) cfg n (Ea a) (map Ew ws) (map Ec cs).
  Proof.
    induction cs as [|c t IH]; intros a ws; [reflexivity|]. cbn [Words.words_loop map]. change (c_markOf (Ec c)) with (c_markOf c).
    destruct (is_some (c_markOf c)); [apply IH|]. rewrite starts_E. cbn [Ea Words.a_chars]. rewrite !map_length.
    destruct (Words.startsWord cfg a c && _).
    - rewrite <- createWord_E, bind_lift, lift_bind. apply bind_ext. intros w. rewrite IH, append_E, map_app. reflexivity.
    - rewrite IH, append_E. reflexivity.
  Qed.
  Lemma detectWords_E n ws cs : lift (map Ew) (Words.detectWords oS oD ids cfg n ws cs) = Words.detectWords oS oD (fun _ => []) cfg n (map Ew ws) (map Ec cs).
  Proof.
    unfold Words.detectWords. destruct cs as [|c cs]; [reflexivity|]. change (map Ec (c :: cs)) with (Ec c :: map Ec cs) at 1. cbv iota. change (Words.reset n) with (Ea (Words.reset n)) at 2.
    rewrite <- words_loop_E, bind_lift, lift_bind. apply bind_ext. intros [a ws']. cbn [fst snd Ea Words.a_chars].
    destruct (Words.a_chars a) as [|x l]; [reflexivity|]. change (map Ec (x :: l)) with (Ec x :: map Ec l) at 1. cbv iota. rewrite map_length, <- createWord_E, bind_lift, lift_bind.
    apply bind_ext. intros w. cbn [lift]. now rewrite map_app.
  Qed.
  Lemma modify_E i f ws : (forall w, Ew (f w) = f (Ew w)) -> map Ew (Words.modify i f ws) = Words.modify i f (map Ew ws).
  Proof. intros H. unfold Words.modify. rewrite nth_error_mapf. destruct (nth_error ws i); cbn [option_map]; [|reflexivity]. now rewrite update_map, H. Qed.
  Lemma stack_loop_E i : forall js ws, map Ew (Words.stack_loop cfg i js ws) = Words.stack_loop cfg i js (map Ew ws).
  Proof.
    induction js as [|j t IH]; intros ws; [reflexivity|]. cbn [Words.stack_loop]. rewrite !nth_error_mapf.
    destruct (nth_error ws i) as [b|]; cbn [option_map]; [|reflexivity]. destruct (nth_error ws j) as [w|]; cbn [option_map]; [|reflexivity].
    change (Words.isPart cfg (Ew b) (Ew w)) with (Words.isPart cfg b w). destruct (Words.isPart cfg b w); [|reflexivity]. rewrite IH, !modify_E; reflexivity.
  Qed.
  Lemma existsb_map {A B} (g : A -> B) (p : B -> bool) l : existsb p (map g l) = existsb (fun x => p (g x)) l.
  Proof. induction l as [|x t IH]; [reflexivity|]. cbn. now rewrite IH. Qed.
  Lemma isBase_E w : Words.isBase cfg (Ew w) = Words.isBase cfg w.
  Proof. unfold Words.isBase. cbn [anon_word w_chars w_text]. rewrite existsb_map. reflexivity. Qed.
  Lemma stack_step_E ws i : map Ew (Words.stack_step cfg ws i) = Words.stack_step cfg (map Ew ws) i.
  Proof.
    unfold Words.stack_step. rewrite nth_error_mapf, map_length. destruct (nth_error ws i) as [w|]; cbn [option_map]; [|reflexivity]. rewrite isBase_E.
    destruct (Words.isBase cfg w); [|reflexivity]. now rewrite !stack_loop_E.
  Qed.
  Lemma stacked_E ws : map Ew (Words.mergeStackedMathSymbols cfg ws) = Words.mergeStackedMathSymbols cfg (map Ew ws).
  Proof.
    unfold Words.mergeStackedMathSymbols. rewrite map_length. generalize (seq 0 (length ws)) as is. intros is. revert ws.
    induction is as [|i t IH]; intros ws; [reflexivity|]. cbn [fold_left]. rewrite IH, stack_step_E. reflexivity.
  Qed.
End WordsE.
Lemma place_words_E : forall ps wss n, place_words n (map anon_page ps) (map (map Ew) wss) = (map anon_page (fst (place_words n ps wss)), map Ew (snd (place_words n ps wss))).
Proof.
  induction ps as [|p ps IH]; intros wss n; [reflexivity|]. destruct wss as [|ws wss]; [reflexivity|]. cbn [place_words map]. rewrite map_length, IH.
  destruct (place_words (n + length ws) ps wss) as [ps' rest]. cbn [fst snd map]. rewrite map_app, !map_map. reflexivity.
Qed.
Lemma run_words_E m cfg d : lift nameless (run_words m cfg d) = run_words (anon m) cfg (nameless d).
Proof.
  unfold run_words. cbn [anon other_ids m_ordS m_ordD m_wordId nameless gd_pages]. rewrite lift_bind.
  rewrite <- (omap_lift (fun p => Words.detectWords (m_ordS m) (m_ordD m) (m_wordId m (g_num p)) cfg (g_num p) [] (g_chars p)) _ anon_page (map Ew)).
  - rewrite bind_lift. apply bind_ext. intros wss. replace (map (Words.mergeStackedMathSymbols cfg) (map (map Ew) wss)) with (map (map Ew) (map (Words.mergeStackedMathSymbols cfg) wss))
      by (rewrite !map_map; apply map_ext; intros ws; apply stacked_E).
    rewrite place_words_E. destruct (place_words 0 (gd_pages d) _) as [ps ws]. reflexivity.
  - intros p. rewrite detectWords_E. reflexivity.
Qed.
