(** PropsTimings.v - C89: the running times. *)
From Coq Require Import ZArith NArith Reals Lra Permutation.
From Verif Require Import Base Double Document Serialization Cli CliSpec CliProofs Timings TimingsSpec TimingsProofs.
Local Open Scope string_scope. Local Open Scope list_scope. Local Open Scope nat_scope.

Lemma timed_step c m name l : label m = S_ name -> map label (filter (fun m => negb (disabled c m)) (m :: l)) = timed c m name ++ map label (filter (fun m => negb (disabled c m)) l).
Proof. intros E. unfold timed. cbn [filter]. destruct (disabled c m); cbn [negb Bool.eqb map app]; [reflexivity|rewrite E; reflexivity]. Qed.
(** The report has one entry for loading, for each step that was run, for writing the output and for the visualisations, in the order in
    which they were done. (The steps run by the engine are [MParsing :: filter ...] by C41_trace.) *)
Theorem C89_steps : forall c vis, all_steps c vis =
  S_ "Load PDF" :: map label (MParsing :: filter (fun m => negb (disabled c m)) pipeline) ++ S_ "Serialize" :: (if vis then [S_ "Visualize"] else []).
Proof.
  intros c vis. unfold all_steps, engine_steps, pipeline. cbn [map].
  rewrite (timed_step c MGlyphStats "Calculate glyph statistics" _ eq_refl), (timed_step c MDiacritics "Merge combining diacritics" _ eq_refl), (timed_step c MWords "Detect words" _ eq_refl),
    (timed_step c MWordStats "Calculate words statistics" _ eq_refl), (timed_step c MSegmentation "Segment pages" _ eq_refl), (timed_step c MLines "Detect lines" _ eq_refl),
    (timed_step c MScripts "Detect sub/superscripts" _ eq_refl), (timed_step c MLineStats "Calculate text line statistics" _ eq_refl), (timed_step c MBlocks "Detect text blocks" _ eq_refl),
    (timed_step c MReadingOrder "Detect reading order" _ eq_refl), (timed_step c MDehyphenation "Dehyphenate words" _ eq_refl).
  cbn [filter map]. rewrite app_nil_r, <- !app_assoc. cbn [app]. rewrite <- !app_assoc. cbn [app label]. reflexivity.
Qed.
Print Assumptions C89_steps.
(** The same in terms of the command line. *)
Theorem C89_skipped : forall to_int os c vis, config_for to_int os c -> forall m s, In m pipeline -> skip_flag m = Some s ->
  (In (label m) (all_steps c vis) <-> ~ given os s).
Proof.
  intros ti os c vis H m s I S. rewrite C89_steps.
  assert (D : disabled c m = true <-> given os s).
  { rewrite (cf_disabled _ _ _ H m). split; [intros (s' & E & G); congruence|intros G; exists s; split; assumption]. }
  assert (INJ : forall a b, In a pipeline -> In b pipeline -> label a = label b -> a = b).
  { unfold pipeline. cbn [In]. intros a b Ha Hb E. repeat (destruct Ha as [<-|Ha]; [|]); try destruct Ha; repeat (destruct Hb as [<-|Hb]; [|]); try destruct Hb; first [reflexivity|discriminate E]. }
  assert (NO : forall t, In t [S_ "Load PDF"; S_ "Parse PDF"; S_ "Serialize"; S_ "Visualize"] -> label m <> t).
  { intros t It. unfold pipeline in I. cbn [In] in I, It. repeat (destruct I as [<-|I]; [|]); try destruct I; repeat (destruct It as [<-|It]; [|]); try destruct It; discriminate. }
  split.
  - intros J G. apply D in G. cbn [map] in J. destruct J as [J|J]; [exact (NO _ (or_introl eq_refl) (eq_sym J))|].
    apply in_app_or in J as [[J|J]|[J|J]].
    + exact (NO (S_ "Parse PDF") (or_intror (or_introl eq_refl)) (eq_sym J)).
    + apply in_map_iff in J as (m' & E & J). apply filter_In in J as [J1 J2]. apply INJ in E; [subst m'; rewrite G in J2; discriminate|exact J1|exact I].
    + exact (NO (S_ "Serialize") (or_intror (or_intror (or_introl eq_refl))) (eq_sym J)).
    + destruct vis; [|destruct J]. destruct J as [J|[]]. exact (NO (S_ "Visualize") (or_intror (or_intror (or_intror (or_introl eq_refl)))) (eq_sym J)).
  - intros G. right. apply in_or_app. left. right. apply in_map. apply filter_In. split; [exact I|]. destruct (disabled c m) eqn:E; [exfalso; apply G, D; reflexivity|reflexivity].
Qed.
Print Assumptions C89_skipped.

(** The report is printed exactly if it was asked for, once, after everything else; its entry for the visualisations is there exactly if they
    were made. *)
Theorem C89_printed : forall e os acts, Permutation (sers e) SERIALIZERS -> parsed e = Ok os -> (forall s, In s help_flags -> ~ given os s) -> cli_main e = Ok (0%Z, acts) ->
  (In RunningTimes acts <-> given os "print-running-times") /\
  (In RunningTimes acts -> exists before, acts = before ++ [RunningTimes] /\ ~ In RunningTimes before) /\
  ((exists what p, In (Visualize what p) acts) <-> exists p, tokens os "visualization-path" = [p] /\ p <> []).
Proof.
  intros e os acts HP HO NH H. unfold cli_main in H. rewrite HO in H.
  destruct (store (sers e) (to_int e) vm0 os) as [vm err] eqn:ES.
  assert (ERR : forall w, (if mem_str (S_ "full-help") (v_flags vm) then Ok (0%Z, [FullHelpMsg])
     else if mem_str (S_ "help") (v_flags vm) then Ok (0%Z, [HelpMsg])
     else if mem_str (S_ "version") (v_flags vm) then Ok (0%Z, [VersionMsg])
     else Ok (1%Z, [ParseError w])) = Ok (0%Z, acts) -> False).
  { intros w X. assert (N : forall s, In s help_flags -> mem_str (S_ s) (v_flags vm) = false).
    { intros s I. destruct (mem_str (S_ s) (v_flags vm)) eqn:E; [|reflexivity]. exfalso. apply mem_str_In in E. destruct (store_flags _ _ _ _ _ _ ES _ E) as [[]|G]. exact (NH s I G). }
    rewrite (N "full-help"), (N "help"), (N "version") in X by (cbn; auto). discriminate X. }
  destruct err as [w|]; [destruct (ERR w H)|]. apply (store_stored _ _ HP os [] _ _ (stored0 _)) in ES. cbn [app] in ES.
  destruct (assoc_str (S_ "pdf-file") (v_strs vm)) as [pdf|]; cbn [is_some] in H; [|destruct (ERR _ H)].
  assert (HG : forall s, mem_str (S_ s) FLAGS = true -> mem_str (S_ s) (v_flags vm) = true <-> given os s) by (intros s F; exact (has_given _ _ _ _ ES F)).
  assert (N : forall s, In s help_flags -> mem_str (S_ s) (v_flags vm) = false).
  { intros s I. destruct (mem_str (S_ s) (v_flags vm)) eqn:E; [|reflexivity]. exfalso. apply (NH s I). apply HG; [|exact E]. destruct I as [<-|[<-|[<-|[]]]]; reflexivity. }
  unfold run_main in H. rewrite (N "full-help"), (N "help"), (N "version") in H by (cbn; auto). fold (main_config vm) in H.
  assert (EF : forall a l, In a (map Eff l) -> exists x, a = Eff x) by (intros a l I; apply in_map_iff in I as (x & <- & _); eauto).
  assert (VE : forall a c logs, In a (visible c logs) -> exists x, a = Eff x).
  { intros a c logs I. unfold visible in I. apply in_flat_map in I as ([[[mo lv] pg] tx] & _ & I). destruct (getostream (logLevel c mo) (logPageFilter c) lv pg); cbn [In] in I; [destruct I|destruct I as [I|[]]; exists (Stdout tx); symmetry; exact I]. }
  destruct (engine e (main_config vm) (get_str vm "pdf-file" [])) as [logs status d h|logs|logs o]; [|discriminate H|destruct o; discriminate H].
  destruct (Z.ltb_spec 0 status) as [Hs|Hs]; [injection H as -> _; lia|].
  match type of H with obind ?x _ = _ => destruct x as [out| |] eqn:EO; [|discriminate H|discriminate H] end. cbn [obind] in H. apply (f_equal (fun o => match o with Ok (_, a) => a | _ => [] end)) in H. cbn beta iota in H. subst acts.
  assert (OE : forall a, In a out -> exists x, a = Eff x).
  { destruct (getSerializer _) as [s|]; [|injection EO as <-; intros a []]. destruct (run_serializer s d h _) as [text| |]; [|discriminate EO|discriminate EO].
    cbn [obind] in EO. injection EO as <-. intros a I. exact (EF a _ I). }
  set (vis := match get_str vm "visualization-path" [] with [] => [] | p => [Visualize (visualizations vm) p] end).
  assert (VV : forall a, In a vis -> exists w p, a = Visualize w p).
  { intros a I. unfold vis in I. destruct (get_str vm "visualization-path" []); [destruct I|destruct I as [<-|[]]; eauto]. }
  assert (NR : ~ In RunningTimes (visible (main_config vm) logs ++ out ++ vis)).
  { intros I. apply in_app_or in I as [I|I]; [apply VE in I as (x & X); discriminate X|]. apply in_app_or in I as [I|I]; [apply OE in I as (x & X); discriminate X|apply VV in I as (w & p & X); discriminate X]. }
  assert (RT : In RunningTimes (visible (main_config vm) logs ++ out ++ vis ++ (if mem_str (S_ "print-running-times") (v_flags vm) then [RunningTimes] else [])) <-> mem_str (S_ "print-running-times") (v_flags vm) = true).
  { assert (A : forall t, visible (main_config vm) logs ++ out ++ vis ++ t = (visible (main_config vm) logs ++ out ++ vis) ++ t) by (intros t; rewrite <- !app_assoc; reflexivity). rewrite A, in_app_iff.
    destruct (mem_str (S_ "print-running-times") (v_flags vm)).
    - split; [reflexivity|]. intros _. right. left. reflexivity.
    - split; [|discriminate]. intros [X|[]]. contradiction. }
  split; [rewrite RT; apply HG; reflexivity|]. split.
  - intros I. apply RT in I. rewrite I. exists (visible (main_config vm) logs ++ out ++ vis). split; [rewrite <- !app_assoc; reflexivity|exact NR].
  - split.
    + intros (w & p & I). apply in_app_or in I as [I|I]; [apply VE in I as (x & X); discriminate X|]. apply in_app_or in I as [I|I]; [apply OE in I as (x & X); discriminate X|].
      apply in_app_or in I as [I|I]; [|destruct (mem_str (S_ "print-running-times") (v_flags vm)); [destruct I as [I|[]]; discriminate I|destruct I]].
      destruct (get_str_ok _ os vm "visualization-path" [] ES) as [[_ G]|G]; [cbn; auto|unfold vis in I; rewrite G in I; destruct I|].
      exists (get_str vm "visualization-path" []). split; [exact G|]. intros E. unfold vis in I. rewrite E in I. destruct I.
    + intros (p & T & NE). destruct (get_str_ok _ os vm "visualization-path" [] ES) as [[G _]|G]; [cbn; auto|exfalso; rewrite (not_given_tokens _ _ G) in T; discriminate T|].
      rewrite G in T. injection T as E. exists (visualizations vm), p. apply in_or_app. right. apply in_or_app. right. apply in_or_app. left. unfold vis. rewrite E. destruct p; [congruence|left; reflexivity].
Qed.
Print Assumptions C89_printed.

(** The text of the report: the total time, and for every entry, in order, a line with its name, its time and its share of the total time, in
    percent and with one decimal, off by little more than half of the last digit. *)
Theorem C89_report : forall l nan ts, let total := sum (map snd ts) in
  (forall t, In t ts -> (0 <= snd t)%Z) -> (0 < total < 2 ^ 53)%Z ->
  exists lines total_text, report (Some l) nan ts =
    Ok (BOLD ++ S_ "Finished in " ++ total_text ++ S_ " ms." ++ OFF ++ [nl] ++ concat lines) /\
    written l (Z.to_N total) total_text /\
    Forall2 (fun t line => exists k, share (snd t) total k /\ line_about l (fst t) (snd t) k line) ts lines.
Proof.
  intros l nan ts total P HT. exists (map (report_line l nan total) ts), (print_int l total). unfold report. rewrite total_ok; [|exact P|fold total; lia].
  cbn [obind]. split; [reflexivity|]. split; [apply print_int_ok; lia|].
  assert (G : forall x, (forall t, In t x -> In t ts) -> Forall2 (fun t line => exists k, share (snd t) total k /\ line_about l (fst t) (snd t) k line) x (map (report_line l nan total) x)).
  { induction x as [|t x IH]; intros I; [constructor|]. cbn [map]. constructor; [|apply IH; intros y Y; apply I; right; exact Y].
    apply line_ok; [|exact HT]. split; [apply P, I; left; reflexivity|]. apply sum_ge; [exact P|apply I; left; reflexivity]. }
  apply G. auto.
Qed.
Print Assumptions C89_report.
(** The report of a whole run, by its steps: [clock s] is the time measured for the step [s]. *)
Theorem C89_whole_run : forall c (vis : bool) (clock : str -> Z) l nan,
  let steps := (S_ "Load PDF" :: map label (MParsing :: filter (fun m => negb (disabled c m)) pipeline) ++ S_ "Serialize" :: (if vis then [S_ "Visualize"] else [])) in
  let total := sum (map clock steps) in
  (forall s, In s steps -> (0 <= clock s)%Z) -> (0 < total < 2 ^ 53)%Z ->
  exists total_text lines,
    report (Some l) nan (timings_of c vis clock) = Ok (BOLD ++ S_ "Finished in " ++ total_text ++ S_ " ms." ++ OFF ++ [nl] ++ concat lines) /\
    written l (Z.to_N total) total_text /\
    Forall2 (fun s line => exists k, share (clock s) total k /\ line_about l s (clock s) k line) steps lines.
Proof.
  intros c vis clock l nan steps total P T. unfold timings_of. rewrite C89_steps. fold steps.
  assert (E : map snd (map (fun s => (s, clock s)) steps) = map clock steps) by (rewrite map_map; reflexivity).
  assert (P' : forall t, In t (map (fun s => (s, clock s)) steps) -> (0 <= snd t)%Z) by (intros t I; apply in_map_iff in I as (s & <- & I); exact (P s I)).
  pose proof (C89_report l nan (map (fun s => (s, clock s)) steps)) as R. rewrite E in R. destruct (R P' T) as (lines & tt & RR & W & F). clear R.
  exists tt, lines. split; [exact RR|]. split; [exact W|]. clear -F. remember (map (fun s => (s, clock s)) steps) as ts eqn:ET. revert ET. generalize steps.
    induction F as [|t x ts lines H _ IH]; intros [|s ss] ET; try discriminate; constructor; cbn [map] in ET; injection ET as -> ET; [exact H|exact (IH ss ET)].
Qed.
Print Assumptions C89_whole_run.
(** How integers are written, negative ones (the clock may be set back during a run) included. *)
Theorem C89_integers : forall l z, exists s, written l (Z.to_N (Z.abs z)) s /\ print_int l z = (if (z <? 0)%Z then ["-"%char] else []) ++ s.
Proof. intros l z. eexists. split; [apply written_ok|]. reflexivity. Qed.
Print Assumptions C89_integers.
(** Shares that are printed add up to 100 percent, up to the rounding. *)
Theorem C89_hundred : forall (ts : list timing) ks, let total := sum (map snd ts) in (0 < total)%Z -> Forall2 (fun t k => share (snd t) total k) ts ks ->
  (Rabs (IZR (Z.of_N (fold_right N.add 0%N ks)) / 10 - 100) <= 50002 / 1000000 * INR (length ts))%R.
Proof.
  intros ts ks total HT F. assert (TP : (0 < IZR total)%R) by (apply IZR_lt; exact HT).
  assert (G : (Rabs (IZR (Z.of_N (fold_right N.add 0%N ks)) / 10 - 100 * (IZR (sum (map snd ts)) / IZR total)) <= 50002 / 1000000 * INR (length ts))%R).
  { clearbody total. induction F as [|t k ts ks [_ S] F IH].
    - cbn [fold_right map sum length]. change (Z.of_N 0) with 0%Z. cbn [INR]. replace (IZR 0 / 10 - 100 * (IZR 0 / IZR total))%R with 0%R by (field; lra). rewrite Rabs_R0. lra.
    - cbn [fold_right map sum length]. fold (sum (map snd ts)). rewrite N2Z.inj_add, !plus_IZR, S_INR.
      replace ((IZR (Z.of_N k) + IZR (Z.of_N (fold_right N.add 0%N ks))) / 10 - 100 * ((IZR (snd t) + IZR (sum (map snd ts))) / IZR total))%R
        with ((IZR (Z.of_N k) / 10 - 100 * (IZR (snd t) / IZR total)) + (IZR (Z.of_N (fold_right N.add 0%N ks)) / 10 - 100 * (IZR (sum (map snd ts)) / IZR total)))%R by (field; lra).
      eapply Rle_trans; [apply Rabs_triang|]. lra. }
  fold total in G. replace (100 * (IZR total / IZR total))%R with 100%R in G by (field; lra). exact G.
Qed.
Print Assumptions C89_hundred.

(** The columns do not line up: the longest names do not fit into their column, in the report of a run that skips nothing. *)
Theorem C89_columns_refuted : exists c a b, In (S_ a) (all_steps c false) /\ In (S_ b) (all_steps c false) /\
  forall x y, filled_after 25 (S_ " * " ++ S_ a ++ S_ ":") x -> filled_after 25 (S_ " * " ++ S_ b ++ S_ ":") y -> length x <> length y.
Proof.
  exists (mkConf (fun _ => false) (fun _ => 4) (-1)%Z false), "Detect words", "Calculate text line statistics".
  split; [vm_compute; tauto|]. split; [vm_compute; tauto|]. intros x y (n & _ & X) (m & _ & Y). rewrite X, Y. vm_compute. discriminate.
Qed.
Print Assumptions C89_columns_refuted.
(** If all steps together take less than a millisecond the shares are printed as NaN. *)
Theorem C89_zero_refuted : forall l nan ts, ts <> [] -> (forall t, In t ts -> snd t = 0%Z) ->
  exists total_text lines, report (Some l) nan ts = Ok (BOLD ++ S_ "Finished in " ++ total_text ++ S_ " ms." ++ OFF ++ [nl] ++ concat lines) /\
    Forall2 (fun t line => exists before, line = before ++ S_ "(" ++ nan ++ S_ "%)" ++ [nl]) ts lines.
Proof.
  intros l nan ts _ Z0. assert (T : sum (map snd ts) = 0%Z).
  { clear -Z0. induction ts as [|t ts IH]; [reflexivity|]. cbn [map sum fold_right]. fold (sum (map snd ts)). rewrite IH by (intros; apply Z0; right; assumption). rewrite (Z0 t (or_introl eq_refl)). reflexivity. }
  exists (print_int l 0), (map (report_line l nan 0) ts). unfold report. rewrite total_ok; [|intros t I; rewrite (Z0 t I); lia|rewrite T; lia]. rewrite T. split; [reflexivity|].
  clear T. induction ts as [|t ts IH]; [constructor|]. cbn [map]. constructor; [|apply IH; intros; apply Z0; right; assumption].
  exists (pad_right 25 (S_ " * " ++ fst t ++ S_ ":") ++ pad_left 4 (print_int l 0) ++ S_ " ms "). unfold report_line. rewrite (Z0 t (or_introl eq_refl)).
  assert (E : percentage 0 0 = dnan) by (vm_compute; reflexivity). rewrite E. cbn [print_fixed1 dnan]. rewrite <- !app_assoc. reflexivity.
Qed.
Print Assumptions C89_zero_refuted.
(** If the environment names a locale that is not installed, the program ends with an uncaught exception instead of a report. *)
Theorem C89_locale_refuted : forall nan ts, report None nan ts = Throw "runtime_error".
Proof. reflexivity. Qed.
Print Assumptions C89_locale_refuted.

(** ** Example: an English locale, a run that skips the detection of words, twelve seconds. *)
Definition ex_locale : locale := mkLocale "."%char ","%char [3].
Definition ex_times : list timing := [(S_ "Load PDF", 5%Z); (S_ "Parse PDF", 11995%Z); (S_ "Detect lines", 0%Z); (S_ "Calculate glyph statistics", 345%Z)].
Example C89_example : report (Some ex_locale) (S_ "-nan") ex_times = Ok (BOLD ++ S_ "Finished in 12,345 ms." ++ OFF ++ [nl] ++
  S_ " * Load PDF:                5 ms (0.0%)" ++ [nl] ++
  S_ " * Parse PDF:            11,995 ms (97.2%)" ++ [nl] ++
  S_ " * Detect lines:            0 ms (0.0%)" ++ [nl] ++
  S_ " * Calculate glyph statistics: 345 ms (2.8%)" ++ [nl]).
Proof. vm_compute. reflexivity. Qed.
Example C89_example_total : total_of ex_times = Ok 12345%Z /\ (forall t, In t ex_times -> (0 <= snd t)%Z).
Proof. split; [reflexivity|]. intros t I. cbn in I. repeat (destruct I as [<-|I]; [cbn; lia|]). destruct I. Qed.
Example C89_example_steps : all_steps (mkConf (fun m => match m with MWords | MDehyphenation => true | _ => false end) (fun _ => 4) (-1)%Z false) true = map S_
  ["Load PDF"; "Parse PDF"; "Calculate glyph statistics"; "Merge combining diacritics"; "Calculate words statistics"; "Segment pages"; "Detect lines"; "Detect sub/superscripts";
   "Calculate text line statistics"; "Detect text blocks"; "Detect reading order"; "Serialize"; "Visualize"].
Proof. reflexivity. Qed.
Example C89_whole_run_example : let c := mkConf (fun m => match m with MWords => true | _ => false end) (fun _ => 4) (-1)%Z false in
  sum (map (fun s => Z.of_nat (length s)) (S_ "Load PDF" :: map label (MParsing :: filter (fun m => negb (disabled c m)) pipeline) ++ S_ "Serialize" :: [S_ "Visualize"])) = 246%Z.
Proof. vm_compute. reflexivity. Qed.
