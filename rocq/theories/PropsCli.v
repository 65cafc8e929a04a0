(** PropsCli.v - property theorems C38-C42 and C55 (command line, logging, pipeline). *)
From Coq Require Import ZArith.
From Verif Require Import Base Double Elements Document Serialization SerializationSpec Cli CliSpec CliProofs.
Local Open Scope string_scope. Local Open Scope list_scope. Local Open Scope nat_scope.

(** ** C38 Command-line names round-trip *)

(** A validator accepts exactly one token, only if the option has no value yet, and only the canonical name of a value,
    for which it delivers that value; everything else is rejected with an exception. For the format this holds in
    whatever order the table of serializers is iterated. *)
Theorem C38_role : forall v vals,
  (forall i, validate_role v vals = Ok i <-> v = None /\ exists t, vals = [t] /\ has_name SEMANTIC_ROLE_NAMES i t) /\
  (is_ok (validate_role v vals) = false -> is_throw (validate_role v vals) = true).
Proof. exact validate_role_ok. Qed.
Print Assumptions C38_role.
Theorem C38_type : forall v vals,
  (forall i, validate_type v vals = Ok i <-> v = None /\ exists t, vals = [t] /\ has_name PDF_ELEMENT_TYPE_NAMES i t) /\
  (is_ok (validate_type v vals) = false -> is_throw (validate_type v vals) = true).
Proof. exact validate_type_ok. Qed.
Print Assumptions C38_type.
Theorem C38_format : forall sers, Permutation sers SERIALIZERS -> forall v vals,
  (forall i, validate_format sers v vals = Ok i <-> v = None /\ exists t, vals = [t] /\ has_name (map S_ ["txt"; "txt-extended"]) i t) /\
  (is_ok (validate_format sers v vals) = false -> is_throw (validate_format sers v vals) = true).
Proof. exact validate_format_ok. Qed.
Print Assumptions C38_format.
(** --role and --type may be repeated: the values are collected in order. *)
Theorem C38_repeated : forall v vals,
  (forall l, validate_vector validate_role v vals = Ok l <->
     exists ids, l = match v with Some l0 => l0 | None => [] end ++ ids /\ Forall2 (fun t i => has_name SEMANTIC_ROLE_NAMES i t) vals ids) /\
  (forall l, validate_vector validate_type v vals = Ok l <->
     exists ids, l = match v with Some l0 => l0 | None => [] end ++ ids /\ Forall2 (fun t i => has_name PDF_ELEMENT_TYPE_NAMES i t) vals ids).
Proof.
  intros v vals. split.
  - exact (proj1 (validate_vector_ok _ _ validate_role_ok vals v)).
  - exact (proj1 (validate_vector_ok _ _ validate_type_ok vals v)).
Qed.
Print Assumptions C38_repeated.
(** The names are distinct, so that a name stands for one value only. *)
Theorem C38_distinct : NoDup SEMANTIC_ROLE_NAMES /\ NoDup PDF_ELEMENT_TYPE_NAMES /\ NoDup SERIALIZATION_FORMAT_NAMES.
Proof. split; [exact roles_nodup|]. split; [exact types_nodup|]. apply nodup_names. vm_compute. reflexivity. Qed.
Print Assumptions C38_distinct.
(** The name of the third format is not accepted. *)
Theorem C38_jsonl_refuted : has_name SERIALIZATION_FORMAT_NAMES 2 (S_ "jsonl") /\
  forall sers, Permutation sers SERIALIZERS -> is_throw (validate_format sers None [S_ "jsonl"]) = true.
Proof.
  split; [reflexivity|]. intros sers HP. apply (validate_format_ok sers HP). destruct (is_ok _) eqn:E; [|reflexivity].
  destruct (validate_format sers None [S_ "jsonl"]) as [i| |] eqn:V; try discriminate.
  apply (validate_format_ok sers HP) in V. destruct V as (_ & t & [= <-] & H). unfold has_name in H. destruct i as [|[|[|i]]]; discriminate.
Qed.
Print Assumptions C38_jsonl_refuted.
Example C38_example : validate_role None [S_ "heading"] = Ok 4 /\ is_throw (validate_role None [S_ "Heading"]) = true /\
  validate_vector validate_role None [S_ "toc"; S_ "title"] = Ok [13; 6] /\ is_throw (validate_format SERIALIZERS (Some 0) [S_ "txt"]) = true.
Proof. repeat split. Qed.

(** ** C39 Every accepted output format produces output *)

(** Whenever the program exits with 0 without having printed help or version info, the engine was called with the
    configuration asked for, and the text of the format asked for (for the roles asked for) was sent to the output asked
    for; nothing else is written but the visible log messages, a visualisation and the running times. *)
Theorem C39_output : forall e os acts, Permutation (sers e) SERIALIZERS -> parsed e = Ok os -> cli_main e = Ok (0%Z, acts) ->
  In acts [[FullHelpMsg]; [HelpMsg]; [VersionMsg]] \/
  exists c pdf logs status d h f roles path text rest,
    config_for (to_int e) os c /\ tokens os "pdf-file" = [pdf] /\ engine e c pdf = Returned logs status d h /\
    wants_format os f /\ wants_roles os roles /\ wants_path os path /\ format_text f d h roles text /\ no_effects rest /\
    acts = visible c logs ++ map Eff (serialize (shell e) (can_open e) text path) ++ rest.
Proof.
  intros e os acts HP HO H. apply main_ok in H; [|assumption]. destruct H as [(_ & H & _)|[[H _]|(os' & HO' & H)]]; [left; assumption|discriminate|right].
  rewrite HO in HO'. injection HO' as <-. destruct H as (c & pdf & HC & Hp & _ & H). exists c, pdf.
  destruct (engine e c pdf) as [logs status d h|logs|logs o]; [|destruct H; discriminate|destruct H].
  destruct H as [(H1 & H2 & _)|(_ & _ & f & roles & path & text & rest & H)]; [lia|].
  exists logs, status, d, h, f, roles, path, text, rest. auto.
Qed.
Print Assumptions C39_output.

(** A tiny environment for the examples: one document with the words "a" and "b" in a paragraph and a heading. *)
Definition cw (s : string) : word :=
  mkWord [] 0 pos_default (S_ s) [] dzero [mkChar 0 [] 0 pos_default (S_ s) [] [] [] dzero (dzero, dzero, dzero) dzero dzero false false None None []] None [] None None.
Definition cdoc : document := mkDoc [mkPage 1 dzero dzero [] [] [mkBlock [] 0 pos_default [] [] dzero 0 false [[0]]; mkBlock [] 0 pos_default [] [] dzero 4 false [[1]]]] [].
Definition cheap : heap := fun i => cw (nth i ["a"; "b"] "").
Definition cenv (os : list occ) (status : Z) : env :=
  mkEnv (Ok os) (fun _ => None) SERIALIZERS (fun _ _ => Returned [(MWords, INFO, (-1)%Z, S_ "words")] status cdoc cheap) (fun _ => 0%Z) (fun _ => true).
Definition o (name : string) (vals : list string) : occ := (S_ name, map S_ vals).
Example C39_example :
  cli_main (cenv [o "pdf-file" ["x.pdf"]; o "role" ["heading"]; o "format" ["txt-extended"]; o "output-file" ["out/x.txt"]] 0) =
  Ok (0%Z, map Eff [Shell (S_ "mkdir -p out"); WriteFile (S_ "out/x.txt") (S_ "[HEADING] b" ++ [nl; ff; nl])]).
Proof. reflexivity. Qed.

(** ** C40 Logging filter *)
Theorem C40_stream : forall own filter level page,
  getostream own filter level page = Cout <-> own <= level /\ (filter <= 0 \/ page <= 0 \/ filter = page)%Z.
Proof. exact getostream_ok. Qed.
Print Assumptions C40_stream.
(** The visible messages are the messages that pass, in their order. *)
Theorem C40_visible : forall c logs, visible c logs = map (fun m => Eff (Stdout (snd m)))
  (filter (fun m => let '(mo, level, page, _) := m in
     (logLevel c mo <=? level) && ((logPageFilter c <=? 0) || (page <=? 0) || (logPageFilter c =? page))%Z) logs).
Proof. exact visible_ok. Qed.
Print Assumptions C40_visible.
(** The modules log at level info or below only (grep: no call of warn or error). Without --verbosity and --debug-*
    switches nothing is visible, so that standard output is exactly the serialised text. *)
Theorem C40_quiet : forall e os acts, Permutation (sers e) SERIALIZERS -> parsed e = Ok os -> cli_main e = Ok (0%Z, acts) ->
  (forall c pdf logs status d h, engine e c pdf = Returned logs status d h -> forall m l p t, In (m, l, p, t) logs -> l <= INFO) ->
  ~ given os "verbosity" -> (forall m, ~ given os (debug_flag m)) -> (forall s, In s help_flags -> ~ given os s) ->
  ~ given os "output-file" ->
  exists c pdf logs status d h f roles, engine e c pdf = Returned logs status d h /\
    wants_format os f /\ wants_roles os roles /\ format_text f d h roles (stdout_text acts).
Proof.
  intros e os acts HP HO H HL HV HD HH HOut. apply main_ok in H; [|assumption].
  destruct H as [(_ & _ & os' & s & HO' & Hs & G)|[[H _]|(os' & HO' & H)]]; [|discriminate|].
  - exfalso. rewrite HO in HO'. injection HO' as <-. exact (HH s Hs G).
  - rewrite HO in HO'. injection HO' as <-. destruct H as (c & pdf & HC & Hp & _ & H).
    destruct (engine e c pdf) as [logs status d h|logs|logs x] eqn:EE; [|destruct H; discriminate|destruct H].
    destruct H as [(H1 & H2 & _)|(_ & _ & f & roles & path & text & rest & Wf & Wr & Wp & HT & HN & ->)]; [lia|].
    exists c, pdf, logs, status, d, h, f, roles. split; [assumption|]. split; [assumption|]. split; [assumption|].
    rewrite visible_quiet.
    + destruct Wp as [[_ ->]|Wp]; [|exfalso; rewrite (not_given_tokens _ _ HOut) in Wp; discriminate].
      change (serialize (shell e) (can_open e) text (S_ "-")) with [Stdout text]. unfold stdout_text. cbn [map app concat].
      replace (concat (map _ rest)) with (@nil ascii); [rewrite app_nil_r; exact HT|]. symmetry.
      clear -HN. induction rest as [|a rest IH]; [reflexivity|]. cbn [map concat]. rewrite IH by (intros b Hb; apply HN; right; exact Hb).
      specialize (HN a (or_introl eq_refl)). destruct a; try destruct HN; reflexivity.
    + intros m l p t I. apply (HL _ _ _ _ _ _ EE) in I. destruct (cf_level _ _ _ HC m (HD m)) as (v & [[_ ->]|Wv] & Hv).
      * destruct Hv as [(n & Hn & En)|[_ ->]]; [|unfold INFO in I; lia]. exfalso. cbn in Hn.
        repeat (destruct Hn as [Hn|Hn]; [injection Hn as E1 _; subst n; vm_compute in En; discriminate En|]). destruct Hn.
      * exfalso. rewrite (not_given_tokens _ _ HV) in Wv. discriminate.
Qed.
Print Assumptions C40_quiet.
(** With --verbosity info the messages are mixed into the text on standard output; and a --debug-* switch hides the trace
    messages that --verbosity trace asks for. *)
Theorem C40_stdout_refuted : cli_main (cenv [o "pdf-file" ["x.pdf"]; o "verbosity" ["info"]] 0) =
  Ok (0%Z, map Eff [Stdout (S_ "words"); Stdout (S_ "a" ++ [nl; nl] ++ S_ "b" ++ [nl])]).
Proof. reflexivity. Qed.
Print Assumptions C40_stdout_refuted.
Theorem C40_debug_refuted : forall to_int os c, config_for to_int os c -> tokens os "verbosity" = [S_ "trace"] ->
  forall m, given os (debug_flag m) -> getostream (logLevel c m) (logPageFilter c) TRACE (-1) = NullStream.
Proof. intros to_int os c HC _ m G. rewrite (cf_debug _ _ _ HC m G). reflexivity. Qed.
Print Assumptions C40_debug_refuted.
Example C40_example : cli_main (cenv [o "pdf-file" ["x.pdf"]] 0) = Ok (0%Z, map Eff [Stdout (S_ "a" ++ [nl; nl] ++ S_ "b" ++ [nl])]).
Proof. reflexivity. Qed.

(** ** C41 Pipeline stops on unreadable input and honours disabled modules *)

(** If the file cannot be opened nothing is run and the document is unchanged. *)
Theorem C41_unreadable : forall {S} c code (run : modul -> S -> outcome S) l1 l2 s, process c (Some code) run l1 l2 s = Ok (code, s).
Proof. reflexivity. Qed.
Print Assumptions C41_unreadable.
(** Otherwise parsing and exactly the enabled steps are run, once each and in the documented order, up to the first
    failure; the status is 0. (The page's lines are refilled after line detection and at the end.) *)
Theorem C41_order : forall {S} c (run : modul -> S -> outcome S) l1 l2 s,
  process c None run l1 l2 s =
  do s' <- run_all (fun m s => if match m with MLines => true | _ => false end then do s <- run m s; Ok (l1 s) else run m s)
             (MParsing :: filter (fun m => negb (disabled c m)) pipeline) s;
  Ok (0%Z, l2 s').
Proof. intros. apply process_ok. Qed.
Print Assumptions C41_order.
(** What the steps see of each other: a run that only records which step was run. *)
Theorem C41_trace : forall c, process c None (fun m t => Ok (t ++ [m])) (fun t => t) (fun t => t) [] =
  Ok (0%Z, MParsing :: filter (fun m => negb (disabled c m)) pipeline).
Proof.
  intros c. rewrite process_ok. set (L := MParsing :: _).
  assert (G : forall l t, run_all (fun m s => if match m with MLines => true | _ => false end then do s <- Ok (s ++ [m]); Ok s else Ok (s ++ [m])) l t = Ok (t ++ l)).
  { induction l as [|m l IH]; intros t; [rewrite app_nil_r; reflexivity|]. cbn [run_all]. destruct m; cbn [obind]; rewrite IH, <- app_assoc; reflexivity. }
  rewrite G. reflexivity.
Qed.
Print Assumptions C41_trace.
(** Each --skip-* switch disables its step and nothing else does. *)
Theorem C41_skip : forall e os z acts, Permutation (sers e) SERIALIZERS -> parsed e = Ok os -> cli_main e = Ok (z, acts) ->
  ~ (z = 0%Z /\ In acts [[FullHelpMsg]; [HelpMsg]; [VersionMsg]]) -> ~ (exists w, acts = [ParseError w]) -> engine_run e os z acts.
Proof.
  intros e os z acts HP HO H N1 N2. apply main_ok in H; [|assumption].
  destruct H as [(A & B & _)|[[_ H]|(os' & HO' & H)]]; [tauto|tauto|]. rewrite HO in HO'. injection HO' as <-. exact H.
Qed.
Print Assumptions C41_skip.
Example C41_example : process (mkConf (fun m => match m with MWords | MDehyphenation => true | _ => false end) (fun _ => 4) (-1) false)
  None (fun m t => Ok (t ++ [m])) (fun t => t) (fun t => t) [] =
  Ok (0%Z, [MParsing; MGlyphStats; MDiacritics; MWordStats; MSegmentation; MLines; MScripts; MLineStats; MBlocks; MReadingOrder]).
Proof. reflexivity. Qed.

(** ** C42 Options without effect *)

(** Adding --no-dehyphenation, --no-scripts, --control-characters or --semantic-roles to any command line (that does not
    have it yet) changes nothing: neither the exit code, nor the configuration of the engine, nor what is written. *)
Theorem C42_no_effect : forall name e os, In name UNUSED -> parsed e = Ok os ->
  length (filter (fun o => str_eqb (fst o) (S_ name)) os) <= 1 -> cli_main e = cli_main (without name e os).
Proof. exact unused_ok. Qed.
Print Assumptions C42_no_effect.
Example C42_example : cli_main (cenv [o "pdf-file" ["x.pdf"]; o "no-dehyphenation" []; o "semantic-roles" []] 0) =
  Ok (0%Z, map Eff [Stdout (S_ "a" ++ [nl; nl] ++ S_ "b" ++ [nl])]).
Proof. reflexivity. Qed.

(** ** C55 Exit status *)
Theorem C55_exit : forall e z acts, Permutation (sers e) SERIALIZERS -> cli_main e = Ok (z, acts) ->
  (z = 0%Z /\ In acts [[FullHelpMsg]; [HelpMsg]; [VersionMsg]] /\ exists os s, parsed e = Ok os /\ In s help_flags /\ given os s) \/
  (z = 1%Z /\ exists why, acts = [ParseError why]) \/
  (exists os, parsed e = Ok os /\ engine_run e os z acts).
Proof. exact main_ok. Qed.
Print Assumptions C55_exit.
(** The exit code does not tell whether the output was written, and a negative status of the engine counts as success. *)
Theorem C55_unwritable_refuted : exists e acts, cli_main e = Ok (0%Z, acts) /\ tokens [o "pdf-file" ["x.pdf"]; o "output-file" ["/y"]] "output-file" = [S_ "/y"] /\
  parsed e = Ok [o "pdf-file" ["x.pdf"]; o "output-file" ["/y"]] /\ ~ (exists p t, In (Eff (WriteFile p t)) acts).
Proof.
  exists (mkEnv (Ok [o "pdf-file" ["x.pdf"]; o "output-file" ["/y"]]) (fun _ => None) SERIALIZERS (fun _ _ => Returned [] 0 cdoc cheap) (fun _ => 0%Z) (fun _ => false)).
  eexists. split; [reflexivity|]. split; [reflexivity|]. split; [reflexivity|]. intros (p & t & H). vm_compute in H. intuition discriminate.
Qed.
Print Assumptions C55_unwritable_refuted.
Theorem C55_negative_refuted : forall os, cli_main (cenv os (-1)) = cli_main (cenv os 0).
Proof.
  intros os. unfold cli_main, cenv. cbn [parsed sers to_int]. destruct (store _ _ vm0 os) as [vm err]. destruct err; [reflexivity|].
  destruct (is_some _); reflexivity.
Qed.
Print Assumptions C55_negative_refuted.
Example C55_example : cli_main (cenv [o "pdf-file" ["x.pdf"]] 4) = Ok (4%Z, []) /\
  cli_main (cenv [o "help" []; o "role" ["x"]] 0) = Ok (0%Z, [HelpMsg]) /\ cli_main (cenv [o "role" ["x"]; o "help" []] 0) = Ok (1%Z, [ParseError "invalid_option_value"]).
Proof. repeat split. Qed.
