(** CliSpec.v - specification for the command line and the pipeline. *)
From Coq Require Import ZArith.
From Verif Require Import Base Document Serialization Cli.
Local Open Scope string_scope. Local Open Scope list_scope. Local Open Scope nat_scope.

(** Value [i] of an enumeration has the name [t]. *)
Definition has_name (names : list str) (i : nat) (t : str) : Prop := nth_error names i = Some t.

(** The tokens given for an option on the command line, in order, and whether it is given. *)
Definition given (os : list occ) (name : string) : Prop := exists vals, In (S_ name, vals) os.
Definition tokens (os : list occ) (name : string) : list str :=
  concat (map snd (filter (fun o => str_eqb (fst o) (S_ name)) os)).

(** The format, output path and roles that a command line asks for (txt, standard output and all roles by default). *)
Definition wants_format (os : list occ) (f : nat) : Prop :=
  (~ given os "format" /\ f = 0) \/ (exists t, tokens os "format" = [t] /\ has_name (map S_ ["txt"; "txt-extended"]) f t).
Definition wants_path (os : list occ) (p : str) : Prop :=
  (~ given os "output-file" /\ p = S_ "-") \/ tokens os "output-file" = [p].
Definition wants_roles (os : list occ) (r : list nat) : Prop :=
  (~ given os "role" /\ r = seq 0 14) \/ (given os "role" /\ Forall2 (fun t i => has_name SEMANTIC_ROLE_NAMES i t) (tokens os "role") r).

(** The steps of the pipeline in their documented order. *)
Definition pipeline : list modul :=
  [MGlyphStats; MDiacritics; MWords; MWordStats; MSegmentation; MLines; MScripts; MLineStats; MBlocks; MReadingOrder; MDehyphenation].
(** The switch that disables a step. *)
Definition skip_flag (m : modul) : option string :=
  match m with
  | MParsing => None
  | MGlyphStats => Some "skip-glyphs-statistics-calculation"
  | MDiacritics => Some "skip-diacritic-marks-merging"
  | MWords => Some "skip-words-detection"
  | MWordStats => Some "skip-words-statistics-calculation"
  | MSegmentation => Some "skip-page-segmentation"
  | MLines => Some "skip-text-lines-detection"
  | MScripts => Some "skip-sub-super-scripts-detection"
  | MLineStats => Some "skip-text-lines-statistics-calculation"
  | MBlocks => Some "skip-text-blocks-detection"
  | MReadingOrder => Some "skip-reading-order-detection"
  | MRoles => Some "skip-semantic-roles-prediction"
  | MDehyphenation => Some "skip-words-dehyphenation"
  end.
Definition debug_flag (m : modul) : string :=
  match m with
  | MParsing => "debug-pdf-parsing"
  | MGlyphStats => "debug-glyphs-statistics-calculation"
  | MDiacritics => "debug-diacritic-marks-merging"
  | MWords => "debug-words-detection"
  | MWordStats => "debug-words-statistics-calculation"
  | MSegmentation => "debug-page-segmentation"
  | MLines => "debug-text-lines-detection"
  | MScripts => "debug-sub-super-scripts-detection"
  | MLineStats => "debug-text-lines-statistics-calculation"
  | MBlocks => "debug-text-blocks-detection"
  | MReadingOrder => "debug-reading-order-detection"
  | MRoles => "debug-semantic-roles-prediction"
  | MDehyphenation => "debug-words-dehyphenation"
  end.

(** Running steps one after the other, stopping at the first failure. *)
Fixpoint run_all {S} (run : modul -> S -> outcome S) (ms : list modul) (s : S) : outcome S :=
  match ms with [] => Ok s | m :: t => do s' <- run m s; run_all run t s' end.

(** Everything that a run wrote to standard output as a message or as text. *)
Definition stdout_text (acts : list action) : str :=
  concat (map (fun a => match a with Eff (Stdout s) => s | _ => [] end) acts).

(** The log level that a value of --verbosity stands for (0 = trace ... 4 = error); other values mean error. *)
Definition level_names : list (string * nat) :=
  [("trace", 0); ("TRACE", 0); ("debug", 1); ("DEBUG", 1); ("info", 2); ("INFO", 2); ("warn", 3); ("WARN", 3)].
Definition is_level (v : str) (l : nat) : Prop :=
  (exists n, In (n, l) level_names /\ v = S_ n) \/ ((forall n k, In (n, k) level_names -> v <> S_ n) /\ l = 4).
(** The configuration that a command line asks for. *)
Record config_for (to_int : str -> option Z) (os : list occ) (c : config) : Prop := {
  cf_disabled : forall m, disabled c m = true <-> exists s, skip_flag m = Some s /\ given os s;
  cf_debug : forall m, given os (debug_flag m) -> logLevel c m = 1;
  cf_level : forall m, ~ given os (debug_flag m) ->
    exists v, ((~ given os "verbosity" /\ v = S_ "error") \/ tokens os "verbosity" = [v]) /\ is_level v (logLevel c m);
  cf_filter : (~ given os "log-page-filter" /\ logPageFilter c = (-1)%Z) \/
    (exists t, tokens os "log-page-filter" = [t] /\ to_int t = Some (logPageFilter c));
  cf_fonts : skipFonts c = true <-> given os "skip-embedded-font-files-parsing" }.

(** The text written in a format: 0 is txt, 1 is txt-extended. *)
Definition format_text (f : nat) (d : document) (h : heap) (roles : list nat) (text : str) : Prop :=
  (f = 0 /\ plain_serialize d h roles [] = text) \/ (f = 1 /\ ext_serialize d h roles [] = Ok text).

(** The switches that make the program print something instead of running; actions that write neither text nor messages. *)
Definition help_flags : list string := ["full-help"; "help"; "version"].
Definition no_effects (acts : list action) : Prop := forall a, In a acts -> match a with Visualize _ _ | RunningTimes => True | _ => False end.

(** Four documented switches, and a command line without a given option. *)
Definition UNUSED : list string := ["no-dehyphenation"; "no-scripts"; "control-characters"; "semantic-roles"].
Definition without (name : string) (e : env) (os : list occ) : env :=
  mkEnv (Ok (filter (fun o => negb (str_eqb (fst o) (S_ name))) os)) (to_int e) (sers e) (engine e) (shell e) (can_open e).

(** What a run does after the options were accepted: the engine is called once, with the configuration and the path that
    the command line asks for, and its result decides the exit code and what is written. *)
Definition engine_run (e : env) (os : list occ) (z : Z) (acts : list action) : Prop :=
  exists c pdf, config_for (to_int e) os c /\ tokens os "pdf-file" = [pdf] /\ (forall s, In s help_flags -> ~ given os s) /\
    match engine e c pdf with
    | Crashed _ _ => False
    | Invalid logs => z = 3%Z /\ acts = visible c logs ++ [InvalidArgument]
    | Returned logs status d h =>
       ((0 < status)%Z /\ z = status /\ acts = visible c logs) \/
       ((status <= 0)%Z /\ z = 0%Z /\ exists f roles path text rest,
          wants_format os f /\ wants_roles os roles /\ wants_path os path /\ format_text f d h roles text /\ no_effects rest /\
          acts = visible c logs ++ map Eff (serialize (shell e) (can_open e) text path) ++ rest)
    end.
