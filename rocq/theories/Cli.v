(** Cli.v - src/Validators.cpp, src/utils/Log.cpp, src/PdfToTextPlusPlus.cpp (process) and src/pdftotext++.cpp (main).
    Boost.Program_options is modelled by its documented behaviour: the parser's result is a list of occurrences
    (option name, tokens), positional arguments already being turned into pdf-file and output-file; abbreviations and
    the tokenisation of argv are not modelled. *)
From Coq Require Import ZArith.
From Verif Require Import Base Document Serialization.
Local Open Scope string_scope. Local Open Scope list_scope. Local Open Scope nat_scope.

(** ** Validators *)

(** boost: validators::check_first_occurrence and get_single_string. *)
Definition check_first {A} (v : option A) : outcome unit :=
  match v with None => Ok tt | Some _ => Throw "multiple_occurrences" end.
Definition get_single (vals : list str) : outcome str :=
  match vals with [t] => Ok t | [] => Throw "at least one value required" | _ => Throw "multiple_values_not_allowed" end.

(** The search loops of the validators: the first index whose name is the token. *)
Fixpoint index_from (token : str) (names : list str) (i : nat) : option nat :=
  match names with
  | [] => None
  | n :: t => if str_eqb token n then Some i else index_from token t (S i)
  end.

(** src/PdfDocumentSerialization.h:31-35: an unordered_map; the entries are iterated in an unspecified order, which
    is the argument [sers] of the validator (any permutation of this list). *)
Definition SERIALIZERS : list (nat * serializer) := [(0, PlainText); (1, PlainTextExtended)].

(** src/Validators.cpp:42-49. *)
Fixpoint find_format (token : str) (sers : list (nat * serializer)) : outcome nat :=
  match sers with
  | [] => Throw "invalid_option_value"
  | (f, _) :: t => do n <- getSerializationFormatName f; if str_eqb token n then Ok f else find_format token t
  end.
(** src/Validators.cpp:34-50. *)
Definition validate_format (sers : list (nat * serializer)) (v : option nat) (vals : list str) : outcome nat :=
  do _ <- check_first v; do token <- get_single vals; find_format token sers.
(** src/Validators.cpp:53-69. *)
Definition validate_role (v : option nat) (vals : list str) : outcome nat :=
  do _ <- check_first v; do token <- get_single vals;
  match index_from token SEMANTIC_ROLE_NAMES 0 with Some i => Ok i | None => Throw "invalid_option_value" end.
(** src/Validators.cpp:72-88. *)
Definition validate_type (v : option nat) (vals : list str) : outcome nat :=
  do _ <- check_first v; do token <- get_single vals;
  match index_from token PDF_ELEMENT_TYPE_NAMES 0 with Some i => Ok i | None => Throw "invalid_option_value" end.
(** boost: validate for vector<T>: each token is validated on its own (with an empty any) and appended. *)
Fixpoint validate_vector (f : option nat -> list str -> outcome nat) (v : option (list nat)) (vals : list str) : outcome (list nat) :=
  match vals with
  | [] => Ok (match v with Some l => l | None => [] end)
  | t :: rest => do x <- f None [t]; validate_vector f (Some (match v with Some l => l | None => [] end ++ [x])) rest
  end.

(** ** Logging: src/utils/Log.h:41 and Log.cpp:72-87. TRACE .. ERROR are 0 .. 4. *)
Definition TRACE := 0. Definition DEBUG := 1. Definition INFO := 2. Definition WARN := 3. Definition ERROR := 4.
Inductive stream := NullStream | Cout.
Definition getostream (own : nat) (filter : Z) (level : nat) (pageNum : Z) : stream :=
  if level <? own then NullStream
  else if ((0 <? filter) && (0 <? pageNum) && negb (filter =? pageNum))%Z then NullStream
  else Cout.

(** ** The pipeline: src/PdfToTextPlusPlus.cpp:72-267 *)
Inductive modul := MParsing | MGlyphStats | MDiacritics | MWords | MWordStats | MSegmentation | MLines | MScripts
                 | MLineStats | MBlocks | MReadingOrder | MRoles | MDehyphenation.
Record config := mkConf { disabled : modul -> bool; logLevel : modul -> nat; logPageFilter : Z; skipFonts : bool }.

(** [not_ok] is Some code if Poppler cannot open the file; [run m] is what module [m] does to the document; [lines1]
    and [lines2] are the refills of page->textLines (183-190, 257-264). Timings: Timings.v. *)
Definition step {S} (c : config) (run : modul -> S -> outcome S) (m : modul) (s : S) : outcome S :=
  if Bool.eqb (disabled c m) false then run m s else Ok s.
Definition process {S} (c : config) (not_ok : option Z) (run : modul -> S -> outcome S) (lines1 lines2 : S -> S) (s : S) : outcome (Z * S) :=
  match not_ok with
  | Some code => Ok (code, s)                                                       (* 88-90 *)
  | None =>
    do s <- run MParsing s;                                                         (* 93-104 *)
    do s <- step c run MGlyphStats s;                                               (* 112-121 *)
    do s <- step c run MDiacritics s;                                               (* 124-133 *)
    do s <- step c run MWords s;                                                    (* 136-145 *)
    do s <- step c run MWordStats s;                                                (* 148-157 *)
    do s <- step c run MSegmentation s;                                             (* 160-169 *)
    do s <- (if Bool.eqb (disabled c MLines) false then do s <- run MLines s; Ok (lines1 s) else Ok s);  (* 172-191 *)
    do s <- step c run MScripts s;                                                  (* 194-203 *)
    do s <- step c run MLineStats s;                                                (* 206-215 *)
    do s <- step c run MBlocks s;                                                   (* 218-227 *)
    do s <- step c run MReadingOrder s;                                             (* 230-242 *)
    do s <- step c run MDehyphenation s;                                            (* 245-254 *)
    Ok (0%Z, lines2 s)                                                              (* 257-266 *)
  end.

(** ** main: src/pdftotext++.cpp:162-787 *)

(** The options with a switch (227-548). *)
Definition FLAGS : list str := map S_
  ["control-characters"; "semantic-roles"; "no-scripts"; "no-dehyphenation"; "visualize-characters"; "visualize-graphics";
   "visualize-figures"; "visualize-shapes"; "visualize-words"; "visualize-text-lines"; "visualize-text-blocks";
   "visualize-segments"; "visualize-segment-cuts"; "visualize-reading-order"; "visualize-reading-order-cuts"; "version";
   "help"; "debug-pdf-parsing"; "skip-embedded-font-files-parsing"; "debug-glyphs-statistics-calculation";
   "skip-glyphs-statistics-calculation"; "debug-diacritic-marks-merging"; "skip-diacritic-marks-merging";
   "debug-words-detection"; "skip-words-detection"; "debug-words-statistics-calculation"; "skip-words-statistics-calculation";
   "debug-page-segmentation"; "skip-page-segmentation"; "debug-text-lines-detection"; "skip-text-lines-detection";
   "debug-sub-super-scripts-detection"; "skip-sub-super-scripts-detection"; "debug-text-lines-statistics-calculation";
   "skip-text-lines-statistics-calculation"; "debug-text-blocks-detection"; "skip-text-blocks-detection";
   "debug-reading-order-detection"; "skip-reading-order-detection"; "debug-semantic-roles-prediction";
   "skip-semantic-roles-prediction"; "debug-words-dehyphenation"; "skip-words-dehyphenation"; "print-running-times";
   "full-help"]%string.
(** The options with a string value. *)
Definition STRINGS : list str := map S_ ["visualization-path"; "verbosity"; "pdf-file"; "output-file"]%string.

Definition occ : Type := str * list str.
(** The variables_map: switches given, format, roles, types, strings and the page filter stored so far. *)
Record vmap := mkVm { v_flags : list str; v_format : option nat; v_roles : option (list nat); v_types : option (list nat);
                      v_strs : list (str * str); v_filter : option Z }.
Definition vm0 : vmap := mkVm [] None None None [] None.
Definition mem_str (x : str) (l : list str) : bool := existsb (str_eqb x) l.
Definition assoc_str (k : str) (l : list (str * str)) : option str :=
  match find (fun kv => str_eqb k (fst kv)) l with Some kv => Some (snd kv) | None => None end.

(** boost: store one occurrence. [to_int] is lexical_cast<int>. *)
Definition store1 (sers : list (nat * serializer)) (to_int : str -> option Z) (vm : vmap) (o : occ) : outcome vmap :=
  let '(name, vals) := o in
  let 'mkVm fl fo ro ty st pf := vm in
  if mem_str name FLAGS then
    if mem_str name fl then Throw "multiple_occurrences" else Ok (mkVm (fl ++ [name]) fo ro ty st pf)
  else if str_eqb name (S_ "format") then do f <- validate_format sers fo vals; Ok (mkVm fl (Some f) ro ty st pf)
  else if str_eqb name (S_ "role") then do r <- validate_vector validate_role ro vals; Ok (mkVm fl fo (Some r) ty st pf)
  else if str_eqb name (S_ "type") then do t <- validate_vector validate_type ty vals; Ok (mkVm fl fo ro (Some t) st pf)
  else if mem_str name STRINGS then
    do _ <- check_first (assoc_str name st); do t <- get_single vals; Ok (mkVm fl fo ro ty (st ++ [(name, t)]) pf)
  else if str_eqb name (S_ "log-page-filter") then
    do _ <- check_first pf; do t <- get_single vals;
    match to_int t with Some z => Ok (mkVm fl fo ro ty st (Some z)) | None => Throw "invalid_option_value" end
  else Throw "unknown_option".
(** The result is the map filled so far and, if an exception was thrown, its message. *)
Fixpoint store (sers : list (nat * serializer)) (to_int : str -> option Z) (vm : vmap) (os : list occ) : vmap * option string :=
  match os with
  | [] => (vm, None)
  | o :: t => match store1 sers to_int vm o with Ok vm' => store sers to_int vm' t | UB w | Throw w => (vm, Some w) end
  end.

Inductive action := Eff (e : effect) | HelpMsg | FullHelpMsg | VersionMsg | ParseError (why : string)
                  | Visualize (what : list str) (path : str) | RunningTimes | InvalidArgument.

(** 611-615 *)
Definition level_of (verbosity : str) : nat :=
  let is (s : string) := str_eqb verbosity (S_ s) in
  let l := ERROR in
  let l := if is "trace" || is "TRACE" then TRACE else l in
  let l := if is "debug" || is "DEBUG" then DEBUG else l in
  let l := if is "info" || is "INFO" then INFO else l in
  if is "warn" || is "WARN" then WARN else l.

(** 617-670 *)
Definition config_of (vm : vmap) (level : nat) (filter : Z) : config :=
  let has (s : string) := mem_str (S_ s) (v_flags vm) in
  mkConf
    (fun m => match m with
      | MParsing => false
      | MGlyphStats => has "skip-glyphs-statistics-calculation"
      | MDiacritics => has "skip-diacritic-marks-merging"
      | MWords => has "skip-words-detection"
      | MWordStats => has "skip-words-statistics-calculation"
      | MSegmentation => has "skip-page-segmentation"
      | MLines => has "skip-text-lines-detection"
      | MScripts => has "skip-sub-super-scripts-detection"
      | MLineStats => has "skip-text-lines-statistics-calculation"
      | MBlocks => has "skip-text-blocks-detection"
      | MReadingOrder => has "skip-reading-order-detection"
      | MRoles => has "skip-semantic-roles-prediction"
      | MDehyphenation => has "skip-words-dehyphenation"
      end)
    (fun m => if match m with
      | MParsing => has "debug-pdf-parsing"
      | MGlyphStats => has "debug-glyphs-statistics-calculation"
      | MDiacritics => has "debug-diacritic-marks-merging"
      | MWords => has "debug-words-detection"
      | MWordStats => has "debug-words-statistics-calculation"
      | MSegmentation => has "debug-page-segmentation"
      | MLines => has "debug-text-lines-detection"
      | MScripts => has "debug-sub-super-scripts-detection"
      | MLineStats => has "debug-text-lines-statistics-calculation"
      | MBlocks => has "debug-text-blocks-detection"
      | MReadingOrder => has "debug-reading-order-detection"
      | MRoles => has "debug-semantic-roles-prediction"
      | MDehyphenation => has "debug-words-dehyphenation"
      end then DEBUG else level)
    filter (has "skip-embedded-font-files-parsing").

(** The messages that the modules log: module, level, page (or -1) and text. *)
Definition logmsg : Type := modul * nat * Z * str.
(** What engine.process does: returns a status (and leaves a document), throws std::invalid_argument, or something else
    goes wrong. *)
Inductive engine_result :=
| Returned (logs : list logmsg) (status : Z) (d : document) (h : heap)
| Invalid (logs : list logmsg)
| Crashed (logs : list logmsg) (o : outcome False).

Record env := mkEnv {
  parsed : outcome (list occ);                     (* command_line_parser(...).run() *)
  to_int : str -> option Z;
  sers : list (nat * serializer);
  engine : config -> str -> engine_result;         (* configuration and path of the PDF *)
  shell : str -> Z; can_open : str -> bool }.

Definition visible (c : config) (logs : list logmsg) : list action :=
  flat_map (fun m => let '(mo, level, page, text) := m in
    match getostream (logLevel c mo) (logPageFilter c) level page with Cout => [Eff (Stdout text)] | NullStream => [] end) logs.

(** src/utils/PdfElementsUtils.cpp:274-280: getSemanticRoles. *)
Definition ALL_ROLES : list nat := seq 0 (length SEMANTIC_ROLE_NAMES).

(** The visualisations requested (725-757). *)
Definition visualizations (vm : vmap) : list str :=
  filter (fun s => mem_str s (v_flags vm)) (map S_
    ["visualize-characters"; "visualize-figures"; "visualize-shapes"; "visualize-graphics"; "visualize-words";
     "visualize-text-lines"; "visualize-text-blocks"; "visualize-segments"; "visualize-reading-order";
     "visualize-segment-cuts"; "visualize-reading-order-cuts"]%string).

Definition get_str (vm : vmap) (k : string) (dflt : str) : str := match assoc_str (S_ k) (v_strs vm) with Some s => s | None => dflt end.

(** 583-786: after the options were parsed. *)
Definition run_main (e : env) (vm : vmap) : outcome (Z * list action) :=
  let has (s : string) := mem_str (S_ s) (v_flags vm) in
  if has "full-help" then Ok (0%Z, [FullHelpMsg])                                   (* 584-587 *)
  else if has "help" then Ok (0%Z, [HelpMsg])                                       (* 590-593 *)
  else if has "version" then Ok (0%Z, [VersionMsg])                                 (* 596-599 *)
  else
    let filter := match v_filter vm with Some z => z | None => (-1)%Z end in        (* 219 *)
    let c := config_of vm (level_of (get_str vm "verbosity" (S_ "error"))) filter in
    match engine e c (get_str vm "pdf-file" []) with
    | Crashed _ (UB w) => UB w
    | Crashed _ (Throw w) => Throw w
    | Crashed _ (Ok _) => UB "impossible"
    | Invalid logs => Ok (3%Z, visible c logs ++ [InvalidArgument])                 (* 681-684 *)
    | Returned logs status d h =>
      if (0 <? status)%Z then Ok (status, visible c logs)                           (* 687-689 *)
      else
        let format := match v_format vm with Some f => f | None => 0 end in         (* 170 *)
        let roles := match v_roles vm with Some r => r | None => ALL_ROLES end in   (* 172 *)
        do out <- match getSerializer format with                                   (* 710-715 *)
                  | Some s => do text <- run_serializer s d h roles;
                              Ok (map Eff (serialize (shell e) (can_open e) text (get_str vm "output-file" (S_ "-"))))
                  | None => Ok []
                  end;
        let vis := match get_str vm "visualization-path" [] with                     (* 722-762 *)
                   | [] => []
                   | p => [Visualize (visualizations vm) p]
                   end in
        let times := if has "print-running-times" then [RunningTimes] else [] in    (* 765-784 *)
        Ok (0%Z, visible c logs ++ out ++ vis ++ times)                             (* 786 *)
    end.

(** 559-581 and the rest: returns the exit code and what was done. *)
Definition cli_main (e : env) : outcome (Z * list action) :=
  let '(vm, err) := match parsed e with
    | Ok os => let '(vm, err) := store (sers e) (to_int e) vm0 os in
               (vm, match err with
                    | None => if is_some (assoc_str (S_ "pdf-file") (v_strs vm)) then None else Some "required_option"%string
                    | Some w => Some w
                    end)
    | UB w | Throw w => (vm0, Some w)
    end in
  match err with
  | Some w =>
      let has (s : string) := mem_str (S_ s) (v_flags vm) in
      if has "full-help" then Ok (0%Z, [FullHelpMsg])                               (* 563-567 *)
      else if has "help" then Ok (0%Z, [HelpMsg])                                   (* 568-572 *)
      else if has "version" then Ok (0%Z, [VersionMsg])                             (* 573-577 *)
      else Ok (1%Z, [ParseError w])                                                 (* 578-580 *)
  | None => run_main e vm
  end.
