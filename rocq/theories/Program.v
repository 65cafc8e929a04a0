(** Program.v - the whole program: command line (Cli.v), engine (Pipeline.v) and output (Serialization.v) put together.
    Models src/pdftotext++.cpp:162-787 (main) and src/PdfToTextPlusPlus.cpp:72-267 (process). *)
From Coq Require Import ZArith NArith.
From Verif Require Import Base Document Serialization Cli Pipeline.
From Verif Require Parsing Words.

(** What Poppler makes of the file (src/PdfToTextPlusPlus.cpp:79-98): it cannot be opened (pdfDoc->isOk() is false, with this error
    code), or its pages are displayed, which results in these calls of the output device. *)
Inductive source := Unreadable (code : Z) | Calls (es : list Parsing.event).

(** The world around the program. [w_machine] is indexed by the option --skip-embedded-font-files-parsing, which is the only part of the
    configuration that is not a module to skip or a log level (src/pdftotext++.cpp:604-670). [w_logs]: what the modules
    log. *)
Record world := mkWorld {
  w_machine : bool -> machine; w_words : Words.words_config; w_open : str -> source; w_logs : config -> str -> list logmsg;
  w_toInt : str -> option Z; w_sers : list (nat * serializer); w_shell : str -> Z; w_canOpen : str -> bool }.

(** src/pdftotext++.cpp:672-684 and src/PdfToTextPlusPlus.cpp:72-267: an std::invalid_argument is caught, everything else is not. *)
Definition the_engine (w : world) (c : config) (path : str) : engine_result :=
  let m := w_machine w (skipFonts c) in
  let '(not_ok, es) := match w_open w path with Unreadable code => (Some code, []) | Calls es => (None, es) end in
  match Cli.process c not_ok (run_module m (w_words w) es) fill_lines1 fill_lines2 gdoc_init with
  | Ok (status, d) => Returned (w_logs w c path) status (the_document m d) (word_heap (gd_words d))
  | Throw why => if String.eqb why "invalid_argument" then Invalid (w_logs w c path) else Crashed (w_logs w c path) (Throw why)
  | UB why => Crashed (w_logs w c path) (UB why)
  end.

(** The program, run with the options [args] (as Boost.Program_options delivers them). *)
Definition program (w : world) (args : outcome (list occ)) : outcome (Z * list action) :=
  cli_main (mkEnv args (w_toInt w) (w_sers w) (the_engine w) (w_shell w) (w_canOpen w)).
