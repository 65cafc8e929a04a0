(** ProgramSpec.v - vocabulary for the statements about the whole program (C76). *)
From Coq Require Import ZArith NArith.
From Verif Require Import Base Document Cli CliSpec SerializationSpec Pipeline PipelineSpec Program.
From Verif Require Parsing Words.
Local Open Scope string_scope. Local Open Scope list_scope. Local Open Scope nat_scope.

(** The program is run on the file [path], without --help and the like, and with text extraction. *)
Definition runs_on (os : list occ) (path : str) : Prop :=
  tokens os "pdf-file" = [path] /\ (forall s, In s help_flags -> ~ given os s).
Definition extracts_text (os : list occ) : Prop :=
  ~ given os "skip-words-detection" /\ ~ given os "skip-page-segmentation" /\ ~ given os "skip-text-lines-detection" /\
  ~ given os "skip-text-blocks-detection" /\ ~ given os "skip-reading-order-detection".
(** Everything is printed, as plain text, to standard output, and nothing else. *)
Definition prints_all (os : list occ) : Prop := ~ given os "format" /\ ~ given os "role" /\ ~ given os "output-file".
Definition quiet (os : list occ) : Prop := ~ given os "verbosity" /\ forall x, ~ given os (debug_flag x).
(** The modules log at level info or below only. *)
Definition harmless_logs (w : world) : Prop := forall c path x l p t, In (x, l, p, t) (w_logs w c path) -> l <= 2.

(** A text: blocks of words; the words of a block are separated by blanks, the blocks by empty lines. *)
Definition laid_out (text : str) (blocks : list (list str)) : Prop :=
  text = intercalate [nl; nl] (map (intercalate [" "%char]) blocks) ++ [nl].
(** The text of the characters of a word. *)
Definition letters (cs : list character) : str := concat (map char_text cs).
(** Word number [i] of [ws] is printed as [k]: with all of its letters; without its final hyphen; or not at all, which
    can only happen if the two words before it end with hyphens. *)
Definition printed_as (ws : list (list character)) (i : nat) (k : str) : Prop :=
  k = letters (nth i ws []) \/ (k <> [] /\ letters (nth i ws []) = k ++ ["-"%char]) \/
  (k = [] /\ 2 <= i /\ hyphenated (letters (nth (i - 1) ws [])) /\ hyphenated (letters (nth (i - 2) ws []))).

(** The characters of a document that were not merged into another one (as accents). *)
Definition characters (d : gdoc) : list character := flat_map visible_chars (gd_pages d).

(** The command line that consists of the path of the PDF only, and what it stands for: no module is skipped, log level "error". *)
Definition path_only (path : str) : list occ := [(S_ "pdf-file", [path])].
Definition default_config : config := mkConf (fun _ => false) (fun _ => 4) (-1)%Z false.
