(** SelectionSpec.v - vocabulary for the statements about several runs on the same file (C86). *)
From Coq Require Import ZArith NArith.
From Verif Require Import Base Document Serialization Cli CliSpec SerializationSpec.
Local Open Scope string_scope. Local Open Scope list_scope. Local Open Scope nat_scope.

(** A block of the extracted text: its role, whether it is emphasized, and its words. *)
Record text_block := mkTB { tb_role : nat; tb_emph : bool; tb_words : list str }.
Definition role_name (b : text_block) (t : str) : Prop := nth_error SEMANTIC_ROLE_NAMES (tb_role b) = Some t.

(** The text of a block in the format txt (words separated by blanks), and the same in the format txt-extended (behind the name of the role
    in capitals; emphasized blocks are marked by the character 1). *)
Definition plain_of (b : text_block) : str := intercalate [" "%char] (tb_words b).
Definition marked_of (b : text_block) : str :=
  S_ "[" ++ map upper (nth (tb_role b) SEMANTIC_ROLE_NAMES []) ++ S_ "] " ++ (if tb_emph b then ["001"%char] else []) ++ plain_of b.
(** The pages of a text: blocks are separated by empty lines; in the format txt-extended a newline and a form feed follow on each page. *)
Definition txt (pages : list (list text_block)) : str :=
  intercalate [nl; nl] (map plain_of (concat pages)) ++ [nl].
Fixpoint txt_pages (first : bool) (pages : list (list text_block)) : str :=
  match pages with
  | [] => []
  | [] :: t => [nl; ff] ++ txt_pages first t
  | p :: t => (if first then [] else [nl; nl]) ++ intercalate [nl; nl] (map marked_of p) ++ [nl; ff] ++ txt_pages false t
  end.
Definition txt_extended (pages : list (list text_block)) : str := txt_pages true pages ++ [nl].
Definition in_format (os : list occ) (pages : list (list text_block)) (text : str) : Prop :=
  ((~ given os "format" \/ tokens os "format" = [S_ "txt"]) /\ text = txt pages) \/
  (tokens os "format" = [S_ "txt-extended"] /\ text = txt_extended pages).

(** The command line asks for the block: its role is a known one, and all roles or this role were asked for. *)
Definition asks_for (os : list occ) (b : text_block) : Prop :=
  exists t, role_name b t /\ (given os "role" -> In t (tokens os "role")).
(** [l'] consists of those elements of [l] that satisfy [P], in the same order. *)
Inductive only {A} (P : A -> Prop) : list A -> list A -> Prop :=
  | only_nil : only P [] []
  | only_take x l l' : P x -> only P l l' -> only P (x :: l) (x :: l')
  | only_skip x l l' : ~ P x -> only P l l' -> only P (x :: l) l'.

(** The text reaches its destination: standard output, or the file if its directory can be made and the file can be opened; apart from
    messages, visualisations and running times nothing else is written. *)
Definition is_log (a : action) : Prop := exists s, a = Eff (Stdout s).
Definition delivers (shell : str -> Z) (can_open : str -> bool) (os : list occ) (text : str) (acts : list action) : Prop :=
  exists logs rest, (forall a, In a logs -> is_log a) /\ no_effects rest /\
    (((~ given os "output-file" \/ tokens os "output-file" = [S_ "-"]) /\ acts = logs ++ Eff (Stdout text) :: rest) \/
     (exists path dir, tokens os "output-file" = [path] /\ path <> S_ "-" /\ dir_of path dir /\
        let cmd := S_ "mkdir -p " ++ dir in
        ((shell cmd = 0%Z /\ can_open path = true /\ acts = logs ++ Eff (Shell cmd) :: Eff (WriteFile path text) :: rest) \/
         ((shell cmd <> 0%Z \/ can_open path = false) /\ exists msg, acts = logs ++ Eff (Shell cmd) :: Eff (Stderr msg) :: rest)))).

(** Two command lines that skip the same steps of the extraction. *)
Definition same_steps (os os' : list occ) : Prop :=
  (forall m s, skip_flag m = Some s -> given os s <-> given os' s) /\
  (given os "skip-embedded-font-files-parsing" <-> given os' "skip-embedded-font-files-parsing").
