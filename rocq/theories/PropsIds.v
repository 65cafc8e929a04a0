(** PropsIds.v - C83: the random identifiers and the contents of uninitialised memory do not influence the output. *)
From Coq Require Import ZArith NArith.
From Verif Require Import Base Double MathUtils Sort Elements XYCut Document Serialization Cli CliSpec Pipeline PipelineSpec Program ProgramSpec IdsSpec IdsXY IdsOrder IdsStages IdsStages2 IdsProgram.
From Verif Require Parsing Words XYCutProofs PropsPipeline PropsContent PropsProgram CliProofs ReadingOrder Roles Float.
Local Open Scope string_scope. Local Open Scope list_scope. Local Open Scope nat_scope.
Local Opaque TOL dadd dsub ddiv dmul dec DBL_MAX DBL_MIN.

(** Whatever the random strings, the engine fails in the same way or finds the same document, up to the identifiers in it. *)
Theorem C83_identifiers m cid wid fid bid cfg c es : blind_sort (m_sortR m) -> blind_top (m_topR m) ->
  up_to_ids (process_pdf (other_ids m cid wid fid bid) cfg c es) = up_to_ids (process_pdf m cfg c es).
Proof.
  intros HS HT. unfold process_pdf. rewrite (process_E m cfg c None es gdoc_init HS HT). exact (process_E (other_ids m cid wid fid bid) cfg c None es gdoc_init HS HT).
Qed.

(** The contents of the memory of new blocks do not matter if the detection of the reading order runs. *)
Theorem C83_memory m junk cfg c es : disabled c MReadingOrder = false ->
  process_pdf (other_memory m junk) cfg c es = process_pdf m cfg c es.
Proof. intros H. apply process_memory, H. Qed.

(** The program prints the same text and does the same things, whatever the random strings ... *)
Theorem C83_program_ids w args (cid : bool -> Z -> str) (wid : bool -> Z -> Z -> str) (fid : bool -> Z -> nat -> str) (bid : bool -> Z -> Z -> str) :
  (forall b, blind_sort (m_sortR (w_machine w b)) /\ blind_top (m_topR (w_machine w b))) ->
  program (world_with w (fun b => other_ids (w_machine w b) (cid b) (wid b) (fid b) (bid b))) args = program w args.
Proof.
  intros B. unfold program. apply cli_main_alike. intros vm os E ST c p _. apply engine_ids; [exact B| |reflexivity..]. intros b. reflexivity.
Qed.
(** ... and whatever the memory contains, unless --skip-reading-order-detection is given. *)
Theorem C83_program_memory w os (junk : bool -> Z -> Z -> nat) : Permutation (w_sers w) SERIALIZERS -> ~ given os "skip-reading-order-detection" ->
  program (world_with w (fun b => other_memory (w_machine w b) (junk b))) (Ok os) = program w (Ok os).
Proof.
  intros HP G. unfold program. apply cli_main_alike. intros vm os' E ST c p D. injection E as <-.
  assert (RO : disabled c MReadingOrder = false).
  { destruct (disabled c MReadingOrder); [|reflexivity]. exfalso. apply G. apply (CliProofs.has_given (w_toInt w) os vm); [|reflexivity|exact (D eq_refl)].
    exact (CliProofs.store_stored _ _ HP os [] vm0 vm (CliProofs.stored0 _) ST). }
  unfold the_engine. cbn [world_with w_machine w_words w_open w_logs]. destruct (match w_open w p with Unreadable code => (Some code, []) | Calls es => (None, es) end) as [no es].
  rewrite (process_memory _ _ _ _ _ _ _ RO). destruct (Cli.process c no _ _ _ gdoc_init) as [[st d]|y|y]; [|apply alike_refl..].
  cbn [alike]. split; [reflexivity|]. split; [reflexivity|]. intros z roles. reflexivity.
Qed.

(** *** The hypotheses can be met: insertion sort, and a queue that looks for the first element that no element exceeds. *)
Lemma isort_blind {A} : blind_sort (@isort A).
Proof.
  intros f lt l. unfold isort. assert (G : forall acc, map f (isort_rev (fun a b => lt (f a) (f b)) acc l) = isort_rev lt (map f acc) (map f l)); [|exact (G [])].
  induction l as [|x t IH]; intros acc; [reflexivity|]. cbn [map isort_rev]. rewrite IH. f_equal. clear.
  induction acc as [|y r IH]; [reflexivity|]. cbn [map insert_sorted]. destruct (lt (f x) (f y)); [reflexivity|]. cbn [map]. now rewrite IH.
Qed.
Lemma top_first_blind {A} : blind_top (@XYCutProofs.top_first A).
Proof.
  intros f lt q. unfold XYCutProofs.top_first.
  assert (G : forall l, XYCutProofs.first_where (fun x => forallb (fun y => negb (lt (f x) (f y))) q) l = XYCutProofs.first_where (fun x => forallb (fun y => negb (lt x y)) (map f q)) (map f l)); [|apply G].
  induction l as [|x t IH]; [reflexivity|]. cbn [map XYCutProofs.first_where]. rewrite forallb_map, IH. reflexivity.
Qed.
Import PropsPipeline PropsContent PropsProgram.
(** Without the reading order, the roles of the blocks are what happens to be in the memory: the text is printed or not. *)
Definition skips_order : list occ := [o "pdf-file" ["x.pdf"]; o "skip-reading-order-detection" []].
Theorem C83_memory_refuted : exists w junk, (forall b, sane (w_machine w b)) /\ Permutation (w_sers w) SERIALIZERS /\
  program w (Ok skips_order) = Ok (0%Z, [Eff (Stdout (S_ "abcde" ++ [nl]))]) /\
  program (world_with w (fun b => other_memory (w_machine w b) junk)) (Ok skips_order) = Ok (0%Z, [Eff (Stdout [nl])]).
Proof.
  exists (ex_world ex_bpe), (fun _ _ => 77). split; [apply ex_world_sane|]. split; [reflexivity|]. split; vm_compute; reflexivity.
Qed.

(** Two runs with different random strings and memory: the documents hold different ids, the text is the same. *)
Definition named (w : world) : world :=
  world_with w (fun b => other_memory (other_ids (w_machine w b) (fun _ => S_ "c") (fun _ _ => S_ "w") (fun _ _ => S_ "f") (fun _ _ => S_ "b")) (fun _ _ => 77)).
Example C83_example : let w := ex_world ex_bpe in
  (forall b, blind_sort (m_sortR (w_machine w b)) /\ blind_top (m_topR (w_machine w b))) /\
  match ex_run ex_hyph, process_pdf (other_ids ex_machine (fun _ => S_ "c") (fun _ _ => S_ "w") (fun _ _ => S_ "f") (fun _ _ => S_ "b")) Words.default_words_config ex_all ex_hyph with
  | Ok (_, d), Ok (_, d') => map w_id (gd_words d) = [[]; []] /\ map w_id (gd_words d') = [S_ "w"; S_ "w"] /\
      map c_id (flat_map w_chars (gd_words d')) = repeat (S_ "c") 6 /\ map b_id (flat_map g_blocks (gd_pages d')) = [S_ "b"] /\ map w_text (gd_words d') = map w_text (gd_words d)
  | _, _ => False
  end /\
  program (named w) (Ok (path_only (S_ "x.pdf"))) = Ok (0%Z, [Eff (Stdout (S_ "abcde" ++ [nl]))]) /\ program (named w) (Ok (path_only (S_ "x.pdf"))) = program w (Ok (path_only (S_ "x.pdf"))).
Proof.
  split; [intros b; split; [exact isort_blind|exact top_first_blind]|]. split; [|split; vm_compute; reflexivity].
  vm_compute. repeat match goal with |- _ /\ _ => split end; reflexivity.
Qed.
Print Assumptions C83_identifiers.
Print Assumptions C83_memory.
Print Assumptions C83_program_ids.
Print Assumptions C83_program_memory.
Print Assumptions C83_memory_refuted.
