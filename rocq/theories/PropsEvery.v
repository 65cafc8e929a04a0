(** PropsEvery.v - C76_every_command_line: the program ends properly whatever its command line is. *)
From Coq Require Import ZArith NArith Permutation.
From Verif Require Import Base Double MathUtils Elements Document Serialization SerializationSpec Cli CliSpec Pipeline PipelineSpec PipelineLines TotalSpec LegibleSpec Program ProgramSpec PropsLegible.
From Verif Require Fonts Parsing Roles RolesSpec PropsSelection PropsPipeline.
Local Opaque TOL dadd dsub ddiv dmul DBL_MAX DBL_MIN.

(** The libraries and files the program works with are in order: the fonts are read by PdfFontInfoParser, the decoder of texts
    works piece by piece, the vocabulary files can be read, and the network returns as many rows as it is given. *)
Definition in_order (m : machine) : Prop :=
  sane m /\ reads_fonts m /\ piecewise (m_fromBytes m) /\
  (exists p, Roles.readModel (m_fuel m) (m_bpe m) (m_roles m) Roles.new_predictor = Some (Ok tt, p)) /\
  (forall layout words, length (fst (m_network m layout words)) = Z.to_nat (fst (snd layout)) * snd (m_network m layout words)).
(** The file cannot be opened, or it is an ordinary, legible document. *)
Definition convertible (m : machine) (s : source) : Prop :=
  match s with
  | Unreadable _ => True
  | Calls es => exists r k, Parsing.parse_events (m_parseFont m) (m_mapUnicode m) (m_fromBytes m) (m_iswspace m) (m_charId m) es = Ok r /\
                  ordinary r /\ forall q, In q (Parsing.pages r) -> legible m k q
  end.

Lemma index_from_lt x l : forall k i, index_from x l k = Some i -> i < k + length l.
Proof.
  induction l as [|y l IH]; intros k i; cbn [index_from length]; [discriminate|]. destruct (str_eqb x y); [intros [= <-]; lia|]. intros H. apply IH in H. lia.
Qed.
Lemma role_lt vals : forall v r, match v with Some l => Forall (fun r => r < 14) l | None => True end -> validate_vector validate_role v vals = Ok r -> Forall (fun r => r < 14) r.
Proof.
  induction vals as [|t rest IH]; intros v r HV H; cbn [validate_vector] in H.
  - apply Ok_inj in H. subst r. destruct v; [exact HV|constructor].
  - destruct (validate_role None [t]) as [x| |] eqn:E; try discriminate. cbn [obind] in H. apply IH in H; [exact H|]. apply Forall_app. split; [destruct v; [exact HV|constructor]|].
    constructor; [|constructor]. unfold validate_role in E. cbn [check_first get_single obind] in E. destruct (index_from t SEMANTIC_ROLE_NAMES 0) as [i|] eqn:EI; [|discriminate]. apply Ok_inj in E. subst i.
    apply index_from_lt in EI. exact EI.
Qed.
Definition roles_good (vm : vmap) : Prop := match v_roles vm with Some l => Forall (fun r => r < 14) l | None => True end.
Lemma store_roles se ti os : forall vm, roles_good vm -> roles_good (fst (store se ti vm os)).
Proof.
  induction os as [|[name vals] os IH]; intros vm G; cbn [store]; [exact G|]. destruct (store1 se ti vm (name, vals)) as [vm'| |] eqn:E; [|exact G..]. apply IH. clear IH.
  destruct vm as [fl fo ro ty st pf]. unfold roles_good in G. cbn [v_roles] in G. unfold store1 in E.
  destruct (mem_str name FLAGS). { destruct (mem_str name fl); [discriminate|]. apply Ok_inj in E. subst vm'. exact G. }
  destruct (str_eqb name (S_ "format")). { destruct (validate_format se fo vals); try discriminate. cbn [obind] in E. apply Ok_inj in E. subst vm'. exact G. }
  destruct (str_eqb name (S_ "role")). { destruct (validate_vector validate_role ro vals) as [r| |] eqn:ER; try discriminate. cbn [obind] in E. apply Ok_inj in E. subst vm'. exact (role_lt _ _ _ G ER). }
  destruct (str_eqb name (S_ "type")). { destruct (validate_vector validate_type ty vals); try discriminate. cbn [obind] in E. apply Ok_inj in E. subst vm'. exact G. }
  destruct (mem_str name STRINGS).
  { destruct (check_first (assoc_str name st)); try discriminate. cbn [obind] in E. destruct (get_single vals); try discriminate. cbn [obind] in E. apply Ok_inj in E. subst vm'. exact G. }
  destruct (str_eqb name (S_ "log-page-filter")); [|discriminate].
  destruct (check_first pf); try discriminate. cbn [obind] in E. destruct (get_single vals) as [t| |]; try discriminate. cbn [obind] in E. destruct (ti t); [|discriminate]. apply Ok_inj in E. subst vm'. exact G.
Qed.

(** Whatever the command line is - understood or not, with any switches, formats, roles, log levels -, and whichever file it names: the
    program comes to its end with an exit code, by itself: no exception gets out of main, there is no undefined behaviour and no endless
    loop. The exit code is 0, or 1 (the command line was not understood), or Poppler's error code of the file. In particular, it
    isn't 3 (an std::invalid_argument). *)
Theorem C76_every_command_line : forall w args, (forall b, in_order (w_machine w b)) -> (forall b path, convertible (w_machine w b) (w_open w path)) ->
  exists status acts, program w args = Ok (status, acts) /\
    (status = 0%Z \/ status = 1%Z \/ exists path code, w_open w path = Unreadable code /\ (0 < code)%Z /\ status = code).
Proof.
  intros w args IO CV. unfold program, cli_main. cbn [parsed sers to_int].
  assert (X : exists vm err, (match args with
    | Ok os => let '(vm, err) := store (w_sers w) (w_toInt w) vm0 os in
               (vm, match err with None => if is_some (assoc_str (S_ "pdf-file") (v_strs vm)) then None else Some "required_option"%string | Some w => Some w end)
    | UB w | Throw w => (vm0, Some w) end) = (vm, err) /\ roles_good vm).
  { destruct args as [os|x|x]; [|exists vm0, (Some x); split; [reflexivity|exact I]..].
    pose proof (store_roles (w_sers w) (w_toInt w) os vm0 I) as G. destruct (store (w_sers w) (w_toInt w) vm0 os) as [vm err]. eexists vm, _. split; [reflexivity|exact G]. }
  destruct X as (vm & err & -> & G). cbv zeta.
  destruct err as [why|].
  { destruct (mem_str (S_ "full-help") (v_flags vm)); [eexists _, _; split; [reflexivity|tauto]|]. destruct (mem_str (S_ "help") (v_flags vm)); [eexists _, _; split; [reflexivity|tauto]|].
    destruct (mem_str (S_ "version") (v_flags vm)); eexists _, _; split; [reflexivity|tauto|reflexivity|tauto]. }
  unfold run_main. cbv zeta. cbn [engine].
  destruct (mem_str (S_ "full-help") (v_flags vm)); [eexists _, _; split; [reflexivity|tauto]|]. destruct (mem_str (S_ "help") (v_flags vm)); [eexists _, _; split; [reflexivity|tauto]|].
  destruct (mem_str (S_ "version") (v_flags vm)); [eexists _, _; split; [reflexivity|tauto]|].
  set (c := config_of vm _ _). set (path := get_str vm "pdf-file" []). unfold the_engine. cbv zeta.
  destruct (IO (skipFonts c)) as (SA & RF & PW & (p & HM) & HN). specialize (CV (skipFonts c) path).
  assert (SER : forall s d h, exists text, run_serializer s d h (match v_roles vm with Some r => r | None => ALL_ROLES end) = Ok text).
  { intros [|] d h; cbn [run_serializer]; [eexists; reflexivity|]. rewrite PropsSelection.ext_exact; [eexists; reflexivity|].
    unfold roles_good in G. destruct (v_roles vm); [exact G|]. apply Forall_forall. intros r Hr. apply in_seq in Hr. exact (proj2 Hr). }
  assert (FIN : forall d h acts0, exists out, (match getSerializer (match v_format vm with Some f => f | None => 0 end) with
      | Some s => do text <- run_serializer s d h (match v_roles vm with Some r => r | None => ALL_ROLES end);
                  Ok (map Eff (serialize (w_shell w) (w_canOpen w) text (get_str vm "output-file" (S_ "-"))))
      | None => Ok acts0 end) = Ok out).
  { intros d h acts0. destruct (getSerializer _) as [s|]; [|eexists; reflexivity]. destruct (SER s d h) as (text & ->). eexists. reflexivity. }
  unfold convertible in CV. destruct (w_open w path) as [code|es] eqn:EO.
  - unfold process. destruct (0 <? code)%Z eqn:EC.
    + eexists _, _. split; [reflexivity|]. right. right. exists path, code. split; [exact EO|]. split; [apply Z.ltb_lt, EC|reflexivity].
    + cbn [shell can_open]. destruct (FIN (the_document (w_machine w (skipFonts c)) gdoc_init) (word_heap (gd_words gdoc_init)) []) as (out & ->). eexists _, _. split; [reflexivity|tauto].
  - destruct CV as (r & k & EP & OR & LG).
    destruct (C72_characters _ (w_words w) c es r k p SA EP OR PW LG RF HM HN) as (d & E). unfold process_pdf in E. rewrite E.
    cbn [Z.ltb Z.compare shell can_open]. destruct (FIN (the_document (w_machine w (skipFonts c)) d) (word_heap (gd_words d)) []) as (out & ->). eexists _, _. split; [reflexivity|tauto].
Qed.
Print Assumptions C76_every_command_line.
(** The demo world of C76_legible: its only file that can be opened is the demo document. *)
Example C76_every_command_line_example : (forall b, in_order (w_machine ex_world3 b)) /\ (forall b path, convertible (w_machine ex_world3 b) (w_open ex_world3 path)) /\
  w_open ex_world3 (S_ "y.pdf") = Calls PropsPipeline.ex_doc /\ w_open ex_world3 (S_ "z.pdf") = Unreadable 1.
Proof.
  destruct C72_characters_example as (_ & _ & (r & E & OR & _ & L) & _).
  assert (CV : convertible (w_machine ex_world3 false) (Calls PropsPipeline.ex_doc)) by (exists r, 3; split; [exact E|]; split; [exact OR|exact L]).
  split; [|split; [|split; reflexivity]].
  - assert (X : in_order ex_machine3).
    { split; [exact ex_sane3|]. split; [exact ex_reads|]. split; [exact ex_piecewise|]. split; [|intros layout words; unfold ex_machine3; cbn [ex_world3 w_machine m_network fst snd]; apply repeat_length].
      assert (R : match Roles.readModel (m_fuel ex_machine3) (m_bpe ex_machine3) (m_roles ex_machine3) Roles.new_predictor with Some (Ok tt, _) => true | _ => false end = true) by (vm_compute; reflexivity).
      destruct (Roles.readModel _ _ _ _) as [[[[]| |] p]|]; try discriminate. exists p. reflexivity. }
    intros [|]; exact X.
  - intros b path. cbn [ex_world3 w_open]. destruct (str_eqb path (S_ "y.pdf")); [|exact I]. destruct b; exact CV.
Qed.
