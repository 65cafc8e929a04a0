(** PropsSelection.v - C86: what is extracted does not depend on how it is shown. *)
From Coq Require Import ZArith NArith Permutation.
From Verif Require Import Base Double Document Serialization Cli CliSpec SerializationSpec SerializationProofs Pipeline PipelineSpec Program ProgramSpec SelectionSpec.
From Verif Require CliProofs PropsOutput Parsing PropsParsing PropsPipeline PropsProgram XYCutProofs Float Words.
From Verif Require Import Sort.
Local Open Scope string_scope. Local Open Scope list_scope. Local Open Scope nat_scope.

Definition blockdec (roles : list nat) (b : text_block) : bool := if in_dec Nat.eq_dec (tb_role b) roles then true else false.
Definition text_block_of (h : heap) (b : block) : text_block := mkTB (b_role b) (b_emph b) (block_shown h b).

Lemma ext_marked h b : ext_text h b = marked_of (text_block_of h b). Proof. reflexivity. Qed.
Lemma ext_pages_ok h roles : Forall (fun r => r < 14) roles -> forall ps (out : str) (fl : bool),
  exists fl', fold_left (write_page_ext h roles) ps (Ok (out, fl)) = Ok (out ++ txt_pages (negb fl) (map (fun p => map (text_block_of h) (selected roles p)) ps), fl').
Proof.
  intros HR. induction ps as [|p ps IH]; intros o fl; [exists fl; cbn; rewrite app_nil_r; reflexivity|].
  set (bs := map (ext_text h) (selected roles p)).
  set (t := if fl then concat (map (app [nl; nl]) bs) else intercalate [nl; nl] bs).
  assert (Ep : write_page_ext h roles (Ok (o, fl)) p = Ok (o ++ t ++ [nl; ff], fl || negb (isnil bs))).
  { unfold write_page_ext. rewrite ext_blocks_ok by assumption. fold (selected roles p).
    rewrite sep_fold. cbn [obind]. fold bs. f_equal. f_equal. unfold t, endl. rewrite <- !app_assoc. reflexivity. }
  destruct (IH (o ++ t ++ [nl; ff]) (fl || negb (isnil bs))) as (fl' & HE). exists fl'. cbn [fold_left]. rewrite Ep. etransitivity; [exact HE|]. f_equal. f_equal.
  subst t bs. cbn [map txt_pages]. destruct (selected roles p) as [|b sel].
  - cbn [map isnil negb]. destruct fl; cbn [orb negb concat intercalate map app]; rewrite <- !app_assoc; reflexivity.
  - change (map (text_block_of h) (b :: sel)) with (text_block_of h b :: map (text_block_of h) sel). cbn [map isnil negb]. rewrite orb_true_r.
    assert (EM : map marked_of (map (text_block_of h) sel) = map (ext_text h) sel) by (rewrite map_map; reflexivity).
    rewrite EM, <- ext_marked. destruct fl; cbn [negb].
    + change (([nl; nl] ++ ext_text h b) :: map (app [nl; nl]) (map (ext_text h) sel)) with (map (app [nl; nl]) (ext_text h b :: map (ext_text h) sel)). rewrite concat_map_sep, <- !app_assoc. reflexivity.
    + rewrite <- !app_assoc. reflexivity.
Qed.
Lemma ext_exact d h roles : Forall (fun r => r < 14) roles ->
  ext_serialize d h roles [] = Ok (txt_extended (map (fun p => map (text_block_of h) (selected roles p)) (d_pages d))).
Proof.
  intros HR. unfold ext_serialize. destruct (ext_pages_ok h roles HR (d_pages d) [] false) as (fl' & ->). reflexivity.
Qed.
Lemma plain_exact d h roles : plain_serialize d h roles [] = txt (map (fun p => map (text_block_of h) (selected roles p)) (d_pages d)).
Proof.
  rewrite PropsOutput.C17_plain_text. unfold txt. f_equal. f_equal. rewrite <- flat_map_concat_map, flat_map_concat_map.
  rewrite concat_map, map_map. rewrite flat_map_concat_map, concat_map, !map_map. f_equal. apply map_ext. intros p. rewrite map_map. reflexivity.
Qed.

Lemma only_filter {A} (P : A -> Prop) (f : A -> bool) l : (forall x, In x l -> f x = true <-> P x) -> only P l (filter f l).
Proof.
  induction l as [|x l IH]; intros H; [constructor|]. cbn [filter]. specialize (IH (fun y Hy => H y (or_intror Hy))).
  destruct (f x) eqn:E; constructor; try assumption.
  - apply H; [left; reflexivity|exact E].
  - intros X. apply H in X; [congruence|left; reflexivity].
Qed.
Lemma wanted os roles b : wants_roles os roles -> In (tb_role b) roles <-> asks_for os b.
Proof.
  unfold asks_for, role_name. intros [[N ->]|[G F]].
  - rewrite in_seq. split.
    + intros L. destruct (nth_error SEMANTIC_ROLE_NAMES (tb_role b)) as [t|] eqn:E; [|apply nth_error_None in E; cbn in E; lia]. exists t. split; [reflexivity|]. intros G. destruct (N G).
    + intros (t & E & _). assert (tb_role b < length SEMANTIC_ROLE_NAMES) by (apply nth_error_Some; congruence). cbn in H. lia.
  - split.
    + intros I. induction F as [|t i ts is E F IH]; [destruct I|]. destruct I as [->|I].
      * exists t. split; [exact E|]. intros _. left. reflexivity.
      * destruct (IH I) as (t' & A & B). exists t'. split; [exact A|]. intros X. right. exact (B X).
    + intros (t & E & I). specialize (I G). clear G. induction F as [|t' i ts is E' F IH]; [destruct I|]. destruct I as [->|I]; [|right; exact (IH I)].
      left. unfold has_name in E'. assert (L1 : i < length SEMANTIC_ROLE_NAMES) by (apply nth_error_Some; congruence).
      apply (proj1 (NoDup_nth_error SEMANTIC_ROLE_NAMES) CliProofs.roles_nodup _ _ L1). congruence.
Qed.
Lemma roles_lt14 os roles : wants_roles os roles -> Forall (fun r => r < 14) roles.
Proof.
  intros [[_ ->]|[_ F]]; [rewrite Forall_forall; intros x I; apply in_seq in I; lia|].
  induction F as [|t i ts is E F IH]; constructor; [|exact IH]. unfold has_name in E. assert (L : i < length SEMANTIC_ROLE_NAMES) by (apply nth_error_Some; congruence). exact L.
Qed.
Lemma text_in_format os f d h roles text : wants_format os f -> wants_roles os roles -> format_text f d h roles text ->
  exists pages, Forall2 (only (asks_for os)) (map (fun p => map (text_block_of h) (p_blocks p)) (d_pages d)) pages /\ in_format os pages text.
Proof.
  intros Wf Wr HT. exists (map (fun p => map (text_block_of h) (selected roles p)) (d_pages d)). split.
  - induction (d_pages d) as [|p ps IH]; constructor; [|exact IH]. unfold selected.
    replace (map (text_block_of h) (filter _ (p_blocks p))) with (filter (blockdec roles) (map (text_block_of h) (p_blocks p))).
    + apply only_filter. intros b _. unfold blockdec. rewrite <- (wanted os roles b Wr). destruct (in_dec Nat.eq_dec (tb_role b) roles); split; congruence.
    + clear. induction (p_blocks p) as [|b bs IH]; [reflexivity|]. cbn [map filter]. unfold blockdec at 1. cbn [tb_role text_block_of]. destruct (in_dec Nat.eq_dec (b_role b) roles); cbn [map]; rewrite IH; reflexivity.
  - unfold in_format. destruct HT as [[-> HT]|[-> HT]].
    + left. split; [|rewrite <- HT; apply plain_exact]. destruct Wf as [[N _]|(t & E & N)]; [left; exact N|right; rewrite E; injection N as <-; reflexivity].
    + right. rewrite (ext_exact d h roles (roles_lt14 os roles Wr)) in HT. injection HT as HT. split; [|symmetry; exact HT].
      destruct Wf as [[_ N]|(t & E & N)]; [discriminate|]. rewrite E. injection N as <-. reflexivity.
Qed.
Lemma delivered shell can_open os c logs text path rest : wants_path os path -> no_effects rest ->
  delivers shell can_open os text (visible c logs ++ map Eff (serialize shell can_open text path) ++ rest).
Proof.
  intros Wp NE. exists (visible c logs), rest. split.
  { intros a Ia. rewrite CliProofs.visible_ok in Ia. apply in_map_iff in Ia as (x & <- & _). exists (snd x). reflexivity. }
  split; [exact NE|]. destruct (PropsOutput.C53_destination shell can_open text path) as [D1 D2]. destruct (list_eq_dec ascii_dec path (S_ "-")) as [E|N].
  - left. split; [destruct Wp as [[N _]|Wp]; [left; exact N|right; rewrite Wp, E; reflexivity]|]. rewrite (D1 E). reflexivity.
  - right. destruct Wp as [[_ E]|Wp]; [congruence|]. destruct (D2 N) as (dir & HD & A & B). exists path, dir. split; [exact Wp|]. split; [exact N|]. split; [exact HD|]. cbv zeta in A, B |- *.
    destruct (Z.eq_dec (shell (S_ "mkdir -p " ++ dir)) 0) as [Z0|Z0].
    + destruct (can_open path) eqn:O.
      * left. split; [exact Z0|]. split; [reflexivity|]. rewrite (A Z0 eq_refl). reflexivity.
      * right. split; [right; reflexivity|]. destruct (B (or_intror eq_refl)) as (msg & ->). exists msg. reflexivity.
    + right. split; [left; exact Z0|]. destruct (B (or_introl Z0)) as (msg & ->). exists msg. reflexivity.
Qed.
Lemma same_process {S} c c' code (run : modul -> S -> outcome S) l1 l2 s : (forall m, disabled c m = disabled c' m) -> process c code run l1 l2 s = process c' code run l1 l2 s.
Proof.
  intros H. destruct code as [code|]; [reflexivity|]. rewrite !CliProofs.process_ok. f_equal. f_equal. f_equal. apply filter_ext. intros m. rewrite H. reflexivity.
Qed.

(** A run of the program that ends with 0 (and was not asked for help) shows the blocks that the command line asks for, in the format and at
    the place that it asks for. The extracted blocks (page by page) depend on the file and on the switches that skip steps only: they are the
    same for all runs with the same switches, whatever roles, format, destination, log levels and visualisations these ask for. *)
Theorem C86_same_extraction : forall w path os, Permutation (w_sers w) SERIALIZERS ->
  exists pages,
    (forall es c d, w_open w path = Calls es -> (forall m, disabled c m = true <-> exists s, skip_flag m = Some s /\ given os s) ->
       (skipFonts c = true <-> given os "skip-embedded-font-files-parsing") -> process_pdf (w_machine w (skipFonts c)) (w_words w) c es = Ok (0%Z, d) ->
       pages = map (fun p => map (fun b => mkTB (b_role b) (b_emph b) (block_shown (the_word d) b)) (g_blocks p)) (gd_pages d)) /\
    (forall code, w_open w path = Unreadable code -> pages = []) /\
    forall os' acts, same_steps os os' -> runs_on os' path -> program w (Ok os') = Ok (0%Z, acts) ->
      exists chosen text, Forall2 (only (asks_for os')) pages chosen /\ in_format os' chosen text /\ delivers (w_shell w) (w_canOpen w) os' text acts.
Proof.
  intros w path os HP.
  set (b := if in_dec (fun x y : str => list_eq_dec ascii_dec x y) (S_ "skip-embedded-font-files-parsing") (map fst os) then true else false).
  assert (GI : forall l s, given l s <-> In (S_ s) (map fst l)).
  { intros l s. split; [intros (v & I); exact (in_map fst _ _ I)|]. intros I. apply in_map_iff in I as ([n v] & E & I). cbn in E. subst n. exists v. exact I. }
  set (dis := fun m => match skip_flag m with None => false | Some s => if in_dec (fun x y : str => list_eq_dec ascii_dec x y) (S_ s) (map fst os) then true else false end).
  set (c0 := mkConf dis (fun _ => 0) 0%Z b).
  assert (EDG : forall c, (forall m, disabled c m = true <-> exists s, skip_flag m = Some s /\ given os s) -> forall m, disabled c m = disabled c0 m).
  { intros c HC m. apply eq_true_iff_eq. rewrite (HC m). cbn [disabled c0]. unfold dis. split.
    - intros (s & E & G). rewrite E. apply GI in G. destruct (in_dec _ (S_ s) (map fst os)); [reflexivity|contradiction].
    - destruct (skip_flag m) as [s|] eqn:E; [|discriminate]. destruct (in_dec _ (S_ s) (map fst os)) as [I|]; [|discriminate]. intros _. exists s. split; [reflexivity|]. apply GI, I. }
  assert (EFG : forall c, (skipFonts c = true <-> given os "skip-embedded-font-files-parsing") -> skipFonts c = b).
  { intros c HC. apply eq_true_iff_eq. rewrite HC. unfold b. split.
    - intros G. apply GI in G. destruct (in_dec _ _ (map fst os)); [reflexivity|contradiction].
    - destruct (in_dec _ _ (map fst os)) as [I|]; [|discriminate]. intros _. apply GI, I. }
  exists (match the_engine w c0 path with Returned _ _ d h => map (fun p => map (text_block_of h) (p_blocks p)) (d_pages d) | _ => [] end).
  split; [|split].
  { intros es c d EO HD HF EP. unfold the_engine. rewrite EO. cbn [skipFonts c0]. rewrite (EFG c HF) in EP. unfold process_pdf in EP. rewrite (same_process c c0) in EP by exact (EDG c HD). rewrite EP.
    unfold the_document. cbn [d_pages]. rewrite map_map. reflexivity. }
  { intros code EO. unfold the_engine. rewrite EO. reflexivity. }
  intros os' acts [S1 S2] [R1 R2] H. unfold program in H. set (e := mkEnv _ _ _ _ _ _) in H.
  apply CliProofs.main_ok in H; [|exact HP]. destruct H as [(_ & _ & os2 & s & HO' & Hs & G)|[[H _]|(os2 & HO' & H)]]; [|discriminate|].
  { exfalso. injection HO' as <-. exact (R2 s Hs G). }
  injection HO' as <-. destruct H as (c & pdf & HC & Hp & _ & H). rewrite R1 in Hp. injection Hp as <-. cbn [engine e] in H.
  assert (ED : forall m, disabled c m = disabled c0 m).
  { apply EDG. intros m. rewrite (cf_disabled _ _ _ HC m). split; intros (s & E & G); exists s; (split; [exact E|]); apply (S1 m s E); exact G. }
  assert (EF : skipFonts c = b) by (apply EFG; rewrite (cf_fonts _ _ _ HC); symmetry; exact S2).
  unfold the_engine in *. rewrite EF in H. cbn [skipFonts c0]. destruct (w_open w path) as [code|es].
  - rewrite (same_process c c0) in H by exact ED. destruct (process c0 (Some code) _ _ _ _) as [[status d]|why|why]; [|destruct H|destruct (String.eqb why _); [destruct H; discriminate|destruct H]].
    destruct H as [(H1 & H2 & _)|(_ & _ & f & roles & op & text & rest & Wf & Wr & Wp & HT & HNE & ->)]; [lia|].
    destruct (text_in_format _ _ _ _ _ _ Wf Wr HT) as (chosen & A & B). exists chosen, text. split; [exact A|]. split; [exact B|]. cbn [shell can_open e]. exact (delivered _ _ _ _ _ _ _ _ Wp HNE).
  - rewrite (same_process c c0) in H by exact ED. destruct (process c0 None _ _ _ _) as [[status d]|why|why]; [|destruct H|destruct (String.eqb why _); [destruct H; discriminate|destruct H]].
    destruct H as [(H1 & H2 & _)|(_ & _ & f & roles & op & text & rest & Wf & Wr & Wp & HT & HNE & ->)]; [lia|].
    destruct (text_in_format _ _ _ _ _ _ Wf Wr HT) as (chosen & A & B). exists chosen, text. split; [exact A|]. split; [exact B|]. cbn [shell can_open e]. exact (delivered _ _ _ _ _ _ _ _ Wp HNE).
Qed.
Print Assumptions C86_same_extraction.

Lemma only_split {A} (P P1 P2 : A -> Prop) l k k1 k2 : (forall x, P x -> (P1 x <-> ~ P2 x)) -> (forall x, P1 x -> P x) -> (forall x, P2 x -> P x) ->
  only P l k -> only P1 l k1 -> only P2 l k2 -> Permutation k (k1 ++ k2).
Proof.
  intros H H1 H2 O. revert k1 k2. induction O as [|x l k Px O IH|x l k Px O IH]; intros k1 k2 O1 O2.
  - inversion O1; inversion O2; subst. constructor.
  - inversion O1 as [|? ? ? A1 B1|? ? ? A1 B1]; subst; inversion O2 as [|? ? ? A2 B2|? ? ? A2 B2]; subst.
    + exfalso. apply (H x Px) in A1. exact (A1 A2).
    + cbn [app]. constructor. exact (IH _ _ B1 B2).
    + apply Permutation_cons_app. exact (IH _ _ B1 B2).
    + exfalso. apply A1, (H x Px), A2.
  - inversion O1 as [|? ? ? A1 B1|? ? ? A1 B1]; subst; [destruct (Px (H1 x A1))|]. inversion O2 as [|? ? ? A2 B2|? ? ? A2 B2]; subst; [destruct (Px (H2 x A2))|]. exact (IH _ _ B1 B2).
Qed.

(** Three runs with the same switches: one shows all roles, the other two ask for complementary roles. Every block that the first one shows is
    shown by exactly one of the others; no block is shown by these only. *)
Theorem C86_complementary : forall w path os os1 os2 acts acts1 acts2, Permutation (w_sers w) SERIALIZERS ->
  runs_on os path -> runs_on os1 path -> runs_on os2 path -> same_steps os os1 -> same_steps os os2 ->
  ~ given os "role" -> given os1 "role" -> given os2 "role" ->
  (forall t, In t SEMANTIC_ROLE_NAMES -> (In t (tokens os1 "role") <-> ~ In t (tokens os2 "role"))) ->
  program w (Ok os) = Ok (0%Z, acts) -> program w (Ok os1) = Ok (0%Z, acts1) -> program w (Ok os2) = Ok (0%Z, acts2) ->
  exists pages pages1 pages2 text text1 text2,
    in_format os pages text /\ delivers (w_shell w) (w_canOpen w) os text acts /\
    in_format os1 pages1 text1 /\ delivers (w_shell w) (w_canOpen w) os1 text1 acts1 /\
    in_format os2 pages2 text2 /\ delivers (w_shell w) (w_canOpen w) os2 text2 acts2 /\
    length pages1 = length pages /\ length pages2 = length pages /\
    forall i p p1 p2, nth_error pages i = Some p -> nth_error pages1 i = Some p1 -> nth_error pages2 i = Some p2 -> Permutation p (p1 ++ p2).
Proof.
  intros w path os os1 os2 acts acts1 acts2 HP R R1 R2 S1 S2 N G1 G2 C H H1 H2. destruct (C86_same_extraction w path os HP) as (all & _ & _ & K).
  destruct (K os acts) as (ch & t & A & B & D); [split; intros; reflexivity|exact R|exact H|].
  destruct (K os1 acts1 S1 R1 H1) as (ch1 & t1 & A1 & B1 & D1). destruct (K os2 acts2 S2 R2 H2) as (ch2 & t2 & A2 & B2 & D2).
  exists ch, ch1, ch2, t, t1, t2. repeat (split; [assumption|]). clear -A A1 A2 N G1 G2 C. assert (L : forall X (l l' : list X) (P : X -> X -> Prop), Forall2 P l l' -> length l = length l') by (intros X l l' P F; induction F; cbn; congruence).
  pose proof (L _ _ _ _ A) as E. pose proof (L _ _ _ _ A1) as E1. pose proof (L _ _ _ _ A2) as E2. split; [congruence|]. split; [congruence|]. clear E E1 E2 L.
  revert ch ch1 ch2 A A1 A2. induction all as [|p all IH]; intros ch ch1 ch2 A A1 A2 i q q1 q2 E E1 E2; inversion A as [|? k ? ks X Y]; subst; [destruct i; discriminate|].
  inversion A1 as [|? k1 ? ks1 X1 Y1]; subst. inversion A2 as [|? k2 ? ks2 X2 Y2]; subst. destruct i as [|i].
  - injection E as <-. injection E1 as <-. injection E2 as <-. refine (only_split _ _ _ _ _ _ _ _ _ _ X X1 X2).
    + intros b (t & Ht & _). unfold asks_for. assert (It : In t SEMANTIC_ROLE_NAMES) by (apply (nth_error_In _ _ Ht)). specialize (C t It).
      assert (U : forall t', role_name b t' -> t' = t) by (unfold role_name in *; intros; congruence). split.
      * intros (t' & Ht' & I) (t'' & Ht'' & I'). apply U in Ht'. apply U in Ht''. subst. exact (proj1 C (I G1) (I' G2)).
      * intros NI. exists t. split; [exact Ht|]. intros _. apply C. intros I. apply NI. exists t. split; [exact Ht|]. intros _. exact I.
    + intros b (t & Ht & _). exists t. split; [exact Ht|]. intros G. destruct (N G).
    + intros b (t & Ht & _). exists t. split; [exact Ht|]. intros G. destruct (N G).
  - exact (IH _ _ _ Y Y1 Y2 i q q1 q2 E E1 E2).
Qed.
Print Assumptions C86_complementary.

(** ** Example: two blocks, a paragraph and a reference *)
Import PropsPipeline PropsProgram.
Definition ex_net (layout : list Float.float * (Z * Z)) (words : list Z * (Z * Z)) : list Float.float * nat :=
  (concat (map (fun i => if Nat.even i then [Float.fone; Float.fzero] else [Float.fzero; Float.fone]) (seq 0 (Z.to_nat (fst (snd layout))))), 2).
Definition sel_world : world :=
  mkWorld (fun _ => mkMachine PropsParsing.ex_parse PropsParsing.ex_map PropsParsing.ex_bytes PropsParsing.ex_space (fun _ => []) (fun _ => false) (fun x => x)
    (fun _ => []) (fun _ _ => []) (fun _ _ => []) (fun _ _ => []) (fun l => l) (fun l => l) (fun l => l) (fun l => l) (fun l => l)
    isort XYCutProofs.top_first isort isort isort XYCutProofs.top_first ex_bpe ex_bpe 9 ex_net (fun _ _ => 0))
    Words.default_words_config (fun _ => Calls ex_doc) (fun _ _ => [(MWords, 1, 1%Z, S_ "message")]) (fun _ => None) SERIALIZERS (fun _ => 0%Z) (fun _ => true).
Definition others : list string := ["reference"; "marginal"; "footnote"; "heading"; "formula"; "title"; "author-info"; "abstract"; "date"; "caption"; "table"; "other"; "toc"].
Example C86_example :
  program sel_world (Ok [o "pdf-file" ["x"]]) = Ok (0%Z, [Eff (Stdout (sigma ++ S_ " Hi n a" ++ [nl; nl] ++ S_ "Z" ++ [nl]))]) /\
  program sel_world (Ok [o "pdf-file" ["x"]; o "role" ["paragraph"]]) = Ok (0%Z, [Eff (Stdout (sigma ++ S_ " Hi n a" ++ [nl]))]) /\
  program sel_world (Ok [o "role" others; o "output-file" ["d/t"]; o "pdf-file" ["x"]]) = Ok (0%Z, [Eff (Shell (S_ "mkdir -p d")); Eff (WriteFile (S_ "d/t") (S_ "Z" ++ [nl]))]) /\
  program sel_world (Ok [o "format" ["txt-extended"]; o "pdf-file" ["x"]; o "verbosity" ["debug"]]) =
    Ok (0%Z, [Eff (Stdout (S_ "message")); Eff (Stdout (S_ "[PARAGRAPH] " ++ sigma ++ S_ " Hi n a" ++ [nl; ff] ++ [nl; nl] ++ S_ "[REFERENCE] " ++ ["001"%char] ++ S_ "Z" ++ [nl; ff; nl]))]) /\
  let os := [o "pdf-file" ["x"]] in let os1 := [o "pdf-file" ["x"]; o "role" ["paragraph"]] in let os2 := [o "role" others; o "output-file" ["d/t"]; o "pdf-file" ["x"]] in
  Permutation (w_sers sel_world) SERIALIZERS /\ runs_on os (S_ "x") /\ runs_on os1 (S_ "x") /\ runs_on os2 (S_ "x") /\ same_steps os os1 /\ same_steps os os2 /\
  ~ given os "role" /\ given os1 "role" /\ given os2 "role" /\ forall t, In t SEMANTIC_ROLE_NAMES -> (In t (tokens os1 "role") <-> ~ In t (tokens os2 "role")).
Proof.
  assert (NG : forall l n, negb (existsb (fun o => str_eqb (fst o) (S_ n)) l) = true -> ~ given l n).
  { intros l n H (vals & I). apply negb_true_iff in H. assert (X : existsb (fun o => str_eqb (fst o) (S_ n)) l = true) by (apply existsb_exists; exists (S_ n, vals); split; [exact I|apply str_eqb_refl]). congruence. }
  assert (SS : forall l l', (forall m s, skip_flag m = Some s -> ~ given l s /\ ~ given l' s) -> (~ given l "skip-embedded-font-files-parsing" /\ ~ given l' "skip-embedded-font-files-parsing") -> same_steps l l').
  { intros l l' H H'. split; [intros m s E; specialize (H m s E); tauto|tauto]. }
  do 4 (split; [vm_compute; reflexivity|]). cbv zeta. split; [reflexivity|].
  do 3 (split; [split; [reflexivity|intros s [<-|[<-|[<-|[]]]]; apply NG; reflexivity]|]).
  do 2 (split; [apply SS; [intros [] s E; injection E as <- || discriminate E; split; apply NG; reflexivity|split; apply NG; reflexivity]|]).
  split; [apply NG; reflexivity|]. split; [eexists; right; left; reflexivity|]. split; [eexists; left; reflexivity|].
  intros t I. cbn in I. repeat destruct I as [<-|I]; try contradiction I; cbn; intuition congruence.
Qed.
