(** CliProofs.v - proofs about the command line and the pipeline. *)
From Coq Require Import ZArith FunctionalExtensionality.
From Verif Require Import Base Document Serialization SerializationSpec SerializationProofs Cli CliSpec.
Local Open Scope string_scope. Local Open Scope list_scope. Local Open Scope nat_scope.

(** ** Validators *)
Lemma index_from_ok token names : forall i k, index_from token names i = Some k -> i <= k /\ nth_error names (k - i) = Some token.
Proof.
  induction names as [|n t IH]; intros i k H; [discriminate|]. cbn in H. destruct (str_eqb token n) eqn:E.
  - injection H as <-. apply str_eqb_eq in E. subst. rewrite Nat.sub_diag. auto.
  - apply IH in H. destruct H as [H1 H2]. split; [lia|]. replace (k - i) with (S (k - S i)) by lia. exact H2.
Qed.
Lemma index_from_some token names : forall i j, NoDup names -> nth_error names j = Some token -> index_from token names i = Some (i + j).
Proof.
  induction names as [|n t IH]; intros i j ND H; [destruct j; discriminate|]. inversion ND as [|? ? Nin ND']; subst. cbn.
  destruct j as [|j]; cbn in H.
  - injection H as ->. rewrite str_eqb_refl. f_equal. lia.
  - destruct (str_eqb token n) eqn:E.
    + apply str_eqb_eq in E. subst. exfalso. apply Nin. eapply nth_error_In; eauto.
    + rewrite (IH (S i) j ND' H). f_equal. lia.
Qed.
Fixpoint nodupb (l : list str) : bool := match l with [] => true | x :: t => negb (mem_str x t) && nodupb t end.
Lemma nodup_names (l : list str) : nodupb l = true -> NoDup l.
Proof.
  induction l as [|x t IH]; intros H; [constructor|]. cbn in H. apply andb_prop in H. destruct H as [H1 H2]. constructor; [|auto].
  intros I. assert (mem_str x t = true); [|rewrite H in H1; discriminate]. unfold mem_str. apply existsb_exists. exists x. split; [assumption|apply str_eqb_refl].
Qed.
Lemma roles_nodup : NoDup SEMANTIC_ROLE_NAMES. Proof. apply nodup_names. vm_compute. reflexivity. Qed.
Lemma types_nodup : NoDup PDF_ELEMENT_TYPE_NAMES. Proof. apply nodup_names. vm_compute. reflexivity. Qed.

Definition validator (f : option nat -> list str -> outcome nat) (names : list str) : Prop :=
  forall v vals, (forall i, f v vals = Ok i <-> v = None /\ exists t, vals = [t] /\ has_name names i t) /\
                 (is_ok (f v vals) = false -> is_throw (f v vals) = true).
Lemma search_validator names : NoDup names ->
  validator (fun v vals => do _ <- check_first v; do token <- get_single vals;
    match index_from token names 0 with Some i => Ok i | None => Throw "invalid_option_value" end) names.
Proof.
  intros ND v vals. split.
  - intros i. split.
    + destruct v; [discriminate|]. destruct vals as [|t [|]]; try discriminate. cbn. destruct (index_from t names 0) as [k|] eqn:E; [|discriminate].
      intros [= <-]. apply index_from_ok in E. rewrite Nat.sub_0_r in E. split; [reflexivity|]. exists t. split; [reflexivity|]. apply E.
    + intros [-> (t & -> & H)]. cbn. rewrite (index_from_some t names 0 i ND H). reflexivity.
  - destruct v; [reflexivity|]. destruct vals as [|t [|]]; try reflexivity. cbn. destruct (index_from t names 0); [discriminate|reflexivity].
Qed.
Lemma validate_role_ok : validator validate_role SEMANTIC_ROLE_NAMES.
Proof. exact (search_validator _ roles_nodup). Qed.
Lemma validate_type_ok : validator validate_type PDF_ELEMENT_TYPE_NAMES.
Proof. exact (search_validator _ types_nodup). Qed.
Lemma perm2 {A} (a b : A) l : Permutation l [a; b] -> l = [a; b] \/ l = [b; a].
Proof.
  intros H. assert (L := Permutation_length H). destruct l as [|x [|y [|]]]; try discriminate.
  assert (Ix : In x [a; b]) by (eapply Permutation_in; [exact H|left; reflexivity]). destruct Ix as [<-|[<-|[]]].
  - apply Permutation_cons_inv, Permutation_length_1 in H. subst. auto.
  - assert (Permutation [b; y] [b; a]) as H' by (rewrite H; apply perm_swap). apply Permutation_cons_inv, Permutation_length_1 in H'. subst. auto.
Qed.
Lemma validate_format_ok sers : Permutation sers SERIALIZERS -> validator (validate_format sers) (map S_ ["txt"; "txt-extended"]).
Proof.
  intros HP. assert (F : forall t, find_format t sers =
    if str_eqb t (S_ "txt") then Ok 0 else if str_eqb t (S_ "txt-extended") then Ok 1 else Throw "invalid_option_value").
  { intros t. destruct (perm2 _ _ _ HP) as [-> | ->]; cbn [find_format getSerializationFormatName name_of nth_error SERIALIZATION_FORMAT_NAMES map obind].
    - reflexivity.
    - destruct (str_eqb t (S_ "txt")) eqn:E1; [|reflexivity]. destruct (str_eqb t (S_ "txt-extended")) eqn:E2; [|reflexivity].
      apply str_eqb_eq in E1, E2. subst. discriminate. }
  intros v vals. unfold validate_format. split.
  - intros i. split.
    + destruct v; [discriminate|]. destruct vals as [|t [|]]; try discriminate. cbn [check_first get_single obind]. rewrite F.
      intros H. split; [reflexivity|]. exists t. split; [reflexivity|].
      destruct (str_eqb t (S_ "txt")) eqn:E1; [injection H as <-; apply str_eqb_eq in E1; subst; reflexivity|].
      destruct (str_eqb t (S_ "txt-extended")) eqn:E2; [injection H as <-; apply str_eqb_eq in E2; subst; reflexivity|discriminate].
    + intros [-> (t & -> & H)]. cbn [check_first get_single obind]. rewrite F. unfold has_name in H.
      destruct i as [|[|[|i]]]; cbn in H; try discriminate; injection H as <-; reflexivity.
  - destruct v; [reflexivity|]. destruct vals as [|t [|]]; try reflexivity. cbn [check_first get_single obind]. rewrite F.
    destruct (str_eqb t (S_ "txt")); [discriminate|]. destruct (str_eqb t (S_ "txt-extended")); [discriminate|reflexivity].
Qed.
Definition prev (v : option (list nat)) : list nat := match v with Some l => l | None => [] end.
Lemma validate_vector_ok f names : validator f names -> forall vals v,
  (forall l, validate_vector f v vals = Ok l <-> exists ids, l = prev v ++ ids /\ Forall2 (fun t i => has_name names i t) vals ids) /\
  (is_ok (validate_vector f v vals) = false -> is_throw (validate_vector f v vals) = true).
Proof.
  intros HV. induction vals as [|t vals IH]; intros v.
  - split; [|discriminate]. intros l. cbn. split.
    + intros [= <-]. exists []. rewrite app_nil_r. auto.
    + intros (ids & -> & H). inversion H. rewrite app_nil_r. reflexivity.
  - cbn [validate_vector]. fold (prev v). destruct (HV None [t]) as [H1 H2]. destruct (f None [t]) as [x| |] eqn:E; cbn [obind].
    + destruct (IH (Some (prev v ++ [x]))) as [I1 I2]. split; [|exact I2]. intros l. rewrite I1. cbn [prev].
      destruct (proj1 (H1 x) eq_refl) as (_ & t' & [= <-] & Hx). split.
      * intros (ids & -> & HF). exists (x :: ids). split; [rewrite <- app_assoc; reflexivity|]. constructor; assumption.
      * intros (ids & -> & HF). inversion HF as [|? i ? ids' Hi HF']; subst. exists ids'. split; [|assumption].
        assert (i = x) as ->; [|rewrite <- app_assoc; reflexivity].
        assert (Ok x = Ok i) by (apply H1; split; [reflexivity|]; eauto). congruence.
    + split; [|exact H2]. intros l. split; [discriminate|]. intros (ids & -> & HF). inversion HF as [|? i ? ids' Hi HF']; subst.
      assert (UB why = Ok i) by (apply H1; split; [reflexivity|]; eauto). discriminate.
    + split; [|reflexivity]. intros l. split; [discriminate|]. intros (ids & -> & HF). inversion HF as [|? i ? ids' Hi HF']; subst.
      assert (Throw why = Ok i) by (apply H1; split; [reflexivity|]; eauto). discriminate.
Qed.

(** ** store *)
Lemma tokens_snoc pre o name : tokens (pre ++ [o]) name = tokens pre name ++ (if str_eqb (fst o) (S_ name) then snd o else []).
Proof.
  unfold tokens. rewrite filter_app, map_app, concat_app. f_equal. cbn [filter]. destruct (str_eqb _ _); [|reflexivity].
  cbn. apply app_nil_r.
Qed.
Lemma given_snoc pre o name : given (pre ++ [o]) name <-> given pre name \/ fst o = S_ name.
Proof.
  unfold given. split.
  - intros (vals & H). apply in_app_or in H. destruct H as [H|[H|[]]]; [left; eauto|]. subst. auto.
  - intros [(vals & H)|H]; [exists vals; apply in_or_app; auto|]. exists (snd o). apply in_or_app. right. left. rewrite <- H. destruct o; reflexivity.
Qed.
Lemma mem_str_In x l : mem_str x l = true <-> In x l.
Proof.
  unfold mem_str. rewrite existsb_exists. split.
  - intros (y & Hy & E). apply str_eqb_eq in E. subst. assumption.
  - intros H. exists x. split; [assumption|apply str_eqb_refl].
Qed.
Lemma assoc_snoc k l x : assoc_str k (l ++ [x]) = match assoc_str k l with Some s => Some s | None => if str_eqb k (fst x) then Some (snd x) else None end.
Proof.
  unfold assoc_str. induction l as [|y l IH]; cbn; [destruct (str_eqb k (fst x)); reflexivity|].
  destruct (str_eqb k (fst y)); [reflexivity|exact IH].
Qed.

Record stored (to_int : str -> option Z) (os : list occ) (vm : vmap) : Prop := {
  s_filter : (v_filter vm = None /\ ~ given os "log-page-filter") \/ (exists z t, v_filter vm = Some z /\ tokens os "log-page-filter" = [t] /\ to_int t = Some z);
  s_flags : forall n, In n (v_flags vm) <-> In n FLAGS /\ exists vals, In (n, vals) os;
  s_format : (v_format vm = None /\ ~ given os "format") \/ (exists f t, v_format vm = Some f /\ tokens os "format" = [t] /\ has_name (map S_ ["txt"; "txt-extended"]) f t);
  s_roles : (v_roles vm = None /\ ~ given os "role" /\ tokens os "role" = []) \/
            (exists r, v_roles vm = Some r /\ given os "role" /\ Forall2 (fun t i => has_name SEMANTIC_ROLE_NAMES i t) (tokens os "role") r);
  s_strs : forall k, In (S_ k) STRINGS -> (assoc_str (S_ k) (v_strs vm) = None /\ ~ given os k /\ tokens os k = []) \/
            (exists s, assoc_str (S_ k) (v_strs vm) = Some s /\ tokens os k = [s]) }.
Lemma not_given_tokens os name : ~ given os name -> tokens os name = [].
Proof.
  intros H. unfold tokens. replace (filter _ os) with (@nil occ); [reflexivity|]. symmetry.
  induction os as [|o os IH]; [reflexivity|]. cbn. destruct (str_eqb (fst o) (S_ name)) eqn:E.
  - exfalso. apply H. apply str_eqb_eq in E. exists (snd o). left. rewrite <- E. destruct o; reflexivity.
  - apply IH. intros (vals & Hv). apply H. exists vals. right. assumption.
Qed.
Lemma stored0 to_int : stored to_int [] vm0.
Proof.
  assert (G : forall n, ~ given [] n) by (intros n (v & [])).
  constructor.
  - left. auto.
  - intros n. cbn. split; [tauto|]. intros [_ (v & [])].
  - left. auto.
  - left. auto.
  - intros k _. left. auto.
Qed.
Ltac neq_name := let X := fresh in intros X; cbn [fst] in X; subst; discriminate.
Lemma str_neq_eqb a b : a <> b -> str_eqb a b = false.
Proof. intros H. destruct (str_eqb a b) eqn:E; [|reflexivity]. apply str_eqb_eq in E. contradiction. Qed.

Lemma stored_step sers to_int os vm o vm' : Permutation sers SERIALIZERS -> stored to_int os vm ->
  store1 sers to_int vm o = Ok vm' -> stored to_int (os ++ [o]) vm'.
Proof.
  intros HP [Hpf Hf Hfo Hr Hs] H. destruct o as [name vals]. destruct vm as [fl fo ro ty st pf].
  cbn [v_flags v_format v_roles v_types v_strs v_filter] in *. unfold store1 in H.
  (* facts about components that are not touched *)
  assert (Kf : mem_str name FLAGS = false -> forall n, In n fl <-> In n FLAGS /\ exists vs, In (n, vs) (os ++ [(name, vals)])).
  { intros Hn n. rewrite Hf. split; intros [A (vs & B)]; (split; [assumption|]).
    - exists vs. apply in_or_app. auto.
    - apply in_app_or in B. destruct B as [B|[B|[]]]; [eauto|]. injection B as -> ->. apply mem_str_In in A. congruence. }
  assert (Kfo : name <> S_ "format" -> (fo = None /\ ~ given (os ++ [(name, vals)]) "format") \/
    (exists f t, fo = Some f /\ tokens (os ++ [(name, vals)]) "format" = [t] /\ has_name (map S_ ["txt"; "txt-extended"]) f t)).
  { intros Hn. rewrite given_snoc, tokens_snoc. cbn [fst]. rewrite (str_neq_eqb _ _ Hn), app_nil_r.
    destruct Hfo as [(A & B)|C]; [left; split; [assumption|]; intros [G|G]; contradiction|right; exact C]. }
  assert (Kp : name <> S_ "log-page-filter" -> (pf = None /\ ~ given (os ++ [(name, vals)]) "log-page-filter") \/
    (exists z t, pf = Some z /\ tokens (os ++ [(name, vals)]) "log-page-filter" = [t] /\ to_int t = Some z)).
  { intros Hn. rewrite given_snoc, tokens_snoc. cbn [fst]. rewrite (str_neq_eqb _ _ Hn), app_nil_r.
    destruct Hpf as [(A & B)|C]; [left; split; [assumption|]; intros [G|G]; contradiction|right; exact C]. }
  assert (Kr : name <> S_ "role" -> (ro = None /\ ~ given (os ++ [(name, vals)]) "role" /\ tokens (os ++ [(name, vals)]) "role" = []) \/
    (exists r, ro = Some r /\ given (os ++ [(name, vals)]) "role" /\ Forall2 (fun t i => has_name SEMANTIC_ROLE_NAMES i t) (tokens (os ++ [(name, vals)]) "role") r)).
  { intros Hn. rewrite given_snoc, tokens_snoc. cbn [fst]. rewrite (str_neq_eqb _ _ Hn), app_nil_r.
    destruct Hr as [(A & B & C)|(r & A & B & C)]; [left|right; exists r; rewrite given_snoc; auto]. split; [assumption|]. split; [|assumption]. intros [G|G]; contradiction. }
  assert (Ks : mem_str name STRINGS = false -> forall k, In (S_ k) STRINGS -> (assoc_str (S_ k) st = None /\ ~ given (os ++ [(name, vals)]) k /\ tokens (os ++ [(name, vals)]) k = []) \/
            (exists s, assoc_str (S_ k) st = Some s /\ tokens (os ++ [(name, vals)]) k = [s])).
  { intros Hn k Hk. assert (Nk : name <> S_ k) by (intros ->; apply mem_str_In in Hk; congruence).
    rewrite given_snoc, tokens_snoc. cbn [fst]. rewrite (str_neq_eqb _ _ Nk), app_nil_r.
    destruct (Hs k Hk) as [(A & B & C)|(s & A & B)]; [left|right; eauto]. split; [assumption|]. split; [|assumption]. intros [G|G]; contradiction. }
  assert (D : forall s, In s FLAGS -> s <> S_ "log-page-filter" /\ s <> S_ "format" /\ s <> S_ "role" /\ mem_str s STRINGS = false).
  { intros s Hin. apply Forall_forall with (l := FLAGS) (x := s); [|assumption].
    repeat (apply Forall_cons; [split; [discriminate|]; split; [discriminate|]; split; [discriminate|reflexivity]|]). apply Forall_nil. }
  destruct (mem_str name FLAGS) eqn:EF.
  { destruct (mem_str name fl) eqn:EFl; [discriminate|]. injection H as <-. apply mem_str_In in EF. destruct (D _ EF) as (D0 & D1 & D2 & D3).
    constructor; cbn [v_flags v_format v_roles v_types v_strs v_filter]; auto.
    intros n. rewrite in_app_iff, Hf. split.
    - intros [[A (vs & B)]|[<-|[]]]; (split; [assumption|]); [exists vs; apply in_or_app; auto|]. exists vals. apply in_or_app. right. left. reflexivity.
    - intros [A (vs & B)]. apply in_app_or in B. destruct B as [B|[B|[]]]; [left; split; eauto|]. injection B as -> ->. right. left. reflexivity. }
  specialize (Kf eq_refl).
  destruct (str_eqb name (S_ "format")) eqn:E1.
  { apply str_eqb_eq in E1. subst name. destruct (validate_format sers fo vals) as [f| |] eqn:V; try discriminate. injection H as <-.
    apply validate_format_ok in V; [|assumption]. destruct V as (-> & t & -> & Hn).
    constructor; cbn [v_flags v_format v_roles v_types v_strs v_filter]; auto; [apply Kp; discriminate| |apply Kr; discriminate].
    right. exists f, t. split; [reflexivity|]. rewrite tokens_snoc. cbn [fst snd]. rewrite str_eqb_refl.
    destruct Hfo as [[_ G]|(f' & t' & X & _)]; [|discriminate]. rewrite (not_given_tokens _ _ G). auto. }
  assert (N1 : name <> S_ "format") by (intros ->; discriminate). specialize (Kfo N1).
  destruct (str_eqb name (S_ "role")) eqn:E2.
  { apply str_eqb_eq in E2. subst name. destruct (validate_vector validate_role ro vals) as [r| |] eqn:V; try discriminate. injection H as <-.
    apply (validate_vector_ok _ _ validate_role_ok) in V. destruct V as (ids & -> & HF).
    constructor; cbn [v_flags v_format v_roles v_types v_strs v_filter]; auto; [apply Kp; discriminate|].
    right. eexists. split; [reflexivity|]. split; [apply given_snoc; auto|]. rewrite tokens_snoc. cbn [fst snd]. rewrite str_eqb_refl.
    apply Forall2_app; [|assumption]. destruct Hr as [(-> & _ & ->)|(r & -> & _ & Hr)]; [constructor|exact Hr]. }
  assert (N2 : name <> S_ "role") by (intros ->; discriminate). specialize (Kr N2).
  destruct (str_eqb name (S_ "type")) eqn:E3.
  { apply str_eqb_eq in E3. subst name. destruct (validate_vector validate_type ty vals) as [r| |] eqn:V; try discriminate. injection H as <-.
    constructor; cbn [v_flags v_format v_roles v_types v_strs v_filter]; auto; apply Kp; discriminate. }
  destruct (mem_str name STRINGS) eqn:E4.
  { destruct (assoc_str name st) as [x|] eqn:EA; [discriminate|]. destruct vals as [|t [|]]; try discriminate. injection H as <-.
    constructor; cbn [v_flags v_format v_roles v_types v_strs v_filter]; auto; [apply Kp; intros ->; discriminate|].
    intros k Hk. rewrite assoc_snoc, given_snoc, tokens_snoc. cbn [fst snd].
    destruct (str_eqb name (S_ k)) eqn:EK.
    - apply str_eqb_eq in EK. subst name. right. exists t. rewrite EA, str_eqb_refl. split; [reflexivity|].
      destruct (Hs k Hk) as [(_ & _ & ->)|(s & X & _)]; [reflexivity|congruence].
    - assert (EK' : str_eqb (S_ k) name = false) by (apply str_neq_eqb; intros X; rewrite <- X, str_eqb_refl in EK; discriminate).
      rewrite EK', app_nil_r. destruct (Hs k Hk) as [(A & B & C)|(s & A & B)]; rewrite A; [left|right; eauto].
      split; [reflexivity|]. split; [|assumption]. intros [G|G]; [contradiction|]. rewrite G, str_eqb_refl in EK. discriminate. }
  destruct (str_eqb name (S_ "log-page-filter")) eqn:E5; [|discriminate].
  destruct pf; [discriminate|]. destruct vals as [|t [|]]; try discriminate. cbn [check_first get_single obind] in H. destruct (to_int t) as [z|] eqn:TI; [|discriminate]. injection H as <-.
  constructor; cbn [v_flags v_format v_roles v_types v_strs v_filter]; auto.
  right. exists z, t. split; [reflexivity|]. rewrite tokens_snoc. cbn [fst snd]. rewrite E5.
  destruct Hpf as [[_ G]|(z' & t' & X & _)]; [|discriminate]. rewrite (not_given_tokens _ _ G). auto.
Qed.
Lemma store_stored sers to_int : Permutation sers SERIALIZERS -> forall os pre vm vm', stored to_int pre vm ->
  store sers to_int vm os = (vm', None) -> stored to_int (pre ++ os) vm'.
Proof.
  intros HP. induction os as [|o os IH]; intros pre vm vm' HS H.
  - injection H as <-. rewrite app_nil_r. assumption.
  - cbn in H. destruct (store1 sers to_int vm o) as [vm1| |] eqn:E; try discriminate.
    change (pre ++ o :: os) with (pre ++ [o] ++ os). rewrite app_assoc. eapply IH; [|exact H]. eapply stored_step; eauto.
Qed.

(** ** main *)
Lemma has_given to_int os vm s : stored to_int os vm -> mem_str (S_ s) FLAGS = true -> (mem_str (S_ s) (v_flags vm) = true <-> given os s).
Proof.
  intros HS HF. rewrite mem_str_In, (s_flags _ _ _ HS). apply mem_str_In in HF. unfold given. tauto.
Qed.
Lemma level_of_ok v : is_level v (level_of v).
Proof.
  assert (E : forall s, str_eqb v (S_ s) = true <-> v = S_ s) by (intros; apply str_eqb_eq).
  unfold level_of.
  destruct (str_eqb v (S_ "warn")) eqn:E1; [apply E in E1; left; exists "warn"; split; [cbn; tauto|assumption]|].
  destruct (str_eqb v (S_ "WARN")) eqn:E2; [apply E in E2; left; exists "WARN"; split; [cbn; tauto|assumption]|].
  destruct (str_eqb v (S_ "info")) eqn:E3; [apply E in E3; left; exists "info"; split; [cbn; tauto|assumption]|].
  destruct (str_eqb v (S_ "INFO")) eqn:E4; [apply E in E4; left; exists "INFO"; split; [cbn; tauto|assumption]|].
  destruct (str_eqb v (S_ "debug")) eqn:E5; [apply E in E5; left; exists "debug"; split; [cbn; tauto|assumption]|].
  destruct (str_eqb v (S_ "DEBUG")) eqn:E6; [apply E in E6; left; exists "DEBUG"; split; [cbn; tauto|assumption]|].
  destruct (str_eqb v (S_ "trace")) eqn:E7; [apply E in E7; left; exists "trace"; split; [cbn; tauto|assumption]|].
  destruct (str_eqb v (S_ "TRACE")) eqn:E8; [apply E in E8; left; exists "TRACE"; split; [cbn; tauto|assumption]|].
  right. split; [|reflexivity]. intros n k H ->. cbn in H.
  repeat (destruct H as [H|H]; [injection H as <- <-; rewrite str_eqb_refl in *; discriminate|]). destruct H.
Qed.
Lemma get_str_ok to_int os vm k dflt : stored to_int os vm -> In (S_ k) STRINGS ->
  (~ given os k /\ get_str vm k dflt = dflt) \/ tokens os k = [get_str vm k dflt].
Proof.
  intros HS HI. unfold get_str. destruct (s_strs _ _ _ HS k HI) as [(-> & H & _)|(s & -> & H)]; auto.
Qed.
Definition main_config (vm : vmap) : config :=
  config_of vm (level_of (get_str vm "verbosity" (S_ "error"))) (match v_filter vm with Some z => z | None => (-1)%Z end).
Lemma main_config_ok to_int os vm : stored to_int os vm -> config_for to_int os (main_config vm).
Proof.
  intros HS. assert (HG := fun s => has_given to_int os vm s HS). constructor.
  - intros m. unfold main_config, config_of. cbn [disabled].
    destruct m; cbn [skip_flag]; try (rewrite HG by reflexivity; split; [intros G; eexists; split; [reflexivity|exact G]|intros (s & [= <-] & G); exact G]).
    split; [discriminate|]. intros (s & X & _). discriminate.
  - intros m G. unfold main_config, config_of. cbn [logLevel].
    destruct m; cbn [debug_flag] in G; (apply HG in G; [rewrite G; reflexivity|reflexivity]).
  - intros m G. exists (get_str vm "verbosity" (S_ "error")). split; [apply (get_str_ok to_int); [assumption|cbn; auto]|].
    unfold main_config, config_of. cbn [logLevel].
    assert (E : forall s, mem_str (S_ s) FLAGS = true -> ~ given os s -> mem_str (S_ s) (v_flags vm) = false).
    { intros s HF HN. destruct (mem_str (S_ s) (v_flags vm)) eqn:X; [|reflexivity]. apply (has_given _ _ _ _ HS HF) in X. contradiction. }
    destruct m; cbn [debug_flag] in G; (apply E in G; [rewrite G; apply level_of_ok|reflexivity]).
  - unfold main_config, config_of. cbn [logPageFilter]. destruct (s_filter _ _ _ HS) as [(-> & H)|(z & t & -> & H1 & H2)]; [left; auto|right; eauto].
  - unfold main_config, config_of. cbn [skipFonts]. apply HG. reflexivity.
Qed.


(** Everything a successful parse leads to. *)
Lemma run_main_ok e os vm z acts : Permutation (sers e) SERIALIZERS -> stored (to_int e) os vm -> run_main e vm = Ok (z, acts) ->
  (z = 0%Z /\ ((given os "full-help" /\ acts = [FullHelpMsg]) \/ (~ given os "full-help" /\ given os "help" /\ acts = [HelpMsg]) \/
     (~ given os "full-help" /\ ~ given os "help" /\ given os "version" /\ acts = [VersionMsg]))) \/
  ((forall s, In s help_flags -> ~ given os s) /\
   exists c pdf, config_for (to_int e) os c /\ ((~ given os "pdf-file" /\ pdf = []) \/ tokens os "pdf-file" = [pdf]) /\
    match engine e c pdf with
    | Crashed _ _ => False
    | Invalid logs => z = 3%Z /\ acts = visible c logs ++ [InvalidArgument]
    | Returned logs status d h =>
       ((0 < status)%Z /\ z = status /\ acts = visible c logs) \/
       ((status <= 0)%Z /\ z = 0%Z /\ exists f roles path text rest,
          wants_format os f /\ wants_roles os roles /\ wants_path os path /\ format_text f d h roles text /\ no_effects rest /\
          acts = visible c logs ++ map Eff (serialize (shell e) (can_open e) text path) ++ rest)
    end).
Proof.
  intros HP HS H. unfold run_main in H.
  assert (HG : forall s, mem_str (S_ s) FLAGS = true -> (mem_str (S_ s) (v_flags vm) = true -> given os s) /\ (mem_str (S_ s) (v_flags vm) = false -> ~ given os s)).
  { intros s HF. pose proof (has_given _ _ _ _ HS HF) as X. split; [apply X|]. intros E G. apply X in G. congruence. }
  destruct (mem_str (S_ "full-help") (v_flags vm)) eqn:E1.
  { injection H as <- <-. apply HG in E1; [|reflexivity]. left. auto. }
  destruct (mem_str (S_ "help") (v_flags vm)) eqn:E2.
  { injection H as <- <-. apply HG in E1; [|reflexivity]. apply HG in E2; [|reflexivity]. left. split; [reflexivity|]. right. left. auto. }
  destruct (mem_str (S_ "version") (v_flags vm)) eqn:E3.
  { injection H as <- <-. apply HG in E1; [|reflexivity]. apply HG in E2; [|reflexivity]. apply HG in E3; [|reflexivity]. left. split; [reflexivity|]. right. right. auto. }
  apply HG in E1; [|reflexivity]. apply HG in E2; [|reflexivity]. apply HG in E3; [|reflexivity]. right.
  split; [intros s [<-|[<-|[<-|[]]]]; assumption|].
  exists (main_config vm), (get_str vm "pdf-file" []). split; [apply main_config_ok; assumption|]. split; [apply (get_str_ok (to_int e)); [assumption|cbn; auto]|].
  fold (main_config vm) in H.
  destruct (engine e (main_config vm) (get_str vm "pdf-file" [])) as [logs status d h|logs|logs o].
  - destruct (Z.ltb_spec 0 status) as [Hs|Hs]; [left; injection H as <- <-; auto|right].
    assert (HF : wants_format os (match v_format vm with Some f => f | None => 0 end)).
    { destruct (s_format _ _ _ HS) as [(-> & G)|(f & t & -> & G & Hn)]; [left; auto|right]. eauto. }
    assert (HR : wants_roles os (match v_roles vm with Some r => r | None => ALL_ROLES end)).
    { destruct (s_roles _ _ _ HS) as [(-> & G & _)|(r & -> & G & Hn)]; [left; auto|right]. eauto. }
    assert (HPa : wants_path os (get_str vm "output-file" (S_ "-"))).
    { unfold wants_path. destruct (get_str_ok (to_int e) os vm "output-file" (S_ "-") HS) as [[A B]|A]; [cbn; auto|left; auto|right; exact A]. }
    set (f := match v_format vm with Some f => f | None => 0 end) in *.
    set (roles := match v_roles vm with Some r => r | None => ALL_ROLES end) in *.
    assert (HT : exists s, getSerializer f = Some s /\ forall text, run_serializer s d h roles = Ok text -> format_text f d h roles text).
    { destruct HF as [[_ Ef]|(t & _ & Hn)]; [|unfold has_name in Hn; destruct f as [|[|[|]]]; try discriminate].
      - rewrite Ef. exists PlainText. split; [reflexivity|]. intros text [= <-]. left. auto.
      - exists PlainText. split; [reflexivity|]. intros text [= <-]. left. auto.
      - exists PlainTextExtended. split; [reflexivity|]. intros text Ht. right. auto. }
    destruct HT as (s & Es & HT). rewrite Es in H.
    destruct (run_serializer s d h roles) as [text| |] eqn:ER; try discriminate. cbn [obind] in H. injection H as <- <-.
    split; [assumption|]. split; [reflexivity|]. exists f, roles, (get_str vm "output-file" (S_ "-")), text, 
      ((match get_str vm "visualization-path" [] with [] => [] | p => [Visualize (visualizations vm) p] end) ++
       (if mem_str (S_ "print-running-times") (v_flags vm) then [RunningTimes] else [])).
    split; [assumption|]. split; [assumption|]. split; [assumption|]. split; [apply HT; reflexivity|]. split; [|reflexivity].
    intros a Ha. apply in_app_or in Ha. destruct Ha as [Ha|Ha].
    + destruct (get_str vm "visualization-path" []); [destruct Ha|]. destruct Ha as [<-|[]]. exact I.
    + destruct (mem_str _ _); [|destruct Ha]. destruct Ha as [<-|[]]. exact I.
  - injection H as <- <-. auto.
  - destruct o; discriminate.
Qed.

Lemma store1_flags sers to_int vm o vm' : store1 sers to_int vm o = Ok vm' -> forall n, In n (v_flags vm') -> In n (v_flags vm) \/ n = fst o.
Proof.
  destruct o as [name vals], vm as [fl fo ro ty st pf]. unfold store1. intros H n.
  destruct (mem_str name FLAGS).
  { destruct (mem_str name fl); [discriminate|]. injection H as <-. cbn. intros I. apply in_app_or in I. destruct I as [I|[I|[]]]; auto. }
  assert (K : v_flags vm' = fl -> In n (v_flags vm') -> In n (v_flags (mkVm fl fo ro ty st pf)) \/ n = fst (name, vals)) by (intros ->; auto).
  apply K. clear K.
  destruct (str_eqb name (S_ "format")). { destruct (validate_format sers fo vals); [|discriminate|discriminate]. injection H as <-. reflexivity. }
  destruct (str_eqb name (S_ "role")). { destruct (validate_vector validate_role ro vals); [|discriminate|discriminate]. injection H as <-. reflexivity. }
  destruct (str_eqb name (S_ "type")). { destruct (validate_vector validate_type ty vals); [|discriminate|discriminate]. injection H as <-. reflexivity. }
  destruct (mem_str name STRINGS).
  { destruct (check_first _); [|discriminate|discriminate]. destruct (get_single vals); [|discriminate|discriminate]. injection H as <-. reflexivity. }
  destruct (str_eqb name _); [|discriminate]. destruct (check_first pf); [|discriminate|discriminate]. destruct (get_single vals) as [t| |]; [|discriminate|discriminate].
  cbn [obind] in H. destruct (to_int t); [|discriminate]. injection H as <-. reflexivity.
Qed.
Lemma store_flags sers to_int : forall os vm vm' err, store sers to_int vm os = (vm', err) -> forall n, In n (v_flags vm') ->
  In n (v_flags vm) \/ exists vals, In (n, vals) os.
Proof.
  induction os as [|o os IH]; intros vm vm' err H n I; [injection H as <- <-; auto|]. cbn in H.
  destruct (store1 sers to_int vm o) as [vm1| |] eqn:E; [|injection H as <- <-; auto|injection H as <- <-; auto].
  destruct (IH _ _ _ H n I) as [I1|(v & I1)]; [|right; exists v; right; assumption].
  destruct (store1_flags _ _ _ _ _ E n I1) as [I2| ->]; [auto|right]. exists (snd o). left. destruct o; reflexivity.
Qed.
Theorem main_ok e z acts : Permutation (sers e) SERIALIZERS -> cli_main e = Ok (z, acts) ->
  (z = 0%Z /\ In acts [[FullHelpMsg]; [HelpMsg]; [VersionMsg]] /\ exists os s, parsed e = Ok os /\ In s help_flags /\ given os s) \/
  (z = 1%Z /\ exists why, acts = [ParseError why]) \/
  (exists os, parsed e = Ok os /\ engine_run e os z acts).
Proof.
  intros HP H. unfold cli_main in H.
  assert (HE : forall vm w, (if mem_str (S_ "full-help") (v_flags vm) then Ok (0%Z, [FullHelpMsg])
     else if mem_str (S_ "help") (v_flags vm) then Ok (0%Z, [HelpMsg])
     else if mem_str (S_ "version") (v_flags vm) then Ok (0%Z, [VersionMsg])
     else Ok (1%Z, [ParseError w])) = Ok (z, acts) ->
     (z = 0%Z /\ In acts [[FullHelpMsg]; [HelpMsg]; [VersionMsg]] /\ exists s, In s help_flags /\ In (S_ s) (v_flags vm)) \/ (z = 1%Z /\ exists why, acts = [ParseError why])).
  { intros vm w X.
    destruct (mem_str (S_ "full-help") (v_flags vm)) eqn:E1; [injection X as <- <-; left; split; [reflexivity|]; split; [cbn; auto|]; exists "full-help"; split; [cbn; auto|apply mem_str_In; assumption]|].
    destruct (mem_str (S_ "help") (v_flags vm)) eqn:E2; [injection X as <- <-; left; split; [reflexivity|]; split; [cbn; auto|]; exists "help"; split; [cbn; auto|apply mem_str_In; assumption]|].
    destruct (mem_str (S_ "version") (v_flags vm)) eqn:E3; [injection X as <- <-; left; split; [reflexivity|]; split; [cbn; auto|]; exists "version"; split; [cbn; auto|apply mem_str_In; assumption]|].
    injection X as <- <-. right. eauto. }
  assert (H0 : forall w, (if mem_str (S_ "full-help") (v_flags vm0) then Ok (0%Z, [FullHelpMsg])
     else if mem_str (S_ "help") (v_flags vm0) then Ok (0%Z, [HelpMsg])
     else if mem_str (S_ "version") (v_flags vm0) then Ok (0%Z, [VersionMsg])
     else Ok (1%Z, [ParseError w])) = Ok (z, acts) -> z = 1%Z /\ exists why, acts = [ParseError why]).
  { intros w X. apply HE in X. destruct X as [(_ & _ & s & _ & [])|X]; exact X. }
  destruct (parsed e) as [os|w|w] eqn:EP; [|apply H0 in H; auto|apply H0 in H; auto].
  destruct (store (sers e) (to_int e) vm0 os) as [vm err] eqn:ES.
  assert (HE' : forall w, (if mem_str (S_ "full-help") (v_flags vm) then Ok (0%Z, [FullHelpMsg])
     else if mem_str (S_ "help") (v_flags vm) then Ok (0%Z, [HelpMsg])
     else if mem_str (S_ "version") (v_flags vm) then Ok (0%Z, [VersionMsg])
     else Ok (1%Z, [ParseError w])) = Ok (z, acts) ->
     (z = 0%Z /\ In acts [[FullHelpMsg]; [HelpMsg]; [VersionMsg]] /\ exists os' s, Ok os = Ok os' /\ In s help_flags /\ given os' s) \/ (z = 1%Z /\ exists why, acts = [ParseError why])).
  { intros w X. apply HE in X. destruct X as [(A & B & s & C & D)|X]; [left|right; exact X]. split; [assumption|]. split; [assumption|].
    exists os, s. split; [reflexivity|]. split; [assumption|]. destruct (store_flags _ _ _ _ _ _ ES _ D) as [[]|G]. exact G. }
  destruct err as [w|]; [apply HE' in H; destruct H; auto|].
  apply (store_stored _ _ HP os [] _ _ (stored0 _)) in ES. cbn [app] in ES.
  destruct (assoc_str (S_ "pdf-file") (v_strs vm)) as [pdf|] eqn:EA; cbn [is_some] in H; [|apply HE' in H; destruct H; auto].
  apply (run_main_ok e os) in H; [|assumption|assumption]. destruct H as [(-> & H)|(HN & c & p & HC & Hp & H)].
  - left. split; [reflexivity|]. destruct H as [[G ->]|[(_ & G & ->)|(_ & _ & G & ->)]]; (split; [cbn; auto|]); exists os; eexists; (split; [reflexivity|]); (split; [|exact G]); cbn; auto.
  - right. right. exists os. split; [reflexivity|]. exists c, p. split; [assumption|]. split; [|split; [assumption|exact H]].
    destruct Hp as [[Hp _]|Hp]; [|exact Hp]. exfalso.
    destruct (s_strs _ _ _ ES "pdf-file") as [(X & _)|(s & _ & X)]; [cbn; auto|congruence|].
    rewrite (not_given_tokens _ _ Hp) in X. discriminate.
Qed.

(** ** Logging *)
Lemma getostream_ok own filter level page :
  getostream own filter level page = Cout <-> own <= level /\ (filter <= 0 \/ page <= 0 \/ filter = page)%Z.
Proof.
  unfold getostream. destruct (Nat.ltb_spec level own) as [H|H]; [split; [discriminate|lia]|].
  destruct (Z.ltb_spec 0 filter); cbn [andb]; [|split; [lia|reflexivity]].
  destruct (Z.ltb_spec 0 page); cbn [andb]; [|split; [lia|reflexivity]].
  destruct (Z.eqb_spec filter page); cbn [negb]; split; try discriminate; try lia; reflexivity.
Qed.
Lemma visible_ok c logs : visible c logs = map (fun m => Eff (Stdout (snd m)))
  (filter (fun m => let '(mo, level, page, _) := m in
     (logLevel c mo <=? level) && ((logPageFilter c <=? 0) || (page <=? 0) || (logPageFilter c =? page))%Z) logs).
Proof.
  unfold visible. induction logs as [|[[[mo level] page] text] logs IH]; [reflexivity|]. cbn [flat_map filter]. rewrite IH.
  destruct (getostream (logLevel c mo) (logPageFilter c) level page) eqn:E.
  - destruct ((logLevel c mo <=? level) && _)%bool eqn:B; [|reflexivity]. exfalso.
    assert (G : getostream (logLevel c mo) (logPageFilter c) level page = Cout); [|congruence]. apply getostream_ok.
    apply andb_prop in B. destruct B as [B1 B2]. apply Nat.leb_le in B1. split; [assumption|].
    apply orb_prop in B2. destruct B2 as [B2|B2]; [apply orb_prop in B2; destruct B2 as [B2|B2]|]; lia.
  - apply getostream_ok in E. destruct E as [E1 E2]. apply Nat.leb_le in E1. rewrite E1.
    assert (B : ((logPageFilter c <=? 0) || (page <=? 0) || (logPageFilter c =? page))%Z = true) by lia. rewrite B. reflexivity.
Qed.
Lemma visible_quiet c logs : (forall m l p t, In (m, l, p, t) logs -> l < logLevel c m) -> visible c logs = [].
Proof.
  intros H. rewrite visible_ok. replace (filter _ logs) with (@nil logmsg); [reflexivity|]. symmetry.
  induction logs as [|[[[m l] p] t] logs IH]; [reflexivity|]. cbn [filter].
  assert (E : (logLevel c m <=? l) = false) by (apply Nat.leb_gt, (H m l p t); left; reflexivity). rewrite E. cbn [andb].
  apply IH. intros. eapply H. right. eassumption.
Qed.

(** ** The pipeline *)
Lemma obind_id {A} (o : outcome A) : obind o Ok = o. Proof. destruct o; reflexivity. Qed.
Lemma obind_assoc {A B C} (o : outcome A) (f : A -> outcome B) (g : B -> outcome C) :
  obind (obind o f) g = obind o (fun x => obind (f x) g).
Proof. destruct o; reflexivity. Qed.
Lemma run_all_app {S} (run : modul -> S -> outcome S) a b s : run_all run (a ++ b) s = obind (run_all run a s) (run_all run b).
Proof.
  revert s; induction a as [|m a IH]; intros s; [reflexivity|]. cbn [app run_all]. rewrite obind_assoc.
  destruct (run m s); cbn [obind]; auto.
Qed.
Lemma obind_ext {A B} (o : outcome A) (f g : A -> outcome B) : (forall x, f x = g x) -> obind o f = obind o g.
Proof. intros H. destruct o; cbn; auto. Qed.
Lemma step_all {S} c (R : modul -> S -> outcome S) m t s :
  run_all R (filter (fun m => negb (disabled c m)) (m :: t)) s =
  do s' <- (if Bool.eqb (disabled c m) false then R m s else Ok s); run_all R (filter (fun m => negb (disabled c m)) t) s'.
Proof. cbn [filter]. destruct (disabled c m); reflexivity. Qed.
Theorem process_ok {S} c (run : modul -> S -> outcome S) lines1 lines2 s :
  process c None run lines1 lines2 s =
  do s' <- run_all (fun m s => if match m with MLines => true | _ => false end then do s <- run m s; Ok (lines1 s) else run m s)
             (MParsing :: filter (fun m => negb (disabled c m)) pipeline) s;
  Ok (0%Z, lines2 s').
Proof.
  unfold process, pipeline, step. cbn [run_all]. rewrite obind_assoc. apply obind_ext. clear s. intros s.
  do 11 (rewrite step_all, obind_assoc; cbn iota; apply obind_ext; clear s; intros s). reflexivity.
Qed.

(** ** Options without effect *)
Section Unused.
Variable n : str.
Definition other (o : occ) : bool := negb (str_eqb (fst o) n).
Definition sim (vm vm' : vmap) : Prop :=
  v_flags vm' = filter (fun f => negb (str_eqb f n)) (v_flags vm) /\ v_format vm = v_format vm' /\ v_roles vm = v_roles vm' /\ v_types vm = v_types vm' /\ v_strs vm = v_strs vm' /\ v_filter vm = v_filter vm'.
Lemma sim_mem vm vm' s : sim vm vm' -> s <> n -> mem_str s (v_flags vm') = mem_str s (v_flags vm).
Proof.
  intros (-> & _) H. destruct (mem_str s (v_flags vm)) eqn:E.
  - apply mem_str_In in E. apply mem_str_In. apply filter_In. split; [assumption|]. rewrite str_neq_eqb by assumption. reflexivity.
  - destruct (mem_str s (filter _ _)) eqn:E'; [|reflexivity]. apply mem_str_In, filter_In in E'. destruct E' as [E' _]. apply mem_str_In in E'. congruence.
Qed.
Lemma store_sim sers to_int : mem_str n FLAGS = true -> forall os vm vm', sim vm vm' ->
  (In n (v_flags vm) -> filter (fun o => negb (other o)) os = []) -> length (filter (fun o => negb (other o)) os) <= 1 ->
  let '(r, err) := store sers to_int vm os in let '(r', err') := store sers to_int vm' (filter other os) in sim r r' /\ err = err'.
Proof.
  intros HN. induction os as [|[name vals] os IH]; intros vm vm' HS H0 H1; [cbn; auto|].
  cbn [filter] in *. change (other (name, vals)) with (negb (str_eqb name n)) in *. destruct (str_eqb name n) eqn:E; cbn [negb] in *.
  - apply str_eqb_eq in E. subst name. cbn [store]. unfold store1 at 1. destruct vm as [fl fo ro ty st pf] eqn:EV. rewrite HN.
    destruct (mem_str n fl) eqn:EM; [apply mem_str_In in EM; apply H0 in EM; discriminate|].
    apply IH.
    + destruct HS as (A & B). unfold sim in *. cbn [v_flags v_format v_roles v_types v_strs v_filter] in *. split; [|exact B].
      rewrite filter_app. cbn [filter]. rewrite str_eqb_refl. cbn [negb]. rewrite app_nil_r. assumption.
    + intros _. cbn [length] in H1. destruct (filter _ os); [reflexivity|cbn in H1; lia].
    + cbn [length] in H1. lia.
  - assert (Nn : name <> n) by (intros ->; rewrite str_eqb_refl in E; discriminate).
    cbn [store]. assert (HM := sim_mem _ _ name HS Nn).
    destruct vm as [fl fo ro ty st pf], vm' as [fl' fo' ro' ty' st' pf']. unfold sim in HS. cbn [v_flags v_format v_roles v_types v_strs v_filter] in *.
    destruct HS as (A & <- & <- & <- & <- & <-).
    assert (K : forall a b, (forall x, In x (v_flags a) -> In x fl \/ x = name) -> sim a b ->
       let '(r, err) := store sers to_int a os in let '(r', err') := store sers to_int b (filter other os) in sim r r' /\ err = err').
    { intros a b Ha Hab. apply IH; [assumption| |assumption]. intros I. apply Ha in I. destruct I as [I|I]; [auto|congruence]. }
    unfold store1.
    destruct (mem_str name FLAGS) eqn:EF.
    { rewrite HM. destruct (mem_str name fl); [split; [repeat split; auto|reflexivity]|]. apply K.
      - cbn. intros x Hx. apply in_app_or in Hx. destruct Hx as [Hx|[<-|[]]]; auto.
      - repeat split; cbn [v_flags]. rewrite filter_app. cbn [filter]. rewrite E. cbn [negb]. rewrite A. reflexivity. }
    assert (K' : forall a b, v_flags a = fl -> sim a b ->
       let '(r, err) := store sers to_int a os in let '(r', err') := store sers to_int b (filter other os) in sim r r' /\ err = err').
    { intros a b Ha. apply K. rewrite Ha. auto. }
    destruct (str_eqb name (S_ "format")).
    { destruct (validate_format sers fo vals); cbn [obind]; [apply K'; repeat split; auto|split; [repeat split; auto|reflexivity]|split; [repeat split; auto|reflexivity]]. }
    destruct (str_eqb name (S_ "role")).
    { destruct (validate_vector validate_role ro vals); cbn [obind]; [apply K'; repeat split; auto|split; [repeat split; auto|reflexivity]|split; [repeat split; auto|reflexivity]]. }
    destruct (str_eqb name (S_ "type")).
    { destruct (validate_vector validate_type ty vals); cbn [obind]; [apply K'; repeat split; auto|split; [repeat split; auto|reflexivity]|split; [repeat split; auto|reflexivity]]. }
    destruct (mem_str name STRINGS).
    { destruct (check_first (assoc_str name st)); cbn [obind]; [|split; [repeat split; auto|reflexivity]|split; [repeat split; auto|reflexivity]].
      destruct (get_single vals); cbn [obind]; [apply K'; repeat split; auto|split; [repeat split; auto|reflexivity]|split; [repeat split; auto|reflexivity]]. }
    destruct (str_eqb name (S_ "log-page-filter")); [|split; [repeat split; auto|reflexivity]].
    destruct (check_first pf); cbn [obind]; [|split; [repeat split; auto|reflexivity]|split; [repeat split; auto|reflexivity]].
    destruct (get_single vals) as [t| |]; cbn [obind]; [|split; [repeat split; auto|reflexivity]|split; [repeat split; auto|reflexivity]].
    destruct (to_int t); [apply K'; repeat split; auto|split; [repeat split; auto|reflexivity]].
Qed.
End Unused.
Lemma config_ext c c' : (forall m, disabled c m = disabled c' m) -> (forall m, logLevel c m = logLevel c' m) ->
  logPageFilter c = logPageFilter c' -> skipFonts c = skipFonts c' -> c = c'.
Proof.
  destruct c, c'. cbn. intros H1 H2 -> ->. f_equal; apply functional_extensionality; assumption.
Qed.
Theorem unused_ok name e os : In name UNUSED -> parsed e = Ok os ->
  length (filter (fun o => str_eqb (fst o) (S_ name)) os) <= 1 -> cli_main e = cli_main (without name e os).
Proof.
  intros HU HP HL.
  assert (HF : mem_str (S_ name) FLAGS = true /\ (forall s, In s FLAGS -> ~ In s (map S_ UNUSED) -> s <> S_ name) /\ S_ name <> S_ "pdf-file").
  { destruct HU as [<-|[<-|[<-|[<-|[]]]]]; (split; [reflexivity|]; split; [|discriminate]); intros s _ Hs ->; apply Hs; cbn; auto. }
  destruct HF as (HF & HO & _).
  unfold cli_main, without. rewrite HP. cbn [parsed sers to_int].
  pose proof (store_sim (S_ name) (sers e) (to_int e) HF os vm0 vm0) as HS.
  assert (E1 : filter (fun o => negb (other (S_ name) o)) os = filter (fun o => str_eqb (fst o) (S_ name)) os).
  { apply filter_ext. intros o. unfold other. apply negb_involutive. }
  rewrite E1 in HS. change (@filter (str * list str) (fun o : str * list str => negb (str_eqb (fst o) (S_ name))) os) with (@filter occ (other (S_ name)) os).
  destruct (store (sers e) (to_int e) vm0 os) as [vm err]. destruct (store (sers e) (to_int e) vm0 (filter (other (S_ name)) os)) as [vm' err'].
  destruct HS as [HS <-]; [repeat split|cbn; tauto|exact HL|].
  assert (HM : forall s, mem_str (S_ s) FLAGS = true -> mem_str (S_ s) (map S_ UNUSED) = false -> mem_str (S_ s) (v_flags vm) = mem_str (S_ s) (v_flags vm')).
  { intros s A B. symmetry. apply (sim_mem (S_ name)); [assumption|]. apply HO; [apply mem_str_In; assumption|]. intros X. apply mem_str_In in X. congruence. }
  destruct HS as (_ & E2 & E3 & E4 & E5 & E6). cbv beta iota zeta. rewrite <- E5.
  assert (ER : run_main e vm = run_main (without name e os) vm').
  { unfold run_main, without. cbn [engine shell can_open].
    rewrite (HM "full-help") by reflexivity. rewrite (HM "help") by reflexivity. rewrite (HM "version") by reflexivity. rewrite (HM "print-running-times") by reflexivity.
    assert (EG : forall k d, get_str vm k d = get_str vm' k d) by (intros; unfold get_str; rewrite E5; reflexivity). rewrite !EG, <- E2, <- E3, <- E6.
    assert (EV : visualizations vm = visualizations vm').
    { unfold visualizations. apply filter_ext_in. intros s Hs. apply in_map_iff in Hs. destruct Hs as (s0 & <- & Hs). cbn in Hs.
      repeat (destruct Hs as [<-|Hs]; [apply HM; reflexivity|]). destruct Hs. }
    rewrite EV.
    assert (EC : forall l f, config_of vm l f = config_of vm' l f).
    { intros l f. apply config_ext; [| |reflexivity|].
      - intros m. destruct m; cbn [config_of disabled]; try (apply HM; reflexivity). reflexivity.
      - intros m. destruct m; cbn [config_of logLevel]; (match goal with |- (if mem_str (S_ ?s) _ then _ else _) = _ => rewrite (HM s) by reflexivity end); reflexivity.
      - cbn [config_of skipFonts]. apply HM; reflexivity. }
    rewrite EC. reflexivity. }
  rewrite (HM "full-help") by reflexivity. rewrite (HM "help") by reflexivity. rewrite (HM "version") by reflexivity.
  destruct err as [w|]; [reflexivity|]. destruct (is_some (assoc_str (S_ "pdf-file") (v_strs vm))); [|reflexivity]. exact ER.
Qed.
