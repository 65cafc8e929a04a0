(** VocabProofs.v - proofs about Roles.v: reading the vocabulary files. *)
From Coq Require Import ZArith NArith Lia.
From Verif Require Import Base Bpe BpeSpec BpeProofs Roles RolesSpec.

Lemma is_space_white c : is_space c = true <-> white c.
Proof.
  unfold is_space, white. cbn [In]. rewrite orb_true_iff, andb_true_iff, !N.leb_le, N.eqb_eq. split; [lia|].
  intros H. repeat (destruct H as [<-|H]; [lia|]). destruct H.
Qed.
Lemma is_digit_digit c : is_digit c = true <-> digit c.
Proof. unfold is_digit, digit. rewrite andb_true_iff, !N.leb_le. tauto. Qed.
Lemma digit_not_white c : digit c -> ~ white c.
Proof. unfold digit, white. cbn [In]. lia. Qed.

Lemma skip_spaces_app sp s : Forall white sp -> (match s with c :: _ => ~ white c | [] => True end) -> skip_spaces (sp ++ s) = s.
Proof.
  intros F H. induction F as [|c sp W F IH]; cbn [app skip_spaces].
  - destruct s as [|c s]; [reflexivity|]. cbn [skip_spaces]. destruct (is_space c) eqn:X; [|reflexivity]. apply is_space_white in X. contradiction.
  - apply is_space_white in W. rewrite W. exact IH.
Qed.
Lemma skip_spaces_split s : exists sp, s = sp ++ skip_spaces s /\ Forall white sp /\ match skip_spaces s with c :: _ => ~ white c | [] => True end.
Proof.
  induction s as [|c s IH]; [exists []; split; [reflexivity|]; split; constructor|]. cbn [skip_spaces].
  destruct (is_space c) eqn:X.
  - destruct IH as (sp & E & F & G). exists (c :: sp). cbn [app]. rewrite <- E. split; [reflexivity|]. split; [constructor; [apply is_space_white, X|exact F]|exact G].
  - exists []. split; [reflexivity|]. split; [constructor|]. intros W. apply is_space_white in W. congruence.
Qed.
Lemma take_digits_app ds s : Forall digit ds -> (match s with c :: _ => ~ digit c | [] => True end) -> take_digits (ds ++ s) = ds.
Proof.
  intros F H. induction F as [|c ds W F IH]; cbn [app take_digits].
  - destruct s as [|c s]; [reflexivity|]. cbn [take_digits]. destruct (is_digit c) eqn:X; [|reflexivity]. apply is_digit_digit in X. contradiction.
  - apply is_digit_digit in W. rewrite W, IH. reflexivity.
Qed.
Lemma take_digits_split s : exists r, s = take_digits s ++ r /\ Forall digit (take_digits s) /\ match r with c :: _ => ~ digit c | [] => True end.
Proof.
  induction s as [|c s IH]; [exists []; split; [reflexivity|]; split; constructor|]. cbn [take_digits].
  destruct (is_digit c) eqn:X.
  - destruct IH as (r & E & F & G). exists r. cbn [app]. rewrite <- E. split; [reflexivity|]. split; [constructor; [apply is_digit_digit, X|exact F]|exact G].
  - exists (c :: s). split; [reflexivity|]. split; [constructor|]. intros W. apply is_digit_digit in W. congruence.
Qed.
Lemma digits_value_from a ds : fold_left (fun a c => (10 * a + (Z.of_N c - 48))%Z) ds a = (a * 10 ^ Z.of_nat (length ds) + decimal ds)%Z.
Proof.
  revert a. induction ds as [|d ds IH]; intros a; [cbn [fold_left decimal length]; rewrite Z.pow_0_r; lia|].
  cbn [fold_left decimal length]. rewrite IH. rewrite Nat2Z.inj_succ, Z.pow_succ_r by lia. ring.
Qed.
Lemma digits_value_dec ds : digits_value ds = decimal ds.
Proof. unfold digits_value. rewrite digits_value_from. lia. Qed.

Definition after_sign (s : wstr) : Z * wstr :=
  match s with 45%N :: t => ((-1)%Z, t) | 43%N :: t => (1%Z, t) | _ => (1%Z, s) end.
Lemma stoi_eq s : stoi s = match take_digits (snd (after_sign (skip_spaces s))) with
  | [] => Throw "invalid_argument"
  | ds => let v := (fst (after_sign (skip_spaces s)) * digits_value ds)%Z in
          if ((- 2 ^ 31 <=? v) && (v <? 2 ^ 31))%Z then Ok v else Throw "out_of_range"
  end.
Proof. unfold stoi. fold (after_sign (skip_spaces s)). destruct (after_sign (skip_spaces s)). reflexivity. Qed.
Lemma after_sign_cases s : (exists t, s = 45%N :: t /\ after_sign s = ((-1)%Z, t)) \/ (exists t, s = 43%N :: t /\ after_sign s = (1%Z, t)) \/
  (after_sign s = (1%Z, s) /\ match s with c :: _ => c <> 45%N /\ c <> 43%N | [] => True end).
Proof.
  destruct s as [|c t]; [right; right; split; [reflexivity|exact I]|].
  destruct (N.eq_dec c 45) as [->|N1]; [left; exists t; split; reflexivity|].
  destruct (N.eq_dec c 43) as [->|N2]; [right; left; exists t; split; reflexivity|].
  right. right. split; [|split; assumption].
  unfold after_sign. destruct c as [|p]; [reflexivity|].
  do 6 (destruct p as [p|p|]; try reflexivity); congruence.
Qed.
Lemma is_int_bool v : ((- 2 ^ 31 <=? v) && (v <? 2 ^ 31))%Z = true <-> is_int v.
Proof. unfold is_int. rewrite andb_true_iff, Z.leb_le, Z.ltb_lt. reflexivity. Qed.

Lemma stoi_reads s z : stoi s = Ok z <-> reads s z /\ is_int z.
Proof.
  rewrite stoi_eq. split.
  - intros H. destruct (skip_spaces_split s) as (sp & E & F & G).
    destruct (take_digits_split (snd (after_sign (skip_spaces s)))) as (r & E2 & F2 & G2).
    destruct (take_digits (snd (after_sign (skip_spaces s)))) as [|d ds] eqn:ED; [discriminate|].
    cbv zeta in H. destruct (_ && _) eqn:B in H; [|discriminate]. apply is_int_bool in B. injection H as <-.
    split; [|exact B]. rewrite digits_value_dec in *. exists sp.
    destruct (after_sign_cases (skip_spaces s)) as [(t & E3 & A)|[(t & E3 & A)|(A & E3)]]; rewrite A in *; cbn [fst snd] in *.
    + exists [45%N], (d :: ds), r. rewrite E, E3. split; [f_equal; rewrite E2; reflexivity|]. split; [exact F|]. split; [discriminate|].
      split; [exact F2|]. split; [exact G2|]. right. right. split; [reflexivity|lia].
    + exists [43%N], (d :: ds), r. rewrite E, E3. split; [f_equal; rewrite E2; reflexivity|]. split; [exact F|]. split; [discriminate|].
      split; [exact F2|]. split; [exact G2|]. right. left. split; [reflexivity|lia].
    + exists [], (d :: ds), r. split; [rewrite E at 1; f_equal; exact E2|]. split; [exact F|]. split; [discriminate|].
      split; [exact F2|]. split; [exact G2|]. left. split; [reflexivity|lia].
  - intros [(sp & sg & ds & r & E & F & NE & D & G & Z) I]. subst s.
    assert (NW : forall c, digit c \/ c = 43%N \/ c = 45%N -> ~ white c) by (intros c; unfold digit, white; cbn [In]; lia).
    destruct ds as [|d ds]; [congruence|]. pose proof (Forall_inv D) as D0.
    destruct Z as [[-> Z]|[[-> Z]|[-> Z]]].
    + cbn [app]. rewrite (skip_spaces_app sp (d :: ds ++ r) F (NW d (or_introl D0))).
      assert (A : after_sign (d :: ds ++ r) = (1%Z, d :: ds ++ r)).
      { destruct (after_sign_cases (d :: ds ++ r)) as [(t & E3 & A)|[(t & E3 & A)|(A & E3)]]; [| |exact A].
        - injection E3 as -> _. unfold digit in D0. lia.
        - injection E3 as -> _. unfold digit in D0. lia. }
      rewrite A. cbn [fst snd]. change (d :: ds ++ r) with ((d :: ds) ++ r). rewrite (take_digits_app (d :: ds) r D G).
      cbv zeta. rewrite digits_value_dec. rewrite Z.mul_1_l, <- Z. apply is_int_bool in I. rewrite I. reflexivity.
    + cbn [app]. rewrite (skip_spaces_app sp (43%N :: d :: ds ++ r) F (NW 43%N (or_intror (or_introl eq_refl)))).
      cbn [after_sign fst snd]. change (d :: ds ++ r) with ((d :: ds) ++ r). rewrite (take_digits_app (d :: ds) r D G).
      cbv zeta. rewrite digits_value_dec. rewrite Z.mul_1_l, <- Z. apply is_int_bool in I. rewrite I. reflexivity.
    + cbn [app]. rewrite (skip_spaces_app sp (45%N :: d :: ds ++ r) F (NW 45%N (or_intror (or_intror eq_refl)))).
      cbn [after_sign fst snd]. change (d :: ds ++ r) with ((d :: ds) ++ r). rewrite (take_digits_app (d :: ds) r D G).
      cbv zeta. rewrite digits_value_dec. replace (-1 * decimal (d :: ds))%Z with z by lia. apply is_int_bool in I. rewrite I. reflexivity.
Qed.
Lemma stoi_throws s : (exists z, stoi s = Ok z) \/ exists w, stoi s = Throw w.
Proof.
  rewrite stoi_eq. destruct (take_digits _) as [|d ds]; [right; eauto|]. cbv zeta. destruct (_ && _); [left|right]; eauto.
Qed.

(** ** Lines *)
Lemma getline_none s : getline s = None <-> no_char 10 s.
Proof.
  unfold no_char. induction s as [|c s IH]; cbn [getline In]; [tauto|]. destruct (N.eqb_spec c 10) as [->|NE].
  - split; [discriminate|]. intros H. destruct H. left. reflexivity.
  - destruct (getline s) as [[l r]|]; split; intros H; try discriminate; try reflexivity.
    + exfalso. assert (X : Some (l, r) = None) by (apply IH; tauto). discriminate.
    + intros [X|X]; [congruence|]. exact (proj1 IH eq_refl X).
Qed.
Lemma getline_app l s : no_char 10 l -> getline (l ++ 10%N :: s) = Some (l, s).
Proof.
  unfold no_char. induction l as [|c l IH]; intros H; cbn [app getline]; [reflexivity|].
  destruct (N.eqb_spec c 10) as [->|NE]; [destruct H; left; reflexivity|]. rewrite IH; [reflexivity|]. intros X. apply H. right. exact X.
Qed.
Lemma split_tab_none s : split_tab s = None <-> no_char 9 s.
Proof.
  unfold no_char. induction s as [|c s IH]; cbn [split_tab In]; [tauto|]. destruct (N.eqb_spec c 9) as [->|NE].
  - split; [discriminate|]. intros H. destruct H. left. reflexivity.
  - destruct (split_tab s) as [[l r]|]; split; intros H; try discriminate; try reflexivity.
    + exfalso. assert (X : Some (l, r) = None) by (apply IH; tauto). discriminate.
    + intros [X|X]; [congruence|]. exact (proj1 IH eq_refl X).
Qed.
Lemma split_tab_app l s : no_char 9 l -> split_tab (l ++ 9%N :: s) = Some (l, s).
Proof.
  unfold no_char. induction l as [|c l IH]; intros H; cbn [app split_tab]; [reflexivity|].
  destruct (N.eqb_spec c 9) as [->|NE]; [destruct H; left; reflexivity|]. rewrite IH; [reflexivity|]. intros X. apply H. right. exact X.
Qed.
Lemma split_tab_some s l r : split_tab s = Some (l, r) -> s = l ++ 9%N :: r /\ no_char 9 l.
Proof.
  unfold no_char. revert l r. induction s as [|c s IH]; intros l r H; cbn [split_tab] in H; [discriminate|].
  destruct (N.eqb_spec c 9) as [->|NE].
  - injection H as <- <-. split; [reflexivity|intros []].
  - destruct (split_tab s) as [[l' r']|]; [|discriminate]. injection H as <- <-. destruct (IH l' r' eq_refl) as [-> N].
    split; [reflexivity|]. intros [X|X]; [congruence|contradiction].
Qed.
Section Tables.
  Context {M : Type} (add : wstr -> Z -> M -> M).
  Definition add_entry (m : M) (e : option (wstr * Z)) : M := match e with Some (t, z) => add t z m | None => m end.
  Lemma read_line_entry l e m : line_entry l e -> read_line add l m = Ok (add_entry m e).
  Proof.
    intros H. inversion H as [l' N|t num z N R I]; subst; unfold read_line.
    - apply split_tab_none in N. rewrite N. reflexivity.
    - rewrite (split_tab_app t num N). assert (S1 : stoi num = Ok z) by (apply stoi_reads; split; assumption). rewrite S1. reflexivity.
  Qed.
  Lemma read_line_cases l m : (exists e, line_entry l e /\ read_line add l m = Ok (add_entry m e)) \/
    ((forall e, ~ line_entry l e) /\ exists w, read_line add l m = Throw w).
  Proof.
    unfold read_line. destruct (split_tab l) as [[t num]|] eqn:E.
    - apply split_tab_some in E as [-> N]. destruct (stoi_throws num) as [(z & Z)|(w & Z)]; rewrite Z; cbn [obind].
      + left. exists (Some (t, z)). split; [|reflexivity]. apply stoi_reads in Z as [Z1 Z2]. constructor; assumption.
      + right. split; [|eauto]. intros e H. inversion H as [l' N'|t' num' z N' R I X]; subst.
        * unfold no_char in N'. apply N'. apply in_or_app. right. left. reflexivity.
        * assert (Y : split_tab (t' ++ 9%N :: num') = split_tab (t ++ 9%N :: num)) by congruence.
          rewrite (split_tab_app t' num' N'), (split_tab_app t num N) in Y. injection Y as -> ->.
          assert (S1 : stoi num = Ok z) by (apply stoi_reads; split; assumption). congruence.
    - left. exists None. split; [|reflexivity]. constructor. apply split_tab_none, E.
  Qed.

  Lemma loop_lines ls : forall es s good fuel m, Forall (no_char 10) ls -> Forall2 line_entry ls es -> length ls <= fuel ->
    read_loop add fuel (concat (map (fun l => l ++ [10%N]) ls) ++ s) good None m =
    read_loop add (fuel - length ls) s good None (fold_left add_entry es m).
  Proof.
    induction ls as [|l ls IH]; intros es s good fuel m F2 F L.
    - inversion F; subst. cbn [map concat app length fold_left]. rewrite Nat.sub_0_r. reflexivity.
    - inversion F as [|l' e ls' es' H1 H2]; subst. inversion F2 as [|? ? N1 N2]; subst.
      destruct fuel as [|fuel]; [cbn in L; lia|]. cbn [map concat read_loop length].
      rewrite <- !app_assoc. cbn [app]. rewrite (getline_app l _ N1), (read_line_entry l e m H1).
      rewrite (IH es' s good fuel _ N2 H2) by (cbn in L; lia). reflexivity.
  Qed.
  Lemma loop_ok ls rest es fuel m : Forall (no_char 10) ls -> no_char 10 rest -> Forall2 line_entry ls es -> length ls < fuel ->
    read_loop add fuel (concat (map (fun l => l ++ [10%N]) ls) ++ rest) true None m = Some (Ok tt, fold_left add_entry es m).
  Proof.
    intros N1 N2 F L. rewrite (loop_lines ls es rest true fuel m N1 F) by lia.
    destruct (fuel - length ls) as [|n] eqn:E; [lia|]. cbn [read_loop]. apply getline_none in N2. rewrite N2. reflexivity.
  Qed.
  (** A line that is no entry makes the loop throw. *)
  Lemma loop_throw ls l rest es good fuel m : Forall (no_char 10) ls -> no_char 10 l -> Forall2 line_entry ls es -> (forall e, ~ line_entry l e) ->
    length ls < fuel -> exists w, read_loop add fuel (concat (map (fun l => l ++ [10%N]) (ls ++ [l])) ++ rest) good None m = Some (Throw w, fold_left add_entry es m).
  Proof.
    intros N1 N2 F B L. rewrite map_app, concat_app, <- app_assoc. rewrite (loop_lines ls es _ good fuel m N1 F) by lia.
    destruct (fuel - length ls) as [|n] eqn:E; [lia|]. cbn [map concat read_loop]. rewrite app_nil_r, <- app_assoc. cbn [app].
    rewrite (getline_app l rest N2). destruct (read_line_cases l (fold_left add_entry es m)) as [(e & X & _)|(_ & w & X)]; [destruct (B e X)|].
    rewrite X. eauto.
  Qed.
  (** A broken file: the loop never ends normally. *)
  Lemma stuck_never fuel l : forall s m r, read_loop add fuel s false (Some l) m = Some r -> forall m', r <> (Ok tt, m').
  Proof.
    induction fuel as [|fuel IH]; intros s m r H m'; [discriminate|]. cbn [read_loop] in H.
    destruct (read_line add l m) as [m1|w|w]; [exact (IH _ _ _ H m')| |]; injection H as <-; discriminate.
  Qed.
  Lemma broken_never fuel : forall s m r, read_loop add fuel s false None m = Some r -> forall m', r <> (Ok tt, m').
  Proof.
    induction fuel as [|fuel IH]; intros s m r H m'; [discriminate|]. cbn [read_loop] in H.
    destruct (getline s) as [[l t]|].
    - destruct (read_line add l m) as [m1|w|w]; [exact (IH _ _ _ H m')| |]; injection H as <-; discriminate.
    - destruct (read_line add s m) as [m1|w|w]; [exact (stuck_never _ _ _ _ _ H m')| |]; injection H as <-; discriminate.
  Qed.
End Tables.

Lemma fold_entries {M} (add : wstr -> Z -> M -> M) es m :
  fold_left (add_entry add) es m = fold_left (fun m e => add (fst e) (snd e) m) (some_list es) m.
Proof. revert m. induction es as [|[[t z]|] es IH]; intros m; cbn [fold_left some_list add_entry]; [reflexivity|apply IH|apply IH]. Qed.

Lemma wstr_eqb_eq a b : wstr_eqb a b = true <-> a = b.
Proof. unfold wstr_eqb. destruct (list_eq_dec N.eq_dec a b); split; intros; congruence. Qed.
Lemma insert_fold es : forall m t, lookup t (fold_left (fun m e => insert_token (fst e) (snd e) m) es m) =
  match lookup t m with Some z => Some z | None => match find (fun e => wstr_eqb t (fst e)) es with Some e => Some (snd e) | None => None end end.
Proof.
  induction es as [|[t' z'] es IH]; intros m t; cbn [fold_left find]; [destruct (lookup t m); reflexivity|].
  rewrite IH. clear IH. cbn [fst snd]. unfold insert_token. destruct (lookup t' m) as [z0|] eqn:L'.
  - destruct (lookup t m) eqn:L; [reflexivity|]. destruct (wstr_eqb t t') eqn:Q; [|reflexivity].
    apply wstr_eqb_eq in Q. subst. congruence.
  - destruct (wstr_eqb t t') eqn:Q.
    + apply wstr_eqb_eq in Q. subst t'. rewrite L'. rewrite lookup_assign_eq. reflexivity.
    + rewrite lookup_assign_neq; [reflexivity|]. intros X. rewrite (proj2 (wstr_eqb_eq t t') (eq_sym X)) in Q. discriminate.
Qed.
Lemma find_first es t z : (match find (fun e : wstr * Z => wstr_eqb t (fst e)) es with Some e => Some (snd e) | None => None end) = Some z <->
  first_for t es z.
Proof.
  induction es as [|[t' z'] es IH]; cbn [find].
  - split; [discriminate|]. intros (pre & post & E & _). destruct pre; discriminate.
  - cbn [fst snd]. destruct (wstr_eqb t t') eqn:Q.
    + apply wstr_eqb_eq in Q. subst t'. split.
      * intros [= ->]. exists [], es. split; [reflexivity|]. intros v' [].
      * intros (pre & post & E & N). destruct pre as [|p pre]; [injection E as -> _; reflexivity|].
        injection E as E1 E2. subst p. destruct (N z'). left. reflexivity.
    + assert (NE : t' <> t) by (intros ->; rewrite (proj2 (wstr_eqb_eq t t) eq_refl) in Q; discriminate). rewrite IH. split.
      * intros (pre & post & -> & N). exists ((t', z') :: pre), post. split; [reflexivity|]. intros v' [X|X]; [congruence|exact (N v' X)].
      * intros (pre & post & E & N). destruct pre as [|p pre]; [cbn [app] in E; congruence|]. injection E as E1 E2. subst es. exists pre, post.
        split; [reflexivity|]. intros v' X. apply (N v'). right. exact X.
Qed.
Lemma lookup_role_assign z r m k : lookup_role k (assign_role z r m) = if (k =? z)%Z then Some r else lookup_role k m.
Proof.
  induction m as [|[k' r'] m IH]; cbn [assign_role lookup_role].
  - reflexivity.
  - destruct (Z.eqb_spec k' z) as [->|NE]; cbn [lookup_role].
    + destruct (Z.eqb_spec k z); reflexivity.
    + destruct (Z.eqb_spec k k') as [->|NE2].
      * destruct (Z.eqb_spec k' z); [congruence|reflexivity].
      * exact IH.
Qed.
Lemma roles_fold es : forall m k, lookup_role k (fold_left (fun m e => assign_role (snd e) (fst e) m) es m) =
  match find (fun e : wstr * Z => (k =? snd e)%Z) (rev es) with Some e => Some (fst e) | None => lookup_role k m end.
Proof.
  induction es as [|[t z] es IH]; intros m k; cbn [fold_left rev]; [reflexivity|]. rewrite IH. cbn [fst snd].
  assert (F : forall (p : wstr * Z -> bool) a b, find p (a ++ b) = match find p a with Some x => Some x | None => find p b end).
  { intros p a b. induction a as [|x a IHa]; [reflexivity|]. cbn [app find]. destruct (p x); [reflexivity|exact IHa]. }
  rewrite F. destruct (find _ (rev es)); [reflexivity|]. cbn [find snd fst]. rewrite lookup_role_assign. destruct (k =? z)%Z; reflexivity.
Qed.
Lemma find_last es k r : (match find (fun e : wstr * Z => (k =? snd e)%Z) (rev es) with Some e => Some (fst e) | None => None end) = Some r <->
  last_for k (map (fun e => (snd e, fst e)) es) r.
Proof.
  induction es as [|[t z] es IH] using rev_ind; cbn [rev find map].
  - split; [discriminate|]. intros (pre & post & E & _). destruct pre; discriminate.
  - rewrite rev_app_distr, map_app. cbn [rev app find map fst snd]. destruct (Z.eqb_spec k z) as [->|NE].
    + split.
      * intros [= ->]. exists (map (fun e => (snd e, fst e)) es), []. split; [reflexivity|]. intros v' [].
      * intros (pre & post & E & N). destruct post as [|p post] using rev_ind.
        -- apply app_inj_tail in E as [_ E]. injection E as ->. reflexivity.
        -- rewrite app_comm_cons, app_assoc in E. apply app_inj_tail in E as [_ <-]. destruct (N t). apply in_or_app. right. left. reflexivity.
    + rewrite IH. split.
      * intros (pre & post & E & N). exists pre, (post ++ [(z, t)]). rewrite E, <- app_assoc. split; [reflexivity|].
        intros v' X. apply in_app_or in X as [X|[X|[]]]; [exact (N v' X)|congruence].
      * intros (pre & post & E & N). destruct post as [|p post] using rev_ind.
        -- apply app_inj_tail in E as [_ E]. congruence.
        -- clear IHpost. rewrite app_comm_cons, app_assoc in E. apply app_inj_tail in E as [E <-]. exists pre, post.
           split; [rewrite E, <- ?app_assoc; reflexivity|]. intros v' X. apply (N v'). apply in_or_app. left. exact X.
Qed.
