(** FontExamples.v - tools to show that concrete fonts meet the hypotheses of the theorems in PropsFonts.v. *)
From Coq Require Import ZArith NArith Lia.
From Verif Require Import Base Double Fonts FontsSpec CipherProofs CharstringProofs FontTextProofs FontFileProofs.
Open Scope Z_scope.

Definition of_bytes (l : list Z) : str := map to_char l.
Lemma bytes_of_bytes l : forallb (fun z => (0 <=? z) && (z <? 256)) l = true -> bytes_of (of_bytes l) = l.
Proof.
  induction l as [|z l IH]; intro H; [reflexivity|]. cbn [forallb] in H. apply Bool.andb_true_iff in H as [A B]. apply Bool.andb_true_iff in A as [A1 A2].
  apply Z.leb_le in A1. apply Z.ltb_lt in A2. unfold bytes_of, of_bytes in *. cbn [map]. rewrite byte_to_char by lia. now rewrite IH.
Qed.
(** Encoding of charstrings with numbers of at most four digits. *)
Definition number_code (z : Z) : list Z :=
  if (-107 <=? z) && (z <=? 107) then [z + 139]
  else if 0 <? z then [247 + (z - 108) / 256; (z - 108) mod 256] else [251 + (- z - 108) / 256; (- z - 108) mod 256].
Definition code (ts : list token) : list Z := concat (map (fun t => match t with Number z => number_code z | Op o => op_bytes o end) ts).
Definition small (t : token) : bool := match t with Number z => (-1131 <=? z) && (z <=? 1131) | Op _ => true end.
Lemma number_code_ok z : (-1131 <=? z) && (z <=? 1131) = true -> number_bytes z (number_code z).
Proof.
  intro H. apply Bool.andb_true_iff in H as [A B]. apply Z.leb_le in A. apply Z.leb_le in B. unfold number_code.
  destruct ((-107 <=? z) && (z <=? 107)) eqn:E.
  - apply Bool.andb_true_iff in E as [E1 E2]. apply Z.leb_le in E1. apply Z.leb_le in E2. apply Num_1. lia.
  - apply Bool.andb_false_iff in E. rewrite !Z.leb_gt in E. destruct (Z.ltb_spec 0 z).
    + pose proof (Z.div_mod (z - 108) 256 ltac:(lia)) as D. pose proof (Z.mod_pos_bound (z - 108) 256 ltac:(lia)).
      set (q := (z - 108) / 256) in *. set (r := (z - 108) mod 256) in *.
      replace z with ((247 + q - 247) * 256 + r + 108) at 1 by lia. apply Num_pos; lia.
    + pose proof (Z.div_mod (- z - 108) 256 ltac:(lia)) as D. pose proof (Z.mod_pos_bound (- z - 108) 256 ltac:(lia)).
      set (q := (- z - 108) / 256) in *. set (r := (- z - 108) mod 256) in *.
      replace z with (- ((251 + q - 251) * 256) - r - 108) at 1 by lia. apply Num_neg; lia.
Qed.
Lemma code_ok ts : forallb small ts = true -> charstring ts (code ts).
Proof.
  unfold code. induction ts as [|[z|o] ts IH]; intro H; cbn [map concat].
  - constructor.
  - cbn [forallb] in H. apply Bool.andb_true_iff in H as [A B]. constructor; [now apply number_code_ok|now apply IH].
  - cbn [forallb] in H. constructor. now apply IH.
Qed.
Lemma charstring_of ts : forallb small ts = true -> forallb (fun z => (0 <=? z) && (z <? 256)) (code ts) = true ->
  charstring ts (bytes_of (of_bytes (code ts))).
Proof. intros H1 H2. rewrite bytes_of_bytes by exact H2. now apply code_ok. Qed.
Definition store (iv : str) (ts : list token) : str := encrypt 4330 (iv ++ of_bytes (code ts)).
Lemma store_ok lenIV iv ts : length iv = Z.to_nat lenIV -> forallb small ts = true -> forallb (fun z => (0 <=? z) && (z <? 256)) (code ts) = true ->
  stored lenIV (store iv ts) ts.
Proof. intros L H1 H2. exists iv, (of_bytes (code ts)). split; [exact L|]. split; [now apply charstring_of|reflexivity]. Qed.

(** An interpreter of token lists; sound for [exec]. *)
Definition in_rangeb (m : machine) : bool :=
  let ok z := (- 2 ^ 31 <=? z) && (z <? 2 ^ 31) in
  forallb ok (m_stack m) && forallb (fun p => ok (fst p) && ok (snd p)) (m_seen m).
Lemma in_rangeb_ok m : in_rangeb m = true -> in_range m.
Proof.
  intro H. apply Bool.andb_true_iff in H as [A B]. rewrite forallb_forall in A. rewrite forallb_forall in B. split; apply Forall_forall; intros x I.
  - specialize (A x I). unfold int_range. lia.
  - specialize (B x I). unfold int_range. lia.
Qed.
Fixpoint go_on (fuel : nat) (subrs : Z -> option (list token)) (ts : list token) (m : machine) : option machine :=
  match fuel with
  | O => None
  | S fuel =>
      match ts with
      | [] => Some m
      | Number z :: r => go_on fuel subrs r (mkM (z :: m_stack m) (m_ps m) (m_at m) (m_seen m) (m_drawn m))
      | [Op Return] | [Op Endchar] => Some m
      | Op (Return | Endchar) :: _ => None
      | Op Callsubr :: r =>
          match m_stack m with
          | i :: st => match subrs i with
                       | Some body => match go_on fuel subrs body (mkM st (m_ps m) (m_at m) (m_seen m) (m_drawn m)) with
                                      | Some m1 => go_on fuel subrs r m1 | None => None end
                       | None => None
                       end
          | [] => None
          end
      | Op o :: r => match apply_op o m with Some m1 => if in_rangeb m1 then go_on fuel subrs r m1 else None | None => None end
      end
  end.
Lemma go_on_ok subrs : forall fuel ts m m', go_on fuel subrs ts m = Some m' -> exec subrs ts m m'.
Proof.
  induction fuel as [|fuel IH]; intros ts m m' H; [discriminate|]. destruct ts as [|[z|o] r].
  - inversion H; subst. constructor.
  - constructor. apply IH. exact H.
  - assert (STEP : o <> Callsubr -> o <> Return -> o <> Endchar ->
        match apply_op o m with Some m1 => if in_rangeb m1 then go_on fuel subrs r m1 else None | None => None end = Some m' -> exec subrs (Op o :: r) m m').
    { intros N1 N2 N3 E. destruct (apply_op o m) as [m1|] eqn:A; [|discriminate]. destruct (in_rangeb m1) eqn:R; [|discriminate].
      eapply X_op; eauto. now apply in_rangeb_ok. }
    destruct o; try (apply STEP; try discriminate; exact H); cbn [go_on] in H.
    + destruct (m_stack m) as [|i st] eqn:ES; [discriminate|]. destruct (subrs i) as [body|] eqn:EB; [|discriminate].
      destruct (go_on fuel subrs body _) as [m1|] eqn:E1; [|discriminate]. eapply X_call; eauto.
    + destruct r; [|discriminate]. inversion H; subst. constructor.
    + destruct r; [|discriminate]. inversion H; subst. constructor.
Qed.

(** Texts. *)
Fixpoint quietb (m : str -> option (str * str * str)) (text behind : str) : bool :=
  match text with [] => true | c :: t => match m (text ++ behind) with Some _ => false | None => quietb m t behind end end.
Lemma quiet_subr text behind : quietb match_dup text behind = true -> quiet subr_head text behind.
Proof.
  intros Q a b h x n r E NE HD EB. revert text Q E. induction a as [|c a IH]; intros text Q E; subst text.
  - cbn [app] in Q. destruct b as [|c b]; [congruence|]. cbn [quietb] in Q. rewrite EB in Q.
    destruct (match_dup_complete h x n r HD) as (ds1 & ds2 & _ & _ & M). rewrite M in Q. discriminate.
  - cbn [app quietb] in Q. destruct (match_dup _); [discriminate|]. eapply IH; [exact Q|reflexivity].
Qed.
Lemma quiet_glyph text behind : quietb match_char text behind = true -> quiet glyph_head text behind.
Proof.
  intros Q a b h x n r E NE HD EB. revert text Q E. induction a as [|c a IH]; intros text Q E; subst text.
  - cbn [app] in Q. destruct b as [|c b]; [congruence|]. cbn [quietb] in Q. rewrite EB in Q.
    destruct (match_char_complete h x n r HD) as (ds & _ & M). rewrite M in Q. discriminate.
  - cbn [app quietb] in Q. destruct (match_char _); [discriminate|]. eapply IH; [exact Q|reflexivity].
Qed.
Lemma whiteb c : is_space c = true -> white c.
Proof. apply is_space_iff. Qed.
Lemma decimalb ds n : ds <> [] -> forallb is_digit ds = true -> decimal_value ds = n -> decimal ds n.
Proof. intros H1 H2 H3. split; [exact H1|]. split; [|exact H3]. apply Forall_forall. intros c I. apply is_digit_iff. rewrite forallb_forall in H2. now apply H2. Qed.
Lemma allb (f : ascii -> bool) (P : ascii -> Prop) s : (forall c, f c = true -> P c) -> forallb f s = true -> Forall P s.
Proof. intros H1 H2. apply Forall_forall. intros c I. apply H1. rewrite forallb_forall in H2. now apply H2. Qed.
