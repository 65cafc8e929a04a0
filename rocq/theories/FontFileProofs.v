(** FontFileProofs.v - the tables of subroutines and glyph programs, the whole encrypted part (C64). *)
From Coq Require Import ZArith NArith Reals.
From Verif Require Import Base Fonts FontsSpec CipherProofs CharstringProofs FontTextProofs.
Open Scope Z_scope.

Lemma one_space_spec s r : one_space s = Some r <-> exists c, white c /\ s = c :: r.
Proof.
  unfold one_space. destruct s as [|c t]; [split; [discriminate|intros [? [_ ?]]; discriminate]|].
  destruct (is_space c) eqn:E.
  - apply is_space_iff in E. split; [intro H; inversion H; subst; now exists c|]. intros [c' [_ H]]. inversion H. reflexivity.
  - split; [discriminate|]. intros [c' [W H]]. inversion H; subst. apply is_space_iff in W. congruence.
Qed.
(** [some_of f] on [a ++ b] where [a] is a maximal non-empty run. *)
Lemma some_of_run f a b : a <> [] -> Forall (fun c => f c = true) a -> match b with c :: _ => f c = false | [] => True end ->
  some_of f (a ++ b) = Some (a, b).
Proof. intros NE F B. unfold some_of. rewrite take_while_app by assumption. destruct a; [contradiction|reflexivity]. Qed.
Lemma some_of_spec f s a b : some_of f s = Some (a, b) -> s = a ++ b /\ a <> [] /\ Forall (fun c => f c = true) a.
Proof.
  unfold some_of. destruct (take_while_spec f s) as [x [y [E [ES [F _]]]]]. rewrite E. destruct x; [discriminate|].
  intro H. inversion H; subst. repeat split; [discriminate|exact F].
Qed.
Lemma decimal_bool ds n : decimal ds n -> ds <> [] /\ Forall (fun c => is_digit c = true) ds.
Proof. intros [NE [F _]]. split; [exact NE|]. eapply Forall_impl; [|exact F]. intro. apply is_digit_iff. Qed.
Lemma bool_decimal ds : ds <> [] -> Forall (fun c => is_digit c = true) ds -> decimal ds (decimal_value ds).
Proof. intros NE F. split; [exact NE|]. split; [|reflexivity]. eapply Forall_impl; [|exact F]. intro. apply is_digit_iff. Qed.
Lemma white_head c r : white c -> match c :: r with x :: _ => is_digit x = false | [] => True end.
Proof. intro W. cbn. now apply white_not_digit. Qed.

Lemma match_dup_complete h i n rest : subr_head h i n -> exists ds1 ds2, decimal ds1 i /\ decimal ds2 n /\ match_dup (h ++ rest) = Some (ds1, ds2, rest).
Proof.
  intro H. destruct H as [s1 s2 s3 s4 ds1 ds2 i n W1 W2 W3 W4 D1 D2]. exists ds1, ds2. split; [exact D1|]. split; [exact D2|].
  unfold match_dup. rewrite <- !app_assoc.
  rewrite (proj2 (starts_with_spec (S_ "dup") _ _) eq_refl). cbn [app].
  assert (SP : forall c r, white c -> one_space (c :: r) = Some r) by (intros c r W; apply one_space_spec; now exists c).
  destruct (decimal_bool _ _ D1) as [N1 F1]. destruct (decimal_bool _ _ D2) as [N2 F2].
  rewrite SP by exact W1. rewrite some_of_run by (try assumption; now apply white_head).
  rewrite SP by exact W2. rewrite some_of_run by (try assumption; now apply white_head).
  rewrite SP by exact W3. cbn [app]. rewrite (proj2 (starts_with_spec (S_ "RD") (S_ "RD" ++ s4 :: rest) _) eq_refl).
  rewrite SP by exact W4. reflexivity.
Qed.
Lemma match_dup_sound s a b rest : match_dup s = Some (a, b, rest) -> exists h i n, subr_head h i n /\ s = h ++ rest.
Proof.
  unfold match_dup. intro H.
  destruct (starts_with (S_ "dup") s) as [t1|] eqn:E1; [|discriminate]. apply starts_with_spec in E1.
  destruct (one_space t1) as [t2|] eqn:E2; [|discriminate]. apply one_space_spec in E2. destruct E2 as [s1 [W1 ->]].
  destruct (some_of is_digit t2) as [[d1 t3]|] eqn:E3; [|discriminate]. apply some_of_spec in E3. destruct E3 as [-> [N1 F1]].
  destruct (one_space t3) as [t4|] eqn:E4; [|discriminate]. apply one_space_spec in E4. destruct E4 as [s2 [W2 ->]].
  destruct (some_of is_digit t4) as [[d2 t5]|] eqn:E5; [|discriminate]. apply some_of_spec in E5. destruct E5 as [-> [N2 F2]].
  destruct (one_space t5) as [t6|] eqn:E6; [|discriminate]. apply one_space_spec in E6. destruct E6 as [s3 [W3 ->]].
  destruct (starts_with (S_ "RD") t6) as [t7|] eqn:E7; [|discriminate]. apply starts_with_spec in E7. subst t6.
  destruct (one_space t7) as [t8|] eqn:E8; [|discriminate]. apply one_space_spec in E8. destruct E8 as [s4 [W4 ->]].
  inversion H; subst. eexists. exists (decimal_value a), (decimal_value b). split.
  - apply (Subr_head s1 s2 s3 s4 a b); try assumption; apply bool_decimal; assumption.
  - rewrite <- !app_assoc. reflexivity.
Qed.
Lemma white_nonspace (c : ascii) : ~ white c <-> negb (is_space c) = true.
Proof. rewrite negb_true_iff. destruct (is_space c) eqn:E; [apply is_space_iff in E; split; [contradiction|discriminate]|]. split; [reflexivity|]. intros _ W. apply is_space_iff in W. congruence. Qed.
Lemma match_char_complete h name n rest : glyph_head h name n -> exists ds, decimal ds n /\ match_char (h ++ rest) = Some (name, ds, rest).
Proof.
  intro H. destruct H as [name ws s3 s4 ds n NN FN NW FW W3 W4 D]. exists ds. split; [exact D|].
  unfold match_char. rewrite <- !app_assoc.
  rewrite (proj2 (starts_with_spec (S_ "/") _ _) eq_refl).
  assert (SP : forall c r, white c -> one_space (c :: r) = Some r) by (intros c r W; apply one_space_spec; now exists c).
  destruct (decimal_bool _ _ D) as [N1 F1].
  assert (FN' : Forall (fun c => negb (is_space c) = true) name) by (eapply Forall_impl; [|exact FN]; intro; apply white_nonspace).
  assert (FW' : Forall (fun c => is_space c = true) ws) by (eapply Forall_impl; [|exact FW]; intro; apply is_space_iff).
  rewrite some_of_run; [|exact NN|exact FN'|].
  2:{ destruct ws as [|x ws]; [contradiction|]. cbn [app]. apply Forall_inv in FW'. now rewrite FW'. }
  rewrite some_of_run; [|exact NW|exact FW'|].
  2:{ destruct ds as [|x ds]; [contradiction|]. cbn [app]. apply Forall_inv in F1. apply is_digit_iff in F1. now apply digit_not_white. }
  rewrite some_of_run by (try assumption; now apply white_head).
  cbn [app]. rewrite SP by exact W3. rewrite (proj2 (starts_with_spec (S_ "RD") (S_ "RD" ++ s4 :: rest) _) eq_refl).
  rewrite SP by exact W4. reflexivity.
Qed.
Lemma match_char_sound s a b rest : match_char s = Some (a, b, rest) -> exists h x n, glyph_head h x n /\ s = h ++ rest.
Proof.
  unfold match_char. intro H.
  destruct (starts_with (S_ "/") s) as [t1|] eqn:E1; [|discriminate]. apply starts_with_spec in E1.
  destruct (some_of _ t1) as [[d1 t3]|] eqn:E3; [|discriminate]. apply some_of_spec in E3. destruct E3 as [-> [N1 F1]].
  destruct (some_of is_space t3) as [[ws t4]|] eqn:E4; [|discriminate]. apply some_of_spec in E4. destruct E4 as [-> [N0 F0]].
  destruct (some_of is_digit t4) as [[d2 t5]|] eqn:E5; [|discriminate]. apply some_of_spec in E5. destruct E5 as [-> [N2 F2]].
  destruct (one_space t5) as [t6|] eqn:E6; [|discriminate]. apply one_space_spec in E6. destruct E6 as [s3 [W3 ->]].
  destruct (starts_with (S_ "RD") t6) as [t7|] eqn:E7; [|discriminate]. apply starts_with_spec in E7. subst t6.
  destruct (one_space t7) as [t8|] eqn:E8; [|discriminate]. apply one_space_spec in E8. destruct E8 as [s4 [W4 ->]].
  inversion H; subst. eexists. exists a, (decimal_value b). split.
  - apply (Glyph_head a ws s3 s4 b); try assumption.
    + eapply Forall_impl; [|exact F1]. intro. apply white_nonspace.
    + eapply Forall_impl; [|exact F0]. intro. apply is_space_iff.
    + apply bool_decimal; assumption.
  - rewrite <- !app_assoc. reflexivity.
Qed.

(** ** The matches in a table *)
Section Matches.
  Context {A : Type} (head : str -> A -> Z -> Prop) (m : str -> option (str * str * str)) (key : str -> A -> Prop).
  Hypothesis complete : forall h x n rest, head h x n -> exists a ds, key a x /\ decimal ds n /\ m (h ++ rest) = Some (a, ds, rest).
  Hypothesis sound : forall s a b rest, m s = Some (a, b, rest) -> exists h x n, head h x n /\ s = h ++ rest.
  Hypothesis nonempty : forall h x n, head h x n -> h <> [].
  Lemma quiet_none text behind : quiet head text behind -> forall a b, text = a ++ b -> b <> [] -> m (b ++ behind) = None.
  Proof.
    intros Q a b E NE. destruct (m (b ++ behind)) as [[[x y] r]|] eqn:M; [|reflexivity]. exfalso.
    apply sound in M. destruct M as [h [v [n [H EQ]]]]. exact (Q a b h v n r E NE H EQ).
  Qed.
  Lemma m_nil : m [] = None.
  Proof.
    destruct (m []) as [[[a b] r]|] eqn:E; [|reflexivity]. apply sound in E. destruct E as [h [x [n [H E]]]].
    apply nonempty in H. destruct h; [contradiction|discriminate].
  Qed.
  Lemma matches_skip : forall text behind k, (forall a b, text = a ++ b -> b <> [] -> m (b ++ behind) = None) ->
    matches m (length text + k) (text ++ behind) = matches m k behind.
  Proof.
    induction text as [|c text IH]; intros behind k Q; [reflexivity|]. cbn [length Nat.add app].
    cbn [matches]. rewrite (Q [] (c :: text) eq_refl ltac:(discriminate) : m (c :: text ++ behind) = None).
    apply IH. intros a b E NE. apply (Q (c :: a) b); [cbn; congruence|exact NE].
  Qed.
  Lemma matches_nil k : matches m k [] = [].
  Proof. destruct k; [reflexivity|]. cbn. now rewrite m_nil. Qed.
  Definition entry (e : A * str) (x : str * str * str) : Prop :=
    exists a ds rest, x = (a, ds, snd e ++ rest) /\ key a (fst e) /\ decimal ds (Z.of_nat (length (snd e))) /\ Z.of_nat (length (snd e)) < 2 ^ 31.
  Lemma matches_table text es : table head text es -> forall k, (length text <= k)%nat -> Forall2 entry es (matches m k text).
  Proof.
    intro T. induction T as [text Q|junk h x data rest es Q H L T IH]; intros k K.
    - replace k with (length text + (k - length text))%nat by lia.
      pose proof (matches_skip text [] (k - length text) (quiet_none text [] Q)) as E. rewrite app_nil_r in E. rewrite E, matches_nil. constructor.
    - rewrite app_length in K. replace k with (length junk + (k - length junk))%nat by lia.
      rewrite matches_skip by (apply quiet_none; exact Q).
      destruct (complete h x _ (data ++ rest) H) as [a [ds [KA [D M]]]].
      rewrite !app_length in K. pose proof (nonempty _ _ _ H) as NE. destruct h as [|c h]; [contradiction|]. cbn [length] in K.
      destruct (k - length junk)%nat as [|k'] eqn:EK; [lia|]. cbn [matches]. rewrite M. constructor.
      + exists a, ds, rest. repeat split; try assumption; apply D.
      + apply IH. rewrite app_length. lia.
  Qed.
End Matches.

Definition dup_key (a : str) (i : Z) : Prop := decimal a i.
Lemma dup_table text es : table subr_head text es -> Forall2 (entry dup_key) es (matches match_dup (length text) text).
Proof.
  intro T. eapply matches_table; try exact T; try lia.
  - intros h x n rest H. destruct (match_dup_complete h x n rest H) as [a [b [D1 [D2 M]]]]. exists a, b. repeat split; try assumption; try apply D1; apply D2.
  - intros s a b rest M. exact (match_dup_sound s a b rest M).
  - intros h x n H. destruct H. discriminate.
Qed.
Lemma glyph_table text es : table glyph_head text es -> Forall2 (entry (@eq str)) es (matches match_char (length text) text).
Proof.
  intro T. eapply matches_table; try exact T; try lia.
  - intros h x n rest H. destruct (match_char_complete h x n rest H) as [ds [D M]]. exists x, ds. repeat split; try assumption; apply D.
  - intros s a b rest M. exact (match_char_sound s a b rest M).
  - intros h x n H. destruct H. discriminate.
Qed.

(** ** Reading the entries *)
Lemma stoi_decimal ds n : decimal ds n -> n < 2 ^ 31 -> stoi ds = Ok n.
Proof.
  intros D L. pose proof (stoi_digits ds n [] D I) as E. rewrite app_nil_r in E. rewrite E.
  assert (P : 0 <= n).
  { destruct D as [_ [F V]]. rewrite <- V. unfold decimal_value. clear - F.
    assert (G : forall l v, Forall digit l -> 0 <= v -> 0 <= fold_left (fun v c => 10 * v + (byte c - 48)) l v).
    { induction l as [|c l IH]; intros v Fl Hv; cbn [fold_left]; [exact Hv|]. apply Forall_cons_iff in Fl. destruct Fl as [D Fl]. apply IH; [exact Fl|]. unfold digit in D. lia. }
    apply G; [exact F|lia]. }
  assert (II : in_int n = true) by (apply in_int_iff; unfold int_range; lia). now rewrite II.
Qed.
Lemma charstring_at_spec data rest lenIV ts : stored lenIV data ts -> 0 <= lenIV -> 
  exists cs, charstring_at true (data ++ rest) (Z.of_nat (length data)) lenIV = Ok cs /\ charstring ts (bytes_of cs).
Proof.
  intros [iv [cs [LI [C ->]]]] P. exists cs. split; [|exact C]. unfold charstring_at. rewrite Nat2Z.id.
  rewrite firstn_app, firstn_all, Nat.sub_diag. cbn [firstn]. rewrite app_nil_r. unfold c_bytes.
  rewrite (proj2 (Z.leb_le _ _)) by lia. cbn [obind]. rewrite Nat2Z.id, firstn_all. unfold decrypt.
  rewrite decrypt_encrypt by lia. f_equal. rewrite Z.sub_0_r, <- LI. rewrite skipn_app, skipn_all, Nat.sub_diag. reflexivity.
Qed.

(** The subroutines: entries with distinct numbers, each a stored charstring. *)
Lemma read_subrs_spec lenIV : 0 <= lenIV -> forall es ms m0,
  Forall2 (entry dup_key) es ms -> (forall i data, In (i, data) es -> exists ts, stored lenIV data ts) ->
  (forall i data, In (i, data) es -> i < 2 ^ 31) ->
  exists m, read_subrs true lenIV ms m0 = Ok m /\
    forall i, (forall data, ~ In (i, data) es) -> subr_of i m = subr_of i m0.
Proof.
  intro P. induction es as [|[i data] es IH]; intros ms m0 F ST R; inversion F as [|? x ? ms' E F']; subst.
  - exists m0. split; reflexivity.
  - destruct E as [a [ds [rest [-> [KA [D L]]]]]]. cbn [fst snd] in *. cbn [read_subrs].
    rewrite (stoi_decimal a i KA) by (eapply R; left; reflexivity). cbn [obind].
    rewrite (stoi_decimal ds _ D L). cbn [obind].
    destruct (ST i data (or_introl eq_refl)) as [ts S1].
    destruct (charstring_at_spec data rest lenIV ts S1 P) as [cs [EC C]]. rewrite EC. cbn [obind].
    destruct (IH ms' ((i, cs) :: m0) F' ltac:(intros; eapply ST; right; eassumption) ltac:(intros; eapply R; right; eassumption)) as [m [EM K]].
    exists m. split; [exact EM|]. intros j N. rewrite K by (intros d I; apply (N d); now right). cbn [subr_of].
    destruct (Z.eqb_spec j i) as [->|]; [|reflexivity]. exfalso. apply (N data). now left.
Qed.
Lemma read_subrs_has lenIV : 0 <= lenIV -> forall es ms m0,
  Forall2 (entry dup_key) es ms -> (forall i data, In (i, data) es -> exists ts, stored lenIV data ts) ->
  (forall i data, In (i, data) es -> i < 2 ^ 31) -> NoDup (map fst es) ->
  forall m, read_subrs true lenIV ms m0 = Ok m ->
  forall i data, In (i, data) es -> exists cs, subr_of i m = Some cs /\ forall ts, stored lenIV data ts -> charstring ts (bytes_of cs).
Proof.
  intro P. induction es as [|[i data] es IH]; intros ms m0 F ST R ND m EM j d I; [destruct I|]. inversion F as [|? x ? ms' E F']; subst.
  destruct E as [a [ds [rest [-> [KA [D L]]]]]]. cbn [fst snd] in *. cbn [read_subrs] in EM.
  rewrite (stoi_decimal a i KA) in EM by (eapply R; left; reflexivity). cbn [obind] in EM.
  rewrite (stoi_decimal ds _ D L) in EM. cbn [obind] in EM.
  destruct (ST i data (or_introl eq_refl)) as [ts0 S0].
  destruct (charstring_at_spec data rest lenIV ts0 S0 P) as [cs [EC C]]. rewrite EC in EM. cbn [obind] in EM.
  cbn [map fst] in ND. apply NoDup_cons_iff in ND. destruct ND as [NI ND].
  destruct I as [I|I].
  - inversion I; subst j d. 
    destruct (read_subrs_spec lenIV P es ms' ((i, cs) :: m0) F' ltac:(intros; eapply ST; right; eassumption) ltac:(intros; eapply R; right; eassumption)) as [m' [EM' K]].
    rewrite EM' in EM. inversion EM; subst m'. exists cs. split.
    + rewrite K; [cbn [subr_of]; now rewrite Z.eqb_refl|]. intros d I2. apply NI. apply in_map_iff. exists (i, d). split; [reflexivity|exact I2].
    + intros ts2 S2. destruct (charstring_at_spec data rest lenIV ts2 S2 P) as [cs2 [EC2 C2]]. congruence.
  - exact (IH ms' ((i, cs) :: m0) F' ltac:(intros; eapply ST; right; eassumption) ltac:(intros; eapply R; right; eassumption) ND m EM j d I).
Qed.

(** The glyph programs. *)
Lemma glyph_run table subrs ts m cs : has_subrs table subrs -> exec subrs ts m_start m -> begins_with_sidebearing ts -> charstring ts (bytes_of cs) ->
  forall w, exists n s', (forall fuel, (n <= fuel)%nat -> parseCharString w table fuel cs cs_start = Some (Ok s')) /\ rel s' m /\ good s' m.
Proof.
  intros HS X [pre [o [rest [E [O SP]]]]] C w. subst ts.
  exact (glyph_good w table subrs o rest m HS O pre m_start cs_start cs SP X C ltac:(repeat split) eq_refl eq_refl eq_refl).
Qed.
Lemma box_of_set n b f x : box_of x (f_boxes (set_box n b f)) = if str_eqb x n then Some b else box_of x (f_boxes f).
Proof. reflexivity. Qed.
Lemma same_font_refl f : same_font f f.
Proof. unfold same_font. tauto. Qed.
Lemma same_font_trans f g k : same_font f g -> same_font g k -> same_font f k.
Proof. unfold same_font. intuition congruence. Qed.
Lemma set_box_same n b f : same_font f (set_box n b f).
Proof. unfold same_font. cbn. tauto. Qed.

Lemma read_chars_spec lenIV subrs tbl : 0 <= lenIV -> has_subrs tbl subrs -> forall es ms f,
  Forall2 (entry (@eq str)) es ms -> (forall name data, In (name, data) es -> exists ts m, glyph_ok lenIV subrs data ts m) -> NoDup (map fst es) ->
  exists n f', (forall fuel, (n <= fuel)%nat -> read_chars true fuel lenIV tbl ms f = Some (Ok f')) /\ same_font f f' /\
    (forall name, (forall data, ~ In (name, data) es) -> box_of name (f_boxes f') = box_of name (f_boxes f)) /\
    (forall name data ts m, In (name, data) es -> glyph_ok lenIV subrs data ts m ->
       exists b, box_of name (f_boxes f') = Some b /\ tight_box b (m_seen m) /\
         forall c t, In c (m_drawn m) -> (0 <= t <= 1)%R -> box_contains b (piece_x c t) (piece_y c t)).
Proof.
  intros P HS. induction es as [|[name data] es IH]; intros ms f F ST ND; inversion F as [|? x ? ms' E F']; subst.
  - exists 0%nat, f. split; [reflexivity|]. split; [apply same_font_refl|]. split; [reflexivity|]. intros ? ? ? ? [].
  - destruct E as [a [ds [rest [-> [KA [D L]]]]]]. cbn [fst snd] in *. subst name.
    destruct (ST a data (or_introl eq_refl)) as [ts [m [S1 [X B]]]].
    destruct (charstring_at_spec data rest lenIV ts S1 P) as [cs [EC C]].
    destruct (glyph_run tbl subrs ts m cs HS X B C true) as [n1 [s1 [P1 [R1 G1]]]].
    cbn [map fst] in ND. apply NoDup_cons_iff in ND. destruct ND as [NI ND].
    destruct (IH ms' (set_box a (cs_box s1) f) F' ltac:(intros; eapply ST; right; eassumption) ND) as [n2 [f' [P2 [SF [FR BX]]]]].
    exists (Nat.max n1 n2), f'. split; [|split; [|split]].
    + intros fuel LF. cbn [read_chars]. rewrite (stoi_decimal ds _ D L). cbn [rbind]. rewrite EC. cbn [rbind].
      rewrite P1 by lia. cbn [rbind]. apply P2. lia.
    + eapply same_font_trans; [apply set_box_same|exact SF].
    + intros nm N. rewrite FR by (intros d I; apply (N d); now right). rewrite box_of_set.
      destruct (str_eqb nm a) eqn:Q; [|reflexivity]. apply str_eqb_eq in Q. subst. exfalso. apply (N data). now left.
    + intros nm d ts2 m2 I OK. destruct I as [I|I].
      * inversion I; subst nm d. exists (cs_box s1). split.
        -- rewrite FR; [rewrite box_of_set, str_eqb_refl; reflexivity|]. intros d I2. apply NI. apply in_map_iff. exists (a, d). split; [reflexivity|exact I2].
        -- destruct OK as [S2 [X2 B2]]. destruct (charstring_at_spec data rest lenIV ts2 S2 P) as [cs2 [EC2 C2]].
           assert (cs2 = cs) by congruence. subst cs2.
           destruct (glyph_run tbl subrs ts2 m2 cs HS X2 B2 C2 true) as [n3 [s3 [P3 [R3 G3]]]].
           assert (s3 = s1).
           { pose proof (P1 (Nat.max n1 n3) ltac:(lia)) as Q1. pose proof (P3 (Nat.max n1 n3) ltac:(lia)) as Q3. rewrite Q1 in Q3. now inversion Q3. }
           subst s3. split; [apply G3|]. intros c t Ic Ht. exact (good_contains s1 m2 c t G3 Ic Ht).
      * exact (BX nm d ts2 m2 I OK).
Qed.

(** ** The decrypted text *)
Lemma read_lenIV_spec d lenIV : states_lenIV d lenIV -> read_lenIV d = Ok lenIV.
Proof.
  unfold read_lenIV. intros [[A ->]|(a & t & num & b & F1 & F2 & D & L)].
  - apply find_text_none in A. now rewrite A.
  - apply find_text_some in F1. rewrite F1. apply find_text_some in F2. rewrite F2. now apply stoi_decimal.
Qed.
Lemma decimal_nonneg ds n : decimal ds n -> 0 <= n.
Proof.
  intros [_ [F V]]. rewrite <- V. unfold decimal_value. clear - F.
  assert (G : forall l v, Forall digit l -> 0 <= v -> 0 <= fold_left (fun v c => 10 * v + (byte c - 48)) l v).
  { induction l as [|c l IH]; intros v Fl Hv; cbn [fold_left]; [exact Hv|]. apply Forall_cons_iff in Fl. destruct Fl as [D Fl]. apply IH; [exact Fl|]. unfold digit in D. lia. }
  apply G; [exact F|lia].
Qed.
Lemma lenIV_nonneg d lenIV : states_lenIV d lenIV -> 0 <= lenIV.
Proof. intros [[_ ->]|(a & t & num & b & _ & _ & D & _)]; [lia|]. eapply decimal_nonneg, D. Qed.

Lemma parse_decrypted_spec d lenIV ss gs subrs f : private_part d lenIV ss gs -> font_ok lenIV ss gs subrs ->
  exists n f', (forall fuel, (n <= fuel)%nat -> parse_decrypted true fuel d f = Some (Ok f')) /\ boxes_ok lenIV gs subrs f f'.
Proof.
  intros (SL & (a & t & sub & b & F1 & F2 & T1) & (a2 & chars & F3 & T2 & x & y & EN)) (ND1 & ST1 & SB & ND2 & GK).
  pose proof (lenIV_nonneg _ _ SL) as P. pose proof (dup_table _ _ T1) as M1. pose proof (glyph_table _ _ T2) as M2.
  assert (ST : forall i data, In (i, data) ss -> exists ts, stored lenIV data ts) by (intros i data I; apply (ST1 i data I)).
  assert (RG : forall i data, In (i, data) ss -> i < 2 ^ 31) by (intros i data I; apply (ST1 i data I)).
  destruct (read_subrs_spec lenIV P ss _ [] M1 ST RG) as [tbl [EM _]].
  assert (HS : has_subrs tbl subrs).
  { intros i body E. destruct (SB i body E) as [data [I S1]].
    destruct (read_subrs_has lenIV P ss _ [] M1 ST RG ND1 tbl EM i data I) as [cs [E2 K]]. exists cs. split; [exact E2|]. apply K, S1. }
  destruct (read_chars_spec lenIV subrs tbl P HS gs _ f M2 GK ND2) as [n [f' [R [SF [FR BX]]]]].
  exists n, f'. split; [|split; [exact SF|split; [exact FR|exact BX]]].
  intros fuel L. unfold parse_decrypted. rewrite (read_lenIV_spec _ _ SL). cbn [rbind].
  apply find_text_some in F1. rewrite F1. apply find_text_some in F2. rewrite F2. rewrite EM. cbn [rbind].
  apply find_text_some in F3. rewrite F3.
  assert (CE : contains (S_ "end") chars = true) by (apply contains_spec; exists x, y; exact EN). rewrite CE. apply R, L.
Qed.

(** The stream: encrypted with the key 55665 behind four arbitrary bytes. *)
Lemma parse_encrypted_spec s len data prefix d lenIV ss gs subrs f : decode_part s len = Ok (Some data) ->
  data = encrypt 55665 (prefix ++ d) -> length prefix = 4%nat -> private_part d lenIV ss gs -> font_ok lenIV ss gs subrs ->
  exists n f', (forall fuel, (n <= fuel)%nat -> parseEncryptedPart true fuel s len f = Some (Ok f')) /\ boxes_ok lenIV gs subrs f f'.
Proof.
  intros ED -> LP PP FO. destruct (parse_decrypted_spec d lenIV ss gs subrs f PP FO) as [n [f' [R B]]].
  exists n, f'. split; [|exact B]. intros fuel L. unfold parseEncryptedPart. rewrite ED. cbn [rbind]. unfold decrypt.
  rewrite decrypt_encrypt by lia. cbn [rbind]. change (Z.to_nat (4 - 0)) with 4%nat. rewrite <- LP, skipn_app, skipn_all, Nat.sub_diag.
  cbn [app skipn]. apply R, L.
Qed.
