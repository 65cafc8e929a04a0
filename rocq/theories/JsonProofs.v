(** JsonProofs.v - the records of the JSONL serializer are JSON objects with the expected fields. *)
From Coq Require Import ZArith NArith.
From Flocq Require Import Core IEEE754.BinarySingleNaN.
From Verif Require Import Base Double Elements UtilsSpec TextUtils TextUtilsProofs Document Serialization SerializationSpec.

(** ** Numbers *)
Lemma digit_is_digit n : (n < 10)%N -> is_digit (digit n).
Proof.
  intros H. unfold is_digit, digit. rewrite <- N2Nat.id with (a := n).
  assert (N.to_nat n < 10) by lia. revert H0. generalize (N.to_nat n). intros k Hk.
  do 10 (destruct k as [|k]; [cbn; lia|]). lia.
Qed.
Lemma digit_zero n : (n < 10)%N -> digit n = "0"%char -> n = 0%N.
Proof.
  intros H. unfold digit. rewrite <- N2Nat.id with (a := n) at 1 2.
  assert (N.to_nat n < 10) by lia. intros E. cut (N.to_nat n = 0); [lia|]. revert H0 E. generalize (N.to_nat n). intros k Hk.
  do 10 (destruct k as [|k]; [cbn; intros; try reflexivity; discriminate|]). lia.
Qed.

Lemma digits_fuel_ok fuel : forall n acc, (n < 10 ^ N.of_nat fuel)%N -> (fuel <> 0) ->
  exists c t, digits_fuel fuel n acc = (c :: t) ++ acc /\ is_digit c /\ Forall is_digit t /\ (n <> 0%N -> c <> "0"%char) /\ (n = 0%N -> c :: t = ["0"%char]).
Proof.
  induction fuel as [|f IH]; intros n acc Hn Hf; [congruence|]. cbn [digits_fuel].
  assert (Hm : (n mod 10 < 10)%N) by (apply N.mod_lt; lia).
  destruct (N.eqb_spec (n / 10) 0) as [E|E].
  - exists (digit (n mod 10)), []. split; [reflexivity|]. split; [apply digit_is_digit; assumption|]. split; [constructor|].
    assert (Hlt : (n < 10)%N) by (apply N.div_small_iff in E; lia). rewrite N.mod_small by lia. split.
    + intros Hn0 Hc. apply digit_zero in Hc; lia.
    + intros ->. reflexivity.
  - rewrite Nat2N.inj_succ, N.pow_succ_r' in Hn.
    assert (Hd : (n / 10 < 10 ^ N.of_nat f)%N) by (apply N.div_lt_upper_bound; lia).
    assert (Hf0 : f <> 0) by (intros ->; change (10 ^ N.of_nat 0)%N with 1%N in Hd; apply E; apply N.lt_1_r; exact Hd).
    destruct (IH (n / 10)%N (digit (n mod 10) :: acc) Hd Hf0) as (c & t & E1 & Hc & Ht & Hnz & _).
    exists c, (t ++ [digit (n mod 10)]). split; [rewrite E1; cbn; rewrite <- app_assoc; reflexivity|].
    split; [assumption|]. split; [apply Forall_app; split; [assumption|constructor; [apply digit_is_digit; assumption|constructor]]|].
    split; [intros _; apply Hnz; assumption|]. intros ->. exfalso. apply E. reflexivity.
Qed.
Lemma size_nat_pow n : (n < 2 ^ N.of_nat (N.size_nat n))%N.
Proof.
  destruct n as [|p]; [reflexivity|]. cbn [N.size_nat].
  assert (G : forall p, (N.pos p < 2 ^ N.of_nat (Pos.size_nat p))%N).
  { clear p. induction p as [p IH|p IH|]; cbn [Pos.size_nat]; rewrite ?Nat2N.inj_succ, ?N.pow_succ_r'; [| |cbn; lia]; lia. }
  apply G.
Qed.
Lemma dec_digits_ok n : exists c t, dec_digits n = c :: t /\ is_digit c /\ Forall is_digit t /\ (n <> 0%N -> c <> "0"%char) /\ (n = 0%N -> c :: t = ["0"%char]).
Proof.
  unfold dec_digits. destruct (digits_fuel_ok (S (N.size_nat n)) n []) as (c & t & E & H).
  - pose proof (size_nat_pow n). rewrite Nat2N.inj_succ, N.pow_succ_r'.
    assert (2 ^ N.of_nat (N.size_nat n) <= 10 ^ N.of_nat (N.size_nat n))%N by (apply N.pow_le_mono_l; lia).
    assert (0 < 10 ^ N.of_nat (N.size_nat n))%N by (apply N.neq_0_lt_0, N.pow_nonzero; lia). lia.
  - congruence.
  - exists c, t. rewrite app_nil_r in E. tauto.
Qed.
Lemma dec_digits_int n : int_part (dec_digits n).
Proof.
  destruct (dec_digits_ok n) as (c & t & -> & Hc & Ht & Hnz & Hz). destruct (N.eq_dec n 0) as [->|N0].
  - rewrite (Hz eq_refl). constructor.
  - constructor; auto.
Qed.
Lemma dec_digits_digits n : digits (dec_digits n).
Proof. destruct (dec_digits_ok n) as (c & t & -> & Hc & Ht & _). split; [congruence|constructor; assumption]. Qed.

Lemma print_Z_number z : json_number (print_Z z).
Proof.
  unfold print_Z. destruct (z <? 0)%Z.
  - pose proof (jnum true (dec_digits (Z.to_N (- z))) [] [] (dec_digits_int _) (or_introl eq_refl) (or_introl eq_refl)) as H.
    rewrite app_nil_r in H. exact H.
  - pose proof (jnum false (dec_digits (Z.to_N z)) [] [] (dec_digits_int _) (or_introl eq_refl) (or_introl eq_refl)) as H.
    rewrite app_nil_r in H. exact H.
Qed.

Lemma drop_zeros_sub s : Forall is_digit s -> Forall is_digit (drop_zeros s).
Proof. induction s as [|c s IH]; intros H; [constructor|]. cbn. inversion H; subst. destruct (Ascii.eqb c "0"); auto. Qed.
Lemma strip_zeros_digits s : Forall is_digit s -> Forall is_digit (strip_zeros s).
Proof. intros H. unfold strip_zeros. apply Forall_rev, drop_zeros_sub, Forall_rev. assumption. Qed.
Lemma frac_ok s : Forall is_digit s -> frac s = [] \/ exists ds, digits ds /\ frac s = "."%char :: ds.
Proof.
  intros H. unfold frac. apply strip_zeros_digits in H. destruct (strip_zeros s) as [|c t]; [left; reflexivity|].
  right. exists (c :: t). split; [split; [congruence|assumption]|reflexivity].
Qed.

Lemma exp10_up_low fuel num den x0 x d0 : (0 <= x0)%Z -> (den = d0 * 10 ^ x0)%Z -> (den <= num)%Z ->
  exp10_up fuel num den x0 = x -> (0 <= x)%Z /\ (d0 * 10 ^ x <= num)%Z.
Proof.
  revert den x0; induction fuel as [|f IH]; intros den x0 H0 Hd Hle E; cbn in E.
  - subst. split; lia.
  - destruct (Z.leb_spec (den * 10) num).
    + apply (IH (den * 10)%Z (x0 + 1)%Z); try assumption; [lia|]. rewrite Z.pow_add_r by lia. lia.
    + subst. split; lia.
Qed.
Lemma exp10_down_low fuel num den x0 x n0 : (x0 <= 0)%Z -> (num = n0 * 10 ^ (- x0))%Z -> (den <= num * 10 ^ Z.of_nat fuel)%Z ->
  exp10_down fuel num den x0 = x -> (x <= 0)%Z /\ (den <= n0 * 10 ^ (- x))%Z.
Proof.
  revert num x0; induction fuel as [|f IH]; intros num x0 H0 Hn Hle E; cbn [exp10_down] in E.
  - subst. cbn in Hle. split; lia.
  - destruct (Z.ltb_spec num den).
    + apply (IH (num * 10)%Z (x0 - 1)%Z); try assumption; [lia| |].
      * rewrite Hn. replace (- (x0 - 1))%Z with (- x0 + 1)%Z by lia. rewrite Z.pow_add_r by lia. lia.
      * rewrite Nat2Z.inj_succ, Z.pow_succ_r in Hle by lia. nia.
    + subst. split; lia.
Qed.
Lemma round_pos num den : (0 < den)%Z -> (den <= num)%Z -> (0 < round_half_even num den)%Z.
Proof.
  intros Hd Hn. unfold round_half_even. assert (1 <= num / den)%Z by (apply Z.div_le_lower_bound; lia).
  destruct (2 * (num mod den) ?= den)%Z; [destruct (Z.even _)| |]; lia.
Qed.
Definition printable_ratio (num den : Z) : Prop := (0 < num)%Z /\ (0 < den)%Z /\ (den <= num * 10 ^ 400)%Z.
Lemma six_digits_pos num den : printable_ratio num den -> (0 < fst (six_digits num den))%Z.
Proof.
  intros (Hn & Hd & Hb). unfold six_digits. set (x := exp10 num den).
  assert (HX : (0 <= x /\ den * 10 ^ x <= num)%Z \/ (x <= 0 /\ den <= num * 10 ^ (- x))%Z).
  { unfold x, exp10. destruct (Z.ltb_spec num den).
    - right. apply (exp10_down_low 400 num den 0); [lia|lia|exact Hb|reflexivity].
    - left. apply (exp10_up_low 400 num den 0); [lia|lia|lia|reflexivity]. }
  set (n := if (x <=? 5)%Z then _ else _).
  assert (Hn0 : (0 < n)%Z).
  { unfold n. destruct (Z.leb_spec x 5).
    - apply round_pos; [assumption|]. destruct HX as [[H0 H1]|[H0 H1]].
      + assert (1 <= 10 ^ (5 - x))%Z by (apply (Z.pow_le_mono_r 10 0); lia).
        assert (1 <= 10 ^ x)%Z by (apply (Z.pow_le_mono_r 10 0); lia). nia.
      + replace (5 - x)%Z with (- x + 5)%Z by lia. rewrite Z.pow_add_r by lia. nia.
    - destruct HX as [[H0 H1]|[H0 H1]]; [|lia].
      assert (0 < 10 ^ (x - 5))%Z by (apply Z.pow_pos_nonneg; lia).
      apply round_pos; [nia|]. replace x with ((x - 5) + 5)%Z in H1 by lia. rewrite Z.pow_add_r in H1 by lia. nia. }
  destruct (Z.eqb_spec n 1000000); cbn; lia.
Qed.

Lemma Forall_skipn {A} (P : A -> Prop) n l : Forall P l -> Forall P (skipn n l).
Proof. revert l; induction n as [|n IH]; intros [|x l] H; cbn; auto. inversion H; auto. Qed.
Lemma Forall_firstn {A} (P : A -> Prop) n l : Forall P l -> Forall P (firstn n l).
Proof. revert l; induction n as [|n IH]; intros [|x l] H; cbn; auto. inversion H; auto. Qed.

Lemma print_pos_number (neg : bool) num den : printable_ratio num den ->
  json_number ((if neg then ["-"%char] else []) ++ print_pos num den).
Proof.
  intros Hr. pose proof (six_digits_pos num den Hr) as Hn. unfold print_pos. destruct (six_digits num den) as [n x]. cbn [fst] in Hn.
  destruct (dec_digits_ok (Z.to_N n)) as (c & t & E & Hc & Ht & Hnz & _). rewrite E.
  assert (Hc0 : c <> "0"%char) by (apply Hnz; lia).
  destruct ((-4 <=? x) && (x <? 6))%Z.
  - destruct (0 <=? x)%Z.
    + replace (Z.to_nat x + 1) with (S (Z.to_nat x)) by lia. cbn [firstn skipn].
      rewrite <- (app_nil_r (frac _)). apply jnum; [|apply frac_ok|left; reflexivity].
      * constructor; auto. apply Forall_firstn. assumption.
      * apply Forall_skipn. assumption.
    + rewrite <- (app_nil_r (frac _)). apply jnum; [constructor|apply frac_ok|left; reflexivity].
      apply Forall_app. split; [|constructor; assumption]. apply Forall_forall. intros a Ha. apply repeat_spec in Ha. subst.
      unfold is_digit. cbn. lia.
  - cbn [firstn skipn]. apply jnum; [constructor; auto|apply frac_ok; assumption|].
    right. set (e := dec_digits (Z.to_N (Z.abs x))). exists "e"%char, (if (x <? 0)%Z then S_ "-" else S_ "+").
    exists (if length e <? 2 then "0"%char :: e else e). split; [left; reflexivity|]. split; [destruct (x <? 0)%Z; [right; right|right; left]; reflexivity|].
    split; [|reflexivity]. destruct (dec_digits_digits (Z.to_N (Z.abs x))) as [H1 H2]. fold e in H1, H2.
    destruct (length e <? 2); [split; [congruence|constructor; [unfold is_digit; cbn; lia|assumption]]|split; assumption].
Qed.

Lemma bounded_emin m e : SpecFloat.bounded 53 1024 m e = true -> (-1074 <= e)%Z.
Proof.
  unfold SpecFloat.bounded, SpecFloat.canonical_mantissa, SpecFloat.fexp, SpecFloat.emin. intros H.
  apply andb_prop in H. destruct H as [H _]. apply Zeq_bool_eq in H. lia.
Qed.
Theorem print_double_number d : is_fin d = true -> json_number (print_double d).
Proof.
  destruct d as [s|s| |s m e He]; cbn [is_fin is_finite print_double]; try discriminate; intros _.
  - destruct s.
    + pose proof (jnum true ["0"%char] [] [] ip_zero (or_introl eq_refl) (or_introl eq_refl)) as H. exact H.
    + pose proof (jnum false ["0"%char] [] [] ip_zero (or_introl eq_refl) (or_introl eq_refl)) as H. exact H.
  - apply bounded_emin in He. destruct (Z.leb_spec 0 e).
    + assert (0 < 2 ^ e)%Z by (apply Z.pow_pos_nonneg; lia).
      assert (printable_ratio (Z.pos m * 2 ^ e) 1) as R by (split; [nia|]; split; [lia|]; assert (0 < 10 ^ 400)%Z by (apply Z.pow_pos_nonneg; lia); nia).
      destruct s; [exact (print_pos_number true _ _ R)|exact (print_pos_number false _ _ R)].
    + assert (0 < 2 ^ (- e))%Z by (apply Z.pow_pos_nonneg; lia).
      assert (printable_ratio (Z.pos m) (2 ^ (- e))) as R.
      { split; [lia|]. split; [assumption|].
        assert (2 ^ (- e) <= 2 ^ 1074)%Z by (apply Z.pow_le_mono_r; lia).
        assert (2 ^ 1074 <= 10 ^ 400)%Z by (apply Z.leb_le; vm_compute; reflexivity). nia. }
      destruct s; [exact (print_pos_number true _ _ R)|exact (print_pos_number false _ _ R)].
Qed.

(** ** Objects *)
From Verif Require Import JsonSpec.

Lemma plain_decode s : plain s -> json_decode s = Some s.
Proof.
  induction s as [|c s IH]; intros H; [reflexivity|]. inversion H as [|? ? (Hq & Hb & H32) Hs]; subst.
  cbn [json_decode]. destruct (Ascii.eqb_spec c "\"); [congruence|]. destruct (Ascii.eqb_spec c """"); [exfalso; apply Hq; assumption|].
  destruct (Nat.ltb_spec (nat_of_ascii c) 32); [lia|]. cbn [orb]. rewrite IH by assumption. reflexivity.
Qed.

(** [mem s l]: [s] is a member list followed by the closing brace. *)
Definition mem (s : str) (l : list (str * jval)) : Prop := exists m, s = m ++ ["}"%char] /\ jmembers m l.
Lemma mem_obj s l : mem s l -> json (S_ "{" ++ s) (VObj l).
Proof. intros (m & -> & H). apply (j_obj m l H). Qed.
Lemma mem_more k s v r l : json_decode (S_ k) = Some (S_ k) -> json s v -> mem r l ->
  mem (key k ++ s ++ S_ ", " ++ r) (fld k v :: l).
Proof.
  intros Hk Hs (m & -> & H). exists (key k ++ s ++ S_ ", " ++ m). split; [rewrite <- !app_assoc; reflexivity|].
  pose proof (jm_more (S_ k) (S_ k) 1 s v 1 m l Hk Hs H) as J. cbn [repeat] in J.
  unfold key, quoted, dq, fld. rewrite <- !app_assoc. cbn [app]. exact J.
Qed.
Lemma mem_more_tight k s v r l : json_decode (S_ k) = Some (S_ k) -> json s v -> mem r l ->
  mem (key k ++ s ++ S_ "," ++ r) (fld k v :: l).
Proof.
  intros Hk Hs (m & -> & H). exists (key k ++ s ++ S_ "," ++ m). split; [rewrite <- !app_assoc; reflexivity|].
  pose proof (jm_more (S_ k) (S_ k) 1 s v 0 m l Hk Hs H) as J. cbn [repeat] in J.
  unfold key, quoted, dq, fld. rewrite <- !app_assoc. cbn [app]. exact J.
Qed.
Lemma mem_tail : mem tail [origin_field].
Proof.
  exists (key "origin" ++ quoted (S_ "pdftotext++")). split; [reflexivity|].
  apply (jm_one (S_ "origin") (S_ "origin") 1 (quoted (S_ "pdftotext++")) (VStr (S_ "pdftotext++")) eq_refl).
  apply (j_str (S_ "pdftotext++")). reflexivity.
Qed.
Lemma json_quoted b s : json_decode b = Some s -> json (quoted b) (VStr s).
Proof. apply j_str. Qed.
Lemma json_plain s : plain s -> json (quoted s) (VStr s).
Proof. intros H. apply json_quoted, plain_decode, H. Qed.
Lemma json_escaped s : json (quoted (escapeJson s)) (VStr s).
Proof. apply json_quoted, escapeJson_roundtrip. Qed.
Lemma json_int z : json (print_Z z) (vint z).
Proof. apply j_num, print_Z_number. Qed.
Lemma json_dbl d : is_fin d = true -> json (print_double d) (vdbl d).
Proof. intros H. apply j_num, print_double_number, H. Qed.
Lemma json_bool b : json (bool_str b) (VBool b).
Proof. destruct b; constructor. Qed.
Lemma json_color r g b : is_fin r = true -> is_fin g = true -> is_fin b = true ->
  json (S_ "[" ++ print_double r ++ S_ "," ++ print_double g ++ S_ "," ++ print_double b ++ S_ "]") (VArr [vdbl r; vdbl g; vdbl b]).
Proof.
  intros Hr Hg Hb.
  pose proof (je_more _ _ 0 _ _ (json_dbl r Hr) (je_more _ _ 0 _ _ (json_dbl g Hg) (je_one _ _ (json_dbl b Hb)))) as J.
  cbn [repeat app] in J. apply j_arr in J.
  replace (S_ "[" ++ print_double r ++ S_ "," ++ print_double g ++ S_ "," ++ print_double b ++ S_ "]") with
    ("["%char :: (print_double r ++ ","%char :: print_double g ++ ","%char :: print_double b) ++ ["]"%char]); [exact J|].
  cbn. rewrite <- !app_assoc. cbn. rewrite <- !app_assoc. reflexivity.
Qed.
Lemma mem_box q r l : fin_box q -> mem r l -> mem (box_fields q ++ r) (box_json q ++ l).
Proof.
  intros (H1 & H2 & H3 & H4) Hm. unfold box_fields, box_json. rewrite <- !app_assoc. cbn [app].
  repeat (apply mem_more; [reflexivity|first [apply json_int|apply json_dbl; assumption]|]). assumption.
Qed.
Ltac field := apply mem_more; [reflexivity|first [apply json_int|apply json_escaped|apply json_bool|apply json_plain; assumption|apply json_dbl; assumption|apply json_quoted; reflexivity]|].

Lemma page_record_ok h p : clean_page h p -> json (page_record p) (page_json p).
Proof.
  intros (H1 & H2 & _). unfold page_record, page_json. apply mem_obj. do 4 field. exact mem_tail.
Qed.
Lemma elem_record_ok ty e : json_decode (S_ ty) = Some (S_ ty) -> clean_elem e -> json (elem_record ty e) (elem_json ty e).
Proof.
  intros Hty (H1 & H2). unfold elem_record, elem_json. apply mem_obj. cbn [app].
  apply mem_more; [reflexivity|apply json_quoted; assumption|]. do 2 field. apply mem_box; [assumption|exact mem_tail].
Qed.
Lemma word_record_ok b w : plain (b_id b) -> clean_word w -> json (word_record b w) (word_json b w).
Proof.
  intros Hb (H1 & H2 & H3 & H4 & _). unfold word_record, word_json. apply mem_obj. cbn [app]. do 3 field.
  apply mem_box; [assumption|]. do 4 field. exact mem_tail.
Qed.
Lemma role_plain r : plain (nth r SEMANTIC_ROLE_NAMES []).
Proof.
  assert (H : Forall plain SEMANTIC_ROLE_NAMES).
  { assert (G : forallb (forallb (fun c => negb (Ascii.eqb c quote) && negb (Ascii.eqb c "\") && (32 <=? nat_of_ascii c))) SEMANTIC_ROLE_NAMES = true) by (vm_compute; reflexivity).
    rewrite forallb_forall in G. apply Forall_forall. intros s Hs. apply G in Hs. rewrite forallb_forall in Hs. apply Forall_forall. intros c Hc.
    apply Hs in Hc. apply andb_prop in Hc. destruct Hc as [Hc H32]. apply andb_prop in Hc. destruct Hc as [Hq Hb].
    apply negb_true_iff in Hq, Hb. apply Ascii.eqb_neq in Hq, Hb. apply Nat.leb_le in H32. auto. }
  destruct (nth_in_or_default r SEMANTIC_ROLE_NAMES []) as [I|E]; [|rewrite E; constructor]. rewrite Forall_forall in H. auto.
Qed.
Lemma block_record_ok h b : clean_block h b -> json (block_record (nth (b_role b) SEMANTIC_ROLE_NAMES []) b) (block_json b).
Proof.
  intros (H1 & H2 & H3 & H4 & _). unfold block_record, block_json. apply mem_obj. cbn [app]. do 3 field.
  apply mem_box; [assumption|]. pose proof (role_plain (b_role b)). do 4 field. exact mem_tail.
Qed.
Lemma char_record_ok f w b c : plain (b_id b) -> plain (w_id w) -> clean_char c -> json (char_record f w b c) (char_json f w b c).
Proof.
  intros Hb Hw (H1 & H2 & H3 & H4 & H5 & H6). unfold char_record, char_json. destruct (c_color c) as [[cr cg] cb]. destruct H6 as (Hr & Hg & Hbl).
  apply mem_obj. cbn [app]. do 3 field. apply mem_box; [assumption|]. do 7 field.
  match goal with |- mem (key "color" ++ ?rest) _ => idtac end.
  assert (E : forall rest, S_ "[" ++ print_double cr ++ S_ "," ++ print_double cg ++ S_ "," ++ print_double cb ++ S_ "]" ++ S_ "," ++ rest =
    (S_ "[" ++ print_double cr ++ S_ "," ++ print_double cg ++ S_ "," ++ print_double cb ++ S_ "]") ++ S_ "," ++ rest) by (intros rest; rewrite <- !app_assoc; reflexivity).
  rewrite E. apply mem_more_tight; [reflexivity|apply json_color; assumption|]. do 4 field. exact mem_tail.
Qed.

(** ** Whole output *)
Definition rec_ok (o : outcome str) (v : jval) : Prop := exists s, o = Ok s /\ json s v.
Lemma olist_ok l vs : Forall2 rec_ok l vs -> exists ls, olist l = Ok ls /\ Forall2 json ls vs.
Proof.
  induction 1 as [|o v l vs (s & -> & Hs) _ (ls & E & HF)].
  - exists []. split; [reflexivity|constructor].
  - exists (s :: ls). cbn [olist obind]. rewrite E. split; [reflexivity|constructor; assumption].
Qed.
Lemma Forall2_map_in {A B C} (R : B -> C -> Prop) (f : A -> B) (g : A -> C) l :
  (forall x, In x l -> R (f x) (g x)) -> Forall2 R (map f l) (map g l).
Proof. induction l as [|x l IH]; intros H; cbn; constructor; [apply H; left; reflexivity|apply IH; intros; apply H; right; assumption]. Qed.
Lemma Forall2_flat_map_in {A B C} (R : B -> C -> Prop) (f : A -> list B) (g : A -> list C) l :
  (forall x, In x l -> Forall2 R (f x) (g x)) -> Forall2 R (flat_map f l) (flat_map g l).
Proof. induction l as [|x l IH]; intros H; cbn; [constructor|]. apply Forall2_app; [apply H; left; reflexivity|apply IH; intros; apply H; right; assumption]. Qed.
Lemma sel_blocks_selected d roles : sel_blocks d roles = flat_map (selected roles) (d_pages d).
Proof.
  unfold sel_blocks, selected. induction (d_pages d) as [|p ps IH]; [reflexivity|]. cbn [flat_map]. rewrite IH. f_equal.
  apply filter_ext. intros b. unfold has_role. destruct (in_dec Nat.eq_dec (b_role b) roles) as [I|N].
  - apply existsb_exists. exists (b_role b). split; [assumption|apply Nat.eqb_refl].
  - destruct (existsb _ roles) eqn:E; [|reflexivity]. apply existsb_exists in E. destruct E as (x & Hx & Ex). apply Nat.eqb_eq in Ex. subst. tauto.
Qed.
Lemma flat_map_flat_map {A B C} (f : A -> list B) (g : B -> list C) l : flat_map g (flat_map f l) = flat_map (fun x => flat_map g (f x)) l.
Proof. induction l as [|x l IH]; [reflexivity|]. cbn. rewrite flat_map_app, IH. reflexivity. Qed.
Lemma map_flat_map' {A B C} (f : A -> list B) (g : B -> C) l : map g (flat_map f l) = flat_map (fun x => map g (f x)) l.
Proof. induction l as [|x l IH]; [reflexivity|]. cbn. rewrite map_app, IH. reflexivity. Qed.
Lemma block_words_same h b : block_words h b = block_words_of h b.
Proof. unfold block_words, block_words_of. induction (b_lines b) as [|l ls IH]; [reflexivity|]. cbn. rewrite map_app, IH. reflexivity. Qed.

Theorem jsonl_ok d h roles units : clean d h -> Forall (fun r => r < 14) roles -> fonts_known d h roles ->
  exists ls, jsonl_lines d h roles units = Ok ls /\ Forall2 json ls (flat_map (unit_json d h roles) units).
Proof.
  intros HC HR HFo. unfold jsonl_lines. apply olist_ok. apply Forall2_flat_map_in. intros u _.
  unfold clean in HC. rewrite Forall_forall in HC, HR.
  assert (HB : forall b, In b (flat_map (selected roles) (d_pages d)) -> clean_block h b /\ b_role b < 14).
  { intros b Hb. apply in_flat_map in Hb. destruct Hb as (p & Hp & Hb). apply HC in Hp. destruct Hp as (_ & _ & _ & _ & Hbs).
    unfold selected in Hb. apply filter_In in Hb. destruct Hb as [Hb Hr]. rewrite Forall_forall in Hbs. split; [auto|].
    destruct (in_dec Nat.eq_dec (b_role b) roles); [auto|discriminate]. }
  destruct u as [|[|[|[|[|[|[|u]]]]]]]; cbn [unit_records unit_json]; try constructor.
  - apply Forall2_map_in. intros p Hp. eexists. split; [reflexivity|]. apply (page_record_ok h). auto.
  - unfold block_records. rewrite sel_blocks_selected. apply Forall2_map_in. intros b Hb. apply HB in Hb. destruct Hb as [Hb Hr].
    unfold getSemanticRoleName, name_of. rewrite (nth_error_nth' SEMANTIC_ROLE_NAMES []) by exact Hr. cbn [obind].
    eexists. split; [reflexivity|]. apply (block_record_ok h). assumption.
  - unfold word_records. rewrite sel_blocks_selected. apply Forall2_flat_map_in. intros b Hb. rewrite block_words_same. apply Forall2_map_in.
    intros w Hw. apply HB in Hb. destruct Hb as ((Hid & _ & _ & _ & Hws) & _). eexists. split; [reflexivity|]. apply word_record_ok; [assumption|].
    unfold block_words_of in Hw. apply in_map_iff in Hw. destruct Hw as (i & <- & Hi). rewrite Forall_forall in Hws. apply Hws. assumption.
  - unfold char_records. rewrite sel_blocks_selected. apply Forall2_flat_map_in. intros b Hb. rewrite block_words_same. apply Forall2_flat_map_in.
    intros w Hw. apply Forall2_flat_map_in. intros c Hc. unfold block_words_of in Hw. apply in_map_iff in Hw. destruct Hw as (i & <- & Hi).
    pose proof (HB b Hb) as ((Hid & _ & _ & _ & Hws) & _). rewrite Forall_forall in Hws. pose proof (Hws i Hi) as (Hwid & _ & _ & _ & Hcs).
    rewrite Forall_forall in Hcs. destruct (c_markOf c) as [m|] eqn:E; cbn [is_some]; [constructor|].
    apply in_flat_map in Hb. destruct Hb as (p & Hp & Hb).
    destruct (assoc_font (c_fontName c) (d_fonts d)) as [f|] eqn:Ef; [|exfalso; exact (HFo p b i c Hp Hb Hi Hc E Ef)].
    constructor; [|constructor]. eexists. split; [reflexivity|]. apply char_record_ok; auto.
  - rewrite map_flat_map'. apply Forall2_flat_map_in. intros p Hp. apply Forall2_map_in. intros e He. apply HC in Hp.
    destruct Hp as (_ & _ & Hf & _). rewrite Forall_forall in Hf. eexists. split; [reflexivity|]. apply elem_record_ok; [reflexivity|auto].
  - rewrite map_flat_map'. apply Forall2_flat_map_in. intros p Hp. apply Forall2_map_in. intros e He. apply HC in Hp.
    destruct Hp as (_ & _ & _ & Hf & _). rewrite Forall_forall in Hf. eexists. split; [reflexivity|]. apply elem_record_ok; [reflexivity|auto].
Qed.

(** ** A record occupies one line; and what a scanner can say about non-JSON *)
Scheme json_mut := Minimality for json Sort Prop
  with jelems_mut := Minimality for jelems Sort Prop
  with jmembers_mut := Minimality for jmembers Sort Prop.

Lemma decode_printable b s : json_decode b = Some s -> Forall (fun c => 32 <= nat_of_ascii c) b.
Proof.
  remember (length b) as n eqn:En. assert (Hn : length b <= n) by lia. clear En. revert b s Hn.
  induction n as [|n IH]; intros b s Hn H; [destruct b; [constructor|cbn in Hn; lia]|].
  destruct b as [|c t]; [constructor|]. cbn [json_decode] in H. cbn in Hn. destruct (Ascii.eqb_spec c "\") as [->|].
  - constructor; [cbn; lia|]. destruct t as [|e t1]; [discriminate|]. destruct (Ascii.eqb_spec e "u") as [->|].
    + destruct t1 as [|h1 [|h2 [|h3 [|h4 t2]]]]; try discriminate.
      assert (HX : forall x k, hexval x = Some k -> 32 <= nat_of_ascii x).
      { intros x k. unfold hexval. destruct ((48 <=? _) && _) eqn:E1; [apply andb_prop in E1; destruct E1 as [E1 _]; apply Nat.leb_le in E1; lia|].
        destruct ((97 <=? _) && _) eqn:E2; [apply andb_prop in E2; destruct E2 as [E2 _]; apply Nat.leb_le in E2; lia|].
        destruct ((65 <=? _) && _) eqn:E3; [apply andb_prop in E3; destruct E3 as [E3 _]; apply Nat.leb_le in E3; lia|]. discriminate. }
      destruct (hexval h1) eqn:X1; [|discriminate]. destruct (hexval h2) eqn:X2; [|destruct n0; discriminate].
      destruct (hexval h3) eqn:X3; [|destruct n0; [destruct n1|]; discriminate]. destruct (hexval h4) eqn:X4; [|destruct n0; [destruct n1|]; discriminate].
      destruct (json_decode t2) eqn:D; [|destruct n0; [destruct n1|]; discriminate].
      constructor; [cbn; lia|]. do 4 (constructor; [eauto|]). eapply IH; [|exact D]. cbn in Hn. lia.
    + destruct (simple_escape e) eqn:Es; [|discriminate]. destruct (json_decode t1) eqn:D; [|discriminate]. constructor.
      * revert Es. unfold simple_escape.
        repeat match goal with |- (if Ascii.eqb e ?k then _ else _) = _ -> _ => destruct (Ascii.eqb_spec e k) as [->|]; [intros _; cbn; lia|] end. discriminate.
      * eapply IH; [|exact D]. cbn in Hn. lia.
  - destruct (Ascii.eqb c """" || (nat_of_ascii c <? 32)) eqn:E; [discriminate|]. apply orb_false_iff in E. destruct E as [_ E]. apply Nat.ltb_ge in E.
    destruct (json_decode t) eqn:D; [|discriminate]. constructor; [assumption|]. eapply IH; [|exact D]. lia.
Qed.
Lemma number_printable s : json_number s -> Forall (fun c => 32 <= nat_of_ascii c) s.
Proof.
  assert (HD : forall l, Forall is_digit l -> Forall (fun c => 32 <= nat_of_ascii c) l).
  { intros l H. eapply Forall_impl; [|exact H]. unfold is_digit. intros a Ha. cbv beta in Ha. lia. }
  intros [neg ip fp ep Hip Hfp Hep]. apply Forall_app; split; [|apply Forall_app; split; [|apply Forall_app; split]].
  - destruct neg; repeat constructor.
  - destruct Hip as [|c t Hc _ Ht]; [repeat constructor|]. apply HD. constructor; assumption.
  - destruct Hfp as [->|(ds & [_ Hds] & ->)]; [constructor|]. constructor; [cbn; lia|]. apply HD. assumption.
  - destruct Hep as [->|(e & sg & ds & He & Hsg & [_ Hds] & ->)]; [constructor|]. constructor; [destruct He as [->| ->]; cbn; lia|].
    apply Forall_app. split; [|apply HD; assumption]. destruct Hsg as [->|[->| ->]]; repeat constructor; cbn; lia.
Qed.
Lemma repeat_printable n : Forall (fun c => 32 <= nat_of_ascii c) (repeat " "%char n).
Proof. apply Forall_forall. intros c Hc. apply repeat_spec in Hc. subst. cbn. lia. Qed.
Theorem json_printable s v : json s v -> Forall (fun c => 32 <= nat_of_ascii c) s.
Proof.
  revert s v.
  apply (json_mut (fun s _ => Forall (fun c => 32 <= nat_of_ascii c) s) (fun s _ => Forall (fun c => 32 <= nat_of_ascii c) s) (fun s _ => Forall (fun c => 32 <= nat_of_ascii c) s)).
  - exact number_printable.
  - intros body s H. apply decode_printable in H. constructor; [cbn; lia|]. apply Forall_app. split; [assumption|]. constructor; [cbn; lia|constructor].
  - repeat constructor; cbn; lia.
  - repeat constructor; cbn; lia.
  - repeat constructor; cbn; lia.
  - repeat constructor; cbn; lia.
  - intros s l _ H. constructor; [cbn; lia|]. apply Forall_app. split; [assumption|]. constructor; [cbn; lia|constructor].
  - repeat constructor; cbn; lia.
  - intros s l _ H. constructor; [cbn; lia|]. apply Forall_app. split; [assumption|]. constructor; [cbn; lia|constructor].
  - auto.
  - intros s v n r l _ Hs _ Hr. apply Forall_app. split; [assumption|]. constructor; [cbn; lia|]. apply Forall_app. split; [apply repeat_printable|assumption].
  - intros k k' n s v Hk _ Hs. apply decode_printable in Hk. constructor; [cbn; lia|]. apply Forall_app. split; [assumption|].
    constructor; [cbn; lia|]. constructor; [cbn; lia|]. apply Forall_app. split; [apply repeat_printable|assumption].
  - intros k k' n s v m r l Hk _ Hs _ Hr. apply decode_printable in Hk. constructor; [cbn; lia|]. apply Forall_app. split; [assumption|].
    constructor; [cbn; lia|]. constructor; [cbn; lia|]. apply Forall_app. split; [apply repeat_printable|].
    apply Forall_app. split; [assumption|]. constructor; [cbn; lia|]. apply Forall_app. split; [apply repeat_printable|assumption].
Qed.

(** Scanner: outside a string, inside, after a backslash. Every JSON text leads from outside to outside, and outside a
    string the letter n is followed by u. *)
Inductive sstate := Out | OutN | In_ | Esc.
Definition sstep (st : option sstate) (c : ascii) : option sstate :=
  match st with
  | Some Out => if Ascii.eqb c quote then Some In_ else if Ascii.eqb c "n" then Some OutN else Some Out
  | Some OutN => if Ascii.eqb c "u" then Some Out else None
  | Some In_ => if Ascii.eqb c quote then Some Out else if Ascii.eqb c "\" then Some Esc else Some In_
  | Some Esc => Some In_
  | None => None
  end.
Definition scan (st : option sstate) (s : str) : option sstate := fold_left sstep s st.
Lemma scan_app st a b : scan st (a ++ b) = scan (scan st a) b. Proof. apply fold_left_app. Qed.
Definition bland (c : ascii) : Prop := c <> quote /\ c <> "n"%char.
Lemma scan_bland s : Forall bland s -> scan (Some Out) s = Some Out.
Proof.
  induction 1 as [|c s [Hq Hn] _ IH]; [reflexivity|]. unfold scan in *. cbn [fold_left sstep].
  destruct (Ascii.eqb_spec c quote); [congruence|]. destruct (Ascii.eqb_spec c "n"); [congruence|]. exact IH.
Qed.
Lemma scan_body n : forall b s, length b <= n -> json_decode b = Some s -> scan (Some In_) b = Some In_.
Proof.
  induction n as [|n IH]; intros b s Hn H; [destruct b; [reflexivity|cbn in Hn; lia]|].
  destruct b as [|c t]; [reflexivity|]. cbn [json_decode] in H. cbn in Hn. unfold scan. cbn [fold_left sstep].
  destruct (Ascii.eqb_spec c "\") as [->|Nb].
  - cbn [Ascii.eqb quote]. change (Ascii.eqb "\" quote) with false. cbn [Bool.eqb].
    destruct t as [|e t1]; [discriminate|]. cbn [fold_left sstep]. destruct (Ascii.eqb_spec e "u") as [->|].
    + destruct t1 as [|h1 [|h2 [|h3 [|h4 t2]]]]; try discriminate.
      assert (HX : forall x k, hexval x = Some k -> sstep (Some In_) x = Some In_).
      { intros x k. unfold hexval, sstep. destruct (Ascii.eqb_spec x quote) as [->|]; [discriminate|]. destruct (Ascii.eqb_spec x "\") as [->|]; [discriminate|]. reflexivity. }
      destruct (hexval h1) eqn:X1; [|discriminate]. destruct (hexval h2) eqn:X2; [|destruct n0; discriminate].
      destruct (hexval h3) eqn:X3; [|destruct n0; [destruct n1|]; discriminate]. destruct (hexval h4) eqn:X4; [|destruct n0; [destruct n1|]; discriminate].
      destruct (json_decode t2) eqn:D; [|destruct n0; [destruct n1|]; discriminate].
      cbn [fold_left]. rewrite (HX _ _ X1), (HX _ _ X2), (HX _ _ X3), (HX _ _ X4). eapply IH; [|exact D]. cbn in Hn. lia.
    + destruct (simple_escape e); [|discriminate]. destruct (json_decode t1) eqn:D; [|discriminate]. eapply IH; [|exact D]. cbn in Hn. lia.
  - destruct (Ascii.eqb_spec c """") as [->|Nq]; [discriminate|].
    destruct (Ascii.eqb_spec c quote) as [->|]; [exfalso; apply Nq; reflexivity|].
    destruct (nat_of_ascii c <? 32); [discriminate|]. cbn [orb] in H. destruct (json_decode t) eqn:D; [|discriminate].
    eapply IH; [|exact D]. lia.
Qed.
Lemma bland_digit c : is_digit c -> bland c.
Proof. unfold is_digit, bland, quote. intros H. split; intros ->; cbn in H; lia. Qed.
Lemma number_bland s : json_number s -> Forall bland s.
Proof.
  assert (HD : forall l, Forall is_digit l -> Forall bland l) by (intros l H; eapply Forall_impl; [|exact H]; exact bland_digit).
  assert (B : forall c, c = "-"%char \/ c = "+"%char \/ c = "."%char \/ c = "e"%char \/ c = "E"%char -> bland c).
  { intros c [->|[->|[->|[->| ->]]]]; unfold bland, quote; split; discriminate. }
  intros [neg ip fp ep Hip Hfp Hep]. apply Forall_app; split; [|apply Forall_app; split; [|apply Forall_app; split]].
  - destruct neg; [constructor; [apply B; tauto|constructor]|constructor].
  - destruct Hip as [|c t Hc _ Ht]; [constructor; [apply bland_digit; unfold is_digit; cbn; lia|constructor]|]. apply HD. constructor; assumption.
  - destruct Hfp as [->|(ds & [_ Hds] & ->)]; [constructor|]. constructor; [apply B; tauto|]. apply HD. assumption.
  - destruct Hep as [->|(e & sg & ds & He & Hsg & [_ Hds] & ->)]; [constructor|]. constructor; [apply B; tauto|].
    apply Forall_app. split; [|apply HD; assumption]. destruct Hsg as [->|[->| ->]]; [constructor|constructor; [apply B; tauto|constructor]|constructor; [apply B; tauto|constructor]].
Qed.
Lemma scan_cons st c s : scan st (c :: s) = scan (sstep st c) s. Proof. reflexivity. Qed.
Lemma scan_blanks n : scan (Some Out) (repeat " "%char n) = Some Out.
Proof. induction n as [|n IH]; [reflexivity|]. cbn [repeat]. rewrite scan_cons. exact IH. Qed.
Theorem json_scan s v : json s v -> scan (Some Out) s = Some Out.
Proof.
  revert s v.
  apply (json_mut (fun s _ => scan (Some Out) s = Some Out) (fun s _ => scan (Some Out) s = Some Out) (fun s _ => scan (Some Out) s = Some Out)); try reflexivity.
  - intros s H. apply scan_bland, number_bland, H.
  - intros body s H. rewrite scan_cons, scan_app. change (sstep (Some Out) quote) with (Some In_). rewrite (scan_body _ _ _ (le_n _) H). reflexivity.
  - intros s l _ H. rewrite scan_cons, scan_app. change (sstep (Some Out) "["%char) with (Some Out). rewrite H. reflexivity.
  - intros s l _ H. rewrite scan_cons, scan_app. change (sstep (Some Out) "{"%char) with (Some Out). rewrite H. reflexivity.
  - auto.
  - intros s v n r l _ Hs _ Hr. rewrite scan_app, Hs, scan_cons, scan_app. change (sstep (Some Out) ","%char) with (Some Out). rewrite scan_blanks. exact Hr.
  - intros k k' n s v Hk _ Hs. rewrite scan_cons, scan_app. change (sstep (Some Out) quote) with (Some In_). rewrite (scan_body _ _ _ (le_n _) Hk).
    rewrite !scan_cons, scan_app. change (sstep (sstep (Some In_) quote) ":"%char) with (Some Out). rewrite scan_blanks. exact Hs.
  - intros k k' n s v m r l Hk _ Hs _ Hr. rewrite scan_cons, scan_app. change (sstep (Some Out) quote) with (Some In_). rewrite (scan_body _ _ _ (le_n _) Hk).
    rewrite !scan_cons, !scan_app. change (sstep (sstep (Some In_) quote) ":"%char) with (Some Out). rewrite scan_blanks, Hs, scan_cons, scan_app.
    change (sstep (Some Out) ","%char) with (Some Out). rewrite scan_blanks. exact Hr.
Qed.
