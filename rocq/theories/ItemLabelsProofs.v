(** ItemLabelsProofs.v - what the regular expressions for item labels match. *)
From Coq Require Import ZArith NArith Lia.
From Verif Require Import Base TextUtils Document Blocks ItemLabels ItemLabelsSpec.

(** The texts that an expression without [Bol] matches. *)
Fixpoint den (r : re) (x : str) : Prop :=
  match r with
  | Bol => False
  | Eps => x = []
  | Byte p => exists c, x = [c] /\ p c = true
  | Cat a b => exists y z, x = y ++ z /\ den a y /\ den b z
  | Alt a b => den a x \/ den b x
  | Plus p => x <> [] /\ Forall (fun c => p c = true) x
  end.
Fixpoint nobol (r : re) : bool :=
  match r with Bol => false | Eps | Byte _ | Plus _ => true | Cat a b | Alt a b => nobol a && nobol b end.

Lemma plus_from_spec p k : forall s, plus_from p s k = true <->
  exists x y, s = x ++ y /\ x <> [] /\ Forall (fun c => p c = true) x /\ k y = true.
Proof.
  induction s as [|c t IH]; cbn [plus_from].
  - split; [discriminate|]. intros (x & y & E & N & _). destruct x; [congruence|discriminate].
  - rewrite andb_true_iff, orb_true_iff, IH. split.
    + intros (P & [(x & y & E & N & F & K)|K]).
      * exists (c :: x), y. rewrite E. repeat split; [discriminate|constructor; assumption|exact K].
      * exists [c], t. repeat split; [discriminate|repeat constructor; exact P|exact K].
    + intros (x & y & E & N & F & K). destruct x as [|d x]; [congruence|]. injection E as -> ->. inversion F as [|? ? P F']; subst.
      split; [exact P|]. destruct x as [|e x]; [right; exact K|left]. exists (e :: x), y. repeat split; [discriminate|exact F'|exact K].
Qed.
Lemma match_spec r : nobol r = true -> forall bol s (k : bool -> str -> bool), (forall b b' y, k b y = k b' y) ->
  (match_at r bol s k = true <-> exists x y, s = x ++ y /\ den r x /\ k false y = true).
Proof.
  induction r as [| |p|a IHa b IHb|a IHa b IHb|p]; cbn [nobol match_at den]; intros N bol s k K.
  - discriminate.
  - rewrite (K bol false). split; [intros H; exists [], s; auto|]. intros (x & y & -> & -> & H). exact H.
  - destruct s as [|c t]; [split; [discriminate|intros (x & y & E & (c & -> & _) & _); discriminate]|]. rewrite andb_true_iff. split.
    + intros (P & H). exists [c], t. split; [reflexivity|]. split; [exists c; auto|exact H].
    + intros (x & y & E & (d & -> & P) & H). injection E as -> ->. auto.
  - apply andb_true_iff in N. destruct N as [Na Nb].
    assert (KB : forall b1 b2 y, match_at b b1 y k = match_at b b2 y k).
    { intros b1 b2 y. apply eq_true_iff_eq. rewrite !(IHb Nb) by exact K. reflexivity. }
    rewrite (IHa Na _ _ _ KB). split.
    + intros (x & y & -> & A & H). apply (IHb Nb _ _ _ K) in H. destruct H as (x' & y' & -> & B & H).
      exists (x ++ x'), y'. rewrite app_assoc. split; [reflexivity|]. split; [exists x, x'; auto|exact H].
    + intros (xz & y & -> & (x & z & -> & A & B) & H). exists x, (z ++ y). rewrite app_assoc. split; [reflexivity|]. split; [exact A|].
      apply (IHb Nb _ _ _ K). exists z, y. auto.
  - apply andb_true_iff in N. destruct N as [Na Nb]. rewrite orb_true_iff, (IHa Na _ _ _ K), (IHb Nb _ _ _ K). split.
    + intros [(x & y & E & A & H)|(x & y & E & A & H)]; exists x, y; auto.
    + intros (x & y & E & [A|A] & H); [left|right]; exists x, y; auto.
  - rewrite plus_from_spec. split; intros (x & y & E & H); exists x, y; tauto.
Qed.
Lemma no_match_later r : nobol r = true -> forall s k, match_at (Cat Bol r) false s k = false.
Proof. reflexivity. Qed.
Lemma search_spec r s : nobol r = true -> (regex_search (Cat Bol r) s = true <-> exists x y, s = x ++ y /\ den r x).
Proof.
  intros N. unfold regex_search.
  assert (F : forall s, search_from (Cat Bol r) false s = false).
  { induction s0 as [|c t IH]; cbn [search_from]; rewrite no_match_later by exact N; [reflexivity|exact IH]. }
  assert (E : search_from (Cat Bol r) true s = match_at r true s (fun _ _ => true)).
  { destruct s as [|c t]; cbn [search_from match_at andb]; rewrite ?F, ?orb_false_r; reflexivity. }
  rewrite E, (match_spec r N) by reflexivity. split; intros (x & y & H); exists x, y; tauto.
Qed.

(** ** Bytes *)
Lemma blank_spec c : is_blank c = true <-> blank c.
Proof. unfold is_blank, blank, code. rewrite orb_true_iff, andb_true_iff, !Nat.leb_le, Nat.eqb_eq. cbn [In]. lia. Qed.
Ltac all_bytes c := destruct c as [[] [] [] [] [] [] [] []]; vm_compute.
Lemma range_digit c : range false "0" "9" c = true <-> digit c.
Proof. unfold range, digit, code. rewrite andb_true_iff, !Nat.leb_le. reflexivity. Qed.
Lemma range_lower c : range false "a" "z" c = true <-> lower c.
Proof. unfold range, lower, code. rewrite andb_true_iff, !Nat.leb_le. reflexivity. Qed.
Lemma range_upper c : range false "A" "Z" c = true <-> upper c.
Proof. unfold range, upper, code. rewrite andb_true_iff, !Nat.leb_le. reflexivity. Qed.
Lemma range_digit_i c : range true "0" "9" c = range false "0" "9" c.
Proof. all_bytes c; reflexivity. Qed.
Lemma range_alpha_i c : range true "a" "z" c = range false "a" "z" c || range false "A" "Z" c.
Proof. all_bytes c; reflexivity. Qed.
Definition same_letterb (a b : ascii) : bool :=
  Ascii.eqb a b || (range false "A" "Z" a && (nat_of_ascii b =? nat_of_ascii a + 32)) || (range false "A" "Z" b && (nat_of_ascii a =? nat_of_ascii b + 32)).
Lemma same_letterb_spec a b : same_letterb a b = true <-> same_letter a b.
Proof.
  unfold same_letterb, same_letter. rewrite !orb_true_iff, !andb_true_iff, !range_upper, !Nat.eqb_eq, Ascii.eqb_eq. unfold code. tauto.
Qed.
Lemma all_ascii (f : ascii -> bool) : forallb f (map ascii_of_nat (seq 0 256)) = true -> forall a, f a = true.
Proof.
  intros H a. rewrite forallb_forall in H. apply H. apply in_map_iff. exists (nat_of_ascii a). split; [apply ascii_nat_embedding|].
  apply in_seq. pose proof (nat_ascii_bounded a). lia.
Qed.
Lemma lit_i_spec a b : Ascii.eqb (tolower a) (tolower b) = true <-> same_letter a b.
Proof.
  rewrite <- same_letterb_spec. assert (H : forall a, (fun a => forallb (fun b => Bool.eqb (Ascii.eqb (tolower a) (tolower b)) (same_letterb a b)) (map ascii_of_nat (seq 0 256))) a = true).
  { apply all_ascii. vm_compute. reflexivity. }
  specialize (H a). cbv beta in H. pose proof (all_ascii _ H b) as H'. cbv beta in H'. apply Bool.eqb_prop in H'. rewrite H'. reflexivity.
Qed.

(** ** Expressions *)
Lemma den_opt r x : den (opt r) x <-> den r x \/ x = [].
Proof. reflexivity. Qed.
Lemma den_byte_seq (P : ascii -> Prop) p : (forall c, p c = true <-> P c) -> forall n x, den (upto n (Byte p)) x <-> Forall P x /\ length x <= n.
Proof.
  intros HP. induction n as [|n IH]; intros x; cbn [upto].
  - cbn [den]. split; [intros ->; split; [constructor|cbn; lia]|]. intros (_ & H). destruct x; [reflexivity|cbn in H; lia].
  - rewrite den_opt. cbn [den]. split.
    + intros [(y & z & -> & (c & -> & PC) & H)| ->]; [|split; [constructor|cbn; lia]]. apply IH in H. destruct H as [F L].
      cbn [app length]. split; [constructor; [apply HP, PC|exact F]|lia].
    + intros (F & H). destruct x as [|c x]; [right; reflexivity|left]. inversion F; subst. exists [c], x.
      split; [reflexivity|]. split; [exists c; split; [reflexivity|apply HP; assumption]|]. apply IH. split; [assumption|cbn in H; lia].
Qed.
Lemma den_word_i s : forall x, den (word true s) x <-> any_case s x.
Proof.
  unfold word, cat, any_case. induction s as [|a s IH]; intros x; cbn [map fold_right den].
  - split; [intros ->; constructor|]. intros H. inversion H. reflexivity.
  - split.
    + intros (y & z & -> & (c & -> & H) & D). cbn [app]. constructor; [apply lit_i_spec, H|apply IH, D].
    + intros H. inversion H as [|? c ? t S F]; subst. exists [c], t. split; [reflexivity|].
      split; [exists c; split; [reflexivity|apply lit_i_spec, S]|apply IH, F].
Qed.
Lemma den_word s : forall x, den (word false s) x <-> x = s.
Proof.
  unfold word, cat. induction s as [|a s IH]; intros x; cbn [map fold_right den]; [reflexivity|].
  split.
  - intros (y & z & -> & (c & -> & H) & D). apply Ascii.eqb_eq in H. apply IH in D. subst. reflexivity.
  - intros ->. exists [a], s. split; [reflexivity|]. split; [exists a; split; [reflexivity|apply Ascii.eqb_refl]|apply IH; reflexivity].
Qed.
Lemma den_cat_cons r l x : den (cat (r :: l)) x <-> exists y z, x = y ++ z /\ den r y /\ den (cat l) z.
Proof. reflexivity. Qed.
Lemma den_cat_nil x : den (cat []) x <-> x = [].
Proof. reflexivity. Qed.
Lemma den_blanks x : den (cat [blanks]) x <-> exists b w, x = b :: w /\ blank b /\ Forall blank w.
Proof.
  rewrite den_cat_cons. split.
  - intros (y & z & -> & (N & F) & E). change (z = []) in E. subst z. rewrite app_nil_r. destruct y as [|b w]; [congruence|].
    exists b, w. inversion F as [|? ? B W]; subst. split; [reflexivity|]. split; [apply blank_spec, B|].
    eapply Forall_impl; [|exact W]. intros c. apply blank_spec.
  - intros (b & w & -> & B & W). exists (b :: w), []. rewrite app_nil_r. split; [reflexivity|]. split; [|reflexivity].
    split; [discriminate|]. constructor; [apply blank_spec, B|]. eapply Forall_impl; [|exact W]. intros c. apply blank_spec.
Qed.
(** A label followed by white space. *)
Definition head_of (r : re) (t : str) : Prop := exists l b rest, t = l ++ b :: rest /\ den r l /\ blank b.
Lemma search_head r l t : nobol r = true -> (forall x, den (cat (l ++ [blanks])) x <-> exists y z, x = y ++ z /\ den r y /\ den (cat [blanks]) z) ->
  nobol (cat (l ++ [blanks])) = true -> (regex_search (cat (Bol :: l ++ [blanks])) t = true <-> head_of r t).
Proof.
  intros N D N'. change (cat (Bol :: l ++ [blanks])) with (Cat Bol (cat (l ++ [blanks]))). rewrite search_spec by exact N'. split.
  - intros (x & y & -> & H). apply D in H. destruct H as (u & v & -> & U & V). apply den_blanks in V. destruct V as (b & w & -> & B & _).
    exists u, b, (w ++ y). rewrite <- app_assoc. auto.
  - intros (u & b & rest & -> & U & B). exists (u ++ [b]), rest. rewrite <- app_assoc. split; [reflexivity|]. apply D.
    exists u, [b]. split; [reflexivity|]. split; [exact U|]. apply den_blanks. exists b, []. auto.
Qed.
Lemma den_cat_app l m x : den (cat (l ++ m)) x <-> exists y z, x = y ++ z /\ den (cat l) y /\ den (cat m) z.
Proof.
  revert x. induction l as [|r l IH]; intros x; cbn [app].
  - split; [intros H; exists [], x; repeat split; exact H|]. intros (y & z & -> & E & H). change (y = []) in E. subst y. exact H.
  - rewrite den_cat_cons. split.
    + intros (y & z & -> & R & H). apply IH in H. destruct H as (u & v & -> & U & V). exists (y ++ u), v. rewrite app_assoc.
      split; [reflexivity|]. split; [|exact V]. exists y, u. auto.
    + intros (y & z & -> & (u & v & -> & U & V) & H). exists u, (v ++ z). rewrite app_assoc. split; [reflexivity|]. split; [exact U|].
      apply IH. exists v, z. auto.
Qed.
Lemma search_label l t : nobol (cat (l ++ [blanks])) = true -> nobol (cat l) = true -> (regex_search (cat (Bol :: l ++ [blanks])) t = true <-> head_of (cat l) t).
Proof. intros N N'. apply search_head; [exact N'|intros x; apply den_cat_app|exact N]. Qed.

(** Concatenations of one more piece. *)
Lemma den_cat1 r x : den (cat [r]) x <-> den r x.
Proof.
  rewrite den_cat_cons. split.
  - intros (y & z & -> & H & E). change (z = []) in E. subst z. rewrite app_nil_r. exact H.
  - intros H. exists x, []. rewrite app_nil_r. repeat split. exact H.
Qed.
Lemma den_Cat_E r l x (P : str -> Prop) (Q : str -> Prop) : (forall y, den r y <-> P y) -> (forall y, den (cat l) y <-> Q y) ->
  (den (cat (r :: l)) x <-> exists y z, x = y ++ z /\ P y /\ Q z).
Proof. intros A B. rewrite den_cat_cons. split; intros (y & z & E & H1 & H2); exists y, z; rewrite A, B in *; auto. Qed.
Lemma any_case_app a b x : any_case (a ++ b) x <-> exists y z, x = y ++ z /\ any_case a y /\ any_case b z.
Proof.
  split.
  - intros H. apply Forall2_app_inv_l in H. destruct H as (y & z & A & B & ->). exists y, z. auto.
  - intros (y & z & -> & A & B). apply Forall2_app; assumption.
Qed.
(** The Roman numerals: an [X] or nothing, then one of ten. *)
Definition UNITS : list str := map S_ [""; "I"; "II"; "III"; "IV"; "V"; "VI"; "VII"; "VIII"; "IX"]%string.
Lemma roman_split n : In n ROMAN <-> exists a b, n = a ++ b /\ In a [S_ ""; S_ "X"] /\ In b UNITS.
Proof.
  assert (E : ROMAN = flat_map (fun a => map (app a) UNITS) [S_ ""; S_ "X"]) by reflexivity. rewrite E, in_flat_map. split.
  - intros (a & A & H). apply in_map_iff in H. destruct H as (b & <- & B). exists a, b. auto.
  - intros (a & b & -> & A & B). exists a. split; [exact A|]. apply in_map_iff. exists b. auto.
Qed.
Definition cased (l : list str) (x : str) : Prop := exists n, In n l /\ any_case n x.
Lemma cased_cons a l x : cased (a :: l) x <-> any_case a x \/ cased l x.
Proof. unfold cased. cbn [In]. split; [intros (n & [<-|H] & C); [left; exact C|right; exists n; auto]|intros [C|(n & H & C)]; [exists a|exists n]; auto]. Qed.
Lemma cased_nil x : cased [] x <-> False.
Proof. split; [intros (n & [] & _)|intros []]. Qed.
Lemma den_roman x : den roman x <-> exists n, In n ROMAN /\ any_case n x.
Proof.
  assert (X : forall y, den (upto 1 (Li "X")) y <-> cased [S_ ""; S_ "X"] y).
  { intros y. cbn [upto]. rewrite den_opt, !cased_cons, cased_nil. cbn [den]. split.
    - intros [(u & v & -> & U & ->)| ->]; [|left; constructor]. rewrite app_nil_r. apply den_word_i in U. tauto.
    - intros [H|[H|[]]]; [inversion H; right; reflexivity|left]. exists y, []. rewrite app_nil_r. repeat split. apply den_word_i, H. }
  assert (V : forall y, den (opt (Li "V")) y <-> cased [S_ ""; S_ "V"] y).
  { intros y. rewrite den_opt, !cased_cons, cased_nil. unfold Li. rewrite den_word_i. split.
    - intros [H|H]; [right; left; exact H|left; subst; constructor].
    - intros [H|[H|[]]]; [right; inversion H; reflexivity|left; exact H]. }
  assert (II : forall n y, den (upto n (Li "I")) y <-> exists m, m <= n /\ any_case (repeat "I"%char m) y).
  { induction n as [|n IH]; intros y; cbn [upto].
    - cbn [den]. split; [intros ->; exists 0; split; [lia|constructor]|]. intros (m & M & H). assert (m = 0) as -> by lia. inversion H. reflexivity.
    - rewrite den_opt. cbn [den]. split.
      + intros [(u & v & -> & U & H)| ->]; [|exists 0; split; [lia|constructor]]. apply den_word_i in U. apply IH in H. destruct H as (m & M & H).
        exists (S m). split; [lia|]. change (repeat "I"%char (S m)) with (S_ "I" ++ repeat "I"%char m). apply any_case_app. exists u, v. auto.
      + intros (m & M & H). destruct m as [|m]; [inversion H; right; reflexivity|left].
        change (repeat "I"%char (S m)) with (S_ "I" ++ repeat "I"%char m) in H. apply any_case_app in H. destruct H as (u & v & -> & U & W).
        exists u, v. split; [reflexivity|]. split; [apply den_word_i, U|apply IH]. exists m. split; [lia|exact W]. }
  assert (U : forall y, den (alts (Li "IX") [Li "IV"; Cat (opt (Li "V")) (upto 3 (Li "I"))]) y <-> cased UNITS y).
  { intros y. cbn [alts den]. fold (den (opt (Li "V"))). unfold Li at 1 2. rewrite !den_word_i. split.
    - intros [H|[H|(u & v & -> & U & W)]].
      + exists (S_ "IX"). split; [cbn; tauto|exact H].
      + exists (S_ "IV"). split; [cbn; tauto|exact H].
      + apply V in U. apply II in W. destruct U as (a & A & U), W as (m & M & W). exists (a ++ repeat "I"%char m).
        split; [|apply any_case_app; exists u, v; auto].
        destruct A as [<-|[<-|[]]]; destruct m as [|[|[|[|]]]]; try lia; cbn; tauto.
    - intros (n & N & H). assert (D : n = S_ "IX" \/ n = S_ "IV" \/ exists a m, n = a ++ repeat "I"%char m /\ In a [S_ ""; S_ "V"] /\ m <= 3).
      { assert (B : forall n, In n UNITS -> n = S_ "IX" \/ n = S_ "IV" \/ In n (flat_map (fun a => map (fun m => a ++ repeat "I"%char m) [0; 1; 2; 3]) [S_ ""; S_ "V"])) by (intros n' H'; cbn in H'; repeat (destruct H' as [<-|H']; [cbn; auto 20|]); destruct H').
        destruct (B n N) as [E|[E|E]]; [auto|auto|right; right]. apply in_flat_map in E. destruct E as (a & A & E). apply in_map_iff in E. destruct E as (m & <- & M).
        exists a, m. split; [reflexivity|]. split; [exact A|]. cbn in M. lia. }
      destruct D as [-> |[-> |(a & m & -> & A & M)]]; [left; exact H|right; left; exact H|right; right].
      apply any_case_app in H. destruct H as (u & v & -> & HU & HW). exists u, v. split; [reflexivity|].
      split; [apply V; exists a; auto|apply II; exists m; auto]. }
  unfold roman. cbn [den]. split.
  - intros (y & z & -> & A & B). apply X in A. apply U in B. destruct A as (a & A & CA), B as (b & B & CB). exists (a ++ b).
    split; [apply roman_split; exists a, b; auto|apply any_case_app; exists y, z; auto].
  - intros (n & N & H). apply roman_split in N. destruct N as (a & b & -> & A & B). apply any_case_app in H. destruct H as (y & z & -> & HA & HB).
    exists y, z. split; [reflexivity|]. split; [apply X; exists a; auto|apply U; exists b; auto].
Qed.
