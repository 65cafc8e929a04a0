(** FontTextProofs.v - searching in the text of a font file; the decoding of the encrypted part (C48). *)
From Coq Require Import ZArith NArith.
From Verif Require Import Base Fonts FontsSpec CipherProofs.
Open Scope Z_scope.

Lemma starts_with_spec : forall p s r, starts_with p s = Some r <-> s = p ++ r.
Proof.
  induction p as [|a p IH]; intros s r; cbn.
  - split; [intro H; now inversion H|now intros ->].
  - destruct s as [|b s]; [split; discriminate|]. destruct (Ascii.eqb_spec a b) as [->|N].
    + rewrite IH. split; [now intros ->|intro H; now inversion H].
    + split; [discriminate|]. intro H. inversion H. congruence.
Qed.
Lemma starts_with_none p s : starts_with p s = None <-> forall r, s <> p ++ r.
Proof.
  destruct (starts_with p s) as [r|] eqn:E.
  - apply starts_with_spec in E. split; [discriminate|]. intro H. exfalso. exact (H r E).
  - split; [|reflexivity]. intros _ r H. apply starts_with_spec in H. congruence.
Qed.
Lemma find_text_some p : forall s a b, find_text p s = Some (a, b) <-> first_at p s a b.
Proof.
  induction s as [|c s IH]; intros a b.
  - cbn [find_text]. destruct (starts_with p []) as [r|] eqn:E.
    + apply starts_with_spec in E. split.
      * intro H. inversion H; subst. split; [exact E|]. intros; cbn; lia.
      * intros [H _]. destruct a; [|discriminate]. destruct p; [|discriminate]. cbn in *. subst. reflexivity.
    + split; [discriminate|]. intros [H _]. destruct a; [|discriminate]. cbn in H. rewrite starts_with_none in E. exfalso. exact (E b H).
  - cbn [find_text]. destruct (starts_with p (c :: s)) as [r|] eqn:E.
    + apply starts_with_spec in E. split.
      * intro H. inversion H; subst. split; [exact E|]. intros; cbn; lia.
      * intros [H M]. specialize (M [] r E). destruct a; [|cbn in M; lia]. cbn in H. rewrite E in H. apply app_inv_head in H. now subst.
    + rewrite starts_with_none in E. destruct (find_text p s) as [[a1 b1]|] eqn:F.
      * destruct (proj1 (IH a1 b1) eq_refl) as [F1 F2]. split.
        -- intro H. inversion H; subst. split; [cbn; reflexivity|]. intros [|x a'] b' H'; [exfalso; exact (E b' H')|].
           cbn in H'. inversion H'; subst. cbn. apply le_n_S. eapply F2. eassumption.
        -- intros [H M]. destruct a as [|x a]; [exfalso; exact (E b H)|]. cbn in H. inversion H; subst x.
           assert (L1 : (length a1 <= length a)%nat) by (eapply F2; eassumption).
           specialize (M (c :: a1) b1 ltac:(cbn; now rewrite F1)). cbn in M.
           assert (LA : length a = length a1) by lia.
           assert (EQ : a ++ p ++ b = a1 ++ p ++ b1) by congruence.
           assert (A : a = a1) by (pose proof (f_equal (firstn (length a)) EQ) as Q; rewrite LA in Q at 2; rewrite !firstn_app, !firstn_all, !Nat.sub_diag in Q; cbn in Q; rewrite !app_nil_r in Q; exact Q).
           subst a1. apply app_inv_head in EQ. apply app_inv_head in EQ. now subst.
      * split; [discriminate|]. intros [H M]. destruct a as [|x a]; [exfalso; exact (E b H)|]. cbn in H. inversion H; subst.
        assert (X : exists a' b', first_at p (a ++ p ++ b) a' b').
        { clear - M. exists a, b. split; [reflexivity|]. intros a' b' H'. specialize (M (x :: a') b' ltac:(cbn; now rewrite H')). cbn in M. lia. }
        destruct X as [a' [b' X]]. apply IH in X. discriminate.
Qed.
Lemma find_text_none p s : find_text p s = None <-> absent p s.
Proof.
  split.
  - intros F. unfold absent. revert F. induction s as [|c s IH]; intros F a b E; cbn [find_text] in F.
    + destruct (starts_with p []) eqn:SW; [discriminate|]. rewrite starts_with_none in SW. destruct a; [|discriminate]. exact (SW b E).
    + destruct (starts_with p (c :: s)) eqn:SW; [discriminate|]. rewrite starts_with_none in SW.
      destruct (find_text p s) as [[? ?]|]; [discriminate|]. destruct a as [|x a]; [exact (SW b E)|]. inversion E. eapply IH; [reflexivity|eassumption].
  - intro A. destruct (find_text p s) as [[a b]|] eqn:E; [|reflexivity]. apply find_text_some in E. destruct E as [E _]. exfalso. exact (A a b E).
Qed.
Lemma contains_spec p s : contains p s = true <-> exists a b, s = a ++ p ++ b.
Proof.
  unfold contains. destruct (find_text p s) as [[a b]|] eqn:E; cbn.
  - apply find_text_some in E. destruct E as [E _]. split; [|reflexivity]. intros _. now exists a, b.
  - apply find_text_none in E. split; [discriminate|]. intros [a [b H]]. exfalso. exact (E a b H).
Qed.
(** A one-character pattern occurs first where no such character comes before. *)
Lemma first_at_char c a b : ~ In c a -> first_at [c] (a ++ c :: b) a b.
Proof.
  intro N. split; [reflexivity|]. intros a' b' E. destruct (le_lt_dec (length a) (length a')) as [L|L]; [exact L|]. exfalso. apply N.
  assert (E2 : nth_error (a ++ c :: b) (length a') = Some c) by (rewrite E, nth_error_app2, Nat.sub_diag by lia; reflexivity).
  rewrite nth_error_app1 in E2 by lia. eapply nth_error_In. eassumption.
Qed.
Lemma absent_char c s : ~ In c s -> absent [c] s.
Proof. intros N a b E. apply N. rewrite E. apply in_or_app. right. now left. Qed.

Lemma take_while_app f : forall a b, Forall (fun c => f c = true) a -> (match b with c :: _ => f c = false | [] => True end) ->
  take_while f (a ++ b) = (a, b).
Proof.
  induction a as [|c a IH]; intros b F E; cbn.
  - destruct b as [|c b]; [reflexivity|]. cbn. now rewrite E.
  - apply Forall_cons_iff in F. destruct F as [F1 F2]. rewrite F1, (IH b F2 E). reflexivity.
Qed.
Lemma take_while_spec f : forall s, exists a b, take_while f s = (a, b) /\ s = a ++ b /\ Forall (fun c => f c = true) a /\
  match b with c :: _ => f c = false | [] => True end.
Proof.
  induction s as [|c s IH]; cbn.
  - exists [], []. repeat split. constructor.
  - destruct (f c) eqn:F.
    + destruct IH as [a [b [E [EA [FA EB]]]]]. rewrite E. exists (c :: a), b. repeat split; [cbn; congruence|now constructor|exact EB].
    + exists [], (c :: s). repeat split; [constructor|exact F].
Qed.
Lemma is_digit_iff c : is_digit c = true <-> digit c.
Proof. unfold is_digit, digit. rewrite andb_true_iff, !Z.leb_le. tauto. Qed.
Lemma is_space_iff c : is_space c = true <-> white c.
Proof. unfold is_space, white. rewrite orb_true_iff, andb_true_iff, !Z.leb_le, Z.eqb_eq. tauto. Qed.
Lemma digit_not_white c : digit c -> is_space c = false.
Proof. intro D. destruct (is_space c) eqn:E; [|reflexivity]. apply is_space_iff in E. unfold digit, white in *. lia. Qed.
Lemma white_not_digit c : white c -> is_digit c = false.
Proof. intro D. destruct (is_digit c) eqn:E; [|reflexivity]. apply is_digit_iff in E. unfold digit, white in *. lia. Qed.

(** stoi of decimal digits. *)
Lemma stoi_digits ds n rest : decimal ds n -> match rest with c :: _ => ~ digit c | [] => True end ->
  stoi (ds ++ rest) = if in_int n then Ok n else Throw "out_of_range".
Proof.
  intros [NE [F V]] R. unfold stoi.
  destruct ds as [|c ds]; [contradiction|]. apply Forall_cons_iff in F. destruct F as [D F].
  assert (TW : take_while is_space ((c :: ds) ++ rest) = ([], (c :: ds) ++ rest)).
  { cbn. rewrite (digit_not_white c D). reflexivity. }
  rewrite TW. cbn [snd app]. rewrite !(proj2 (Z.eqb_neq (byte c) _)) by (unfold digit in D; lia).
  change (c :: ds ++ rest) with ((c :: ds) ++ rest).
  rewrite take_while_app.
  - cbn [fst]. unfold decimal_value in V. unfold digits_value. rewrite V, Z.mul_1_l. reflexivity.
  - constructor; [now apply is_digit_iff|]. eapply Forall_impl; [|exact F]. intro. apply is_digit_iff.
  - destruct rest as [|x r]; [trivial|]. destruct (is_digit x) eqn:E; [|reflexivity]. apply is_digit_iff in E. contradiction.
Qed.

(** ** The encrypted part (C48) *)
Lemma through_hex_id c : through_hex (byte c) = c.
Proof. destruct c as [b0 b1 b2 b3 b4 b5 b6 b7]; destruct b0, b1, b2, b3, b4, b5, b6, b7; vm_compute; reflexivity. Qed.
Lemma update_app {A} : forall (l : list A) x y r, update (length l) x (l ++ y :: r) = l ++ x :: r.
Proof. induction l as [|h t IH]; intros; cbn; [reflexivity|]. now rewrite IH. Qed.

Lemma write_bytes_spec : forall cs done k,
  ((length cs <= k)%nat -> write_bytes cs (Z.of_nat (length done)) (map Some done ++ repeat None k) =
     Ok (Z.of_nat (length (done ++ cs)), map Some (done ++ cs) ++ repeat None (k - length cs))) /\
  ((k < length cs)%nat -> write_bytes cs (Z.of_nat (length done)) (map Some done ++ repeat None k) = UB "write behind the end of an array").
Proof.
  induction cs as [|c cs IH]; intros done k.
  - split; [|cbn; lia]. intros _. cbn [write_bytes length]. rewrite app_nil_r, Nat.sub_0_r. reflexivity.
  - cbn [write_bytes length]. rewrite through_hex_id. destruct k as [|k].
    + split; [lia|]. intros _. unfold write. rewrite app_length, map_length, repeat_length, Nat.add_0_r.
      rewrite (proj2 (Z.ltb_ge _ _)) by lia. rewrite andb_false_r. reflexivity.
    + assert (W : write (Z.of_nat (length done)) c (map Some done ++ repeat None (S k)) = Ok (map Some (done ++ [c]) ++ repeat None k)).
      { unfold write. rewrite app_length, map_length, repeat_length. rewrite (proj2 (Z.leb_le _ _)), (proj2 (Z.ltb_lt _ _)) by lia.
        cbn [andb]. rewrite Nat2Z.id. rewrite <- (map_length Some done) at 1. cbn [repeat]. rewrite update_app, map_app, <- app_assoc. reflexivity. }
      rewrite W. cbn [obind]. destruct (IH (done ++ [c]) k) as [I1 I2].
      replace (Z.of_nat (length done) + 1) with (Z.of_nat (length (done ++ [c]))) by (rewrite app_length; cbn [length]; lia).
      split; intro L.
      * rewrite I1 by lia. rewrite <- app_assoc. cbn [app Nat.sub]. reflexivity.
      * apply I2. lia.
Qed.
Lemma read_bytes_spec : forall xs tail, read_bytes (length xs) (map Some xs ++ tail) = Ok xs.
Proof. induction xs as [|x xs IH]; intro tail; cbn; [reflexivity|]. now rewrite IH. Qed.
Lemma write_read cs k :
  (do '(b, bytes) <- write_bytes cs 0 (repeat None k) ; do out <- read_bytes (Z.to_nat b) bytes ; Ok (Some out)) =
  if (length cs <=? k)%nat then Ok (Some cs) else UB "write behind the end of an array".
Proof.
  destruct (write_bytes_spec cs [] k) as [W1 W2]. cbn [map app length Z.of_nat] in W1, W2.
  destruct (Nat.leb_spec (length cs) k) as [L|L].
  - rewrite W1 by exact L. cbn [obind]. rewrite Nat2Z.id, read_bytes_spec. reflexivity.
  - rewrite W2 by exact L. reflexivity.
Qed.

Lemma lor_add a b k : 0 <= k -> 0 <= a < 2 ^ k -> Z.lor a (b * 2 ^ k) = a + b * 2 ^ k.
Proof.
  intros K A. symmetry.
  assert (L : Z.land a (b * 2 ^ k) = 0).
  { apply Z.bits_inj'. intros n Hn. rewrite Z.land_spec, Z.bits_0. destruct (Z_lt_le_dec n k) as [N|N].
    - rewrite Z.mul_pow2_bits_low by lia. apply andb_false_r.
    - replace (Z.testbit a n) with false; [reflexivity|]. symmetry. destruct (Z.eq_dec a 0) as [->|Z0]; [apply Z.bits_0|].
      apply Z.bits_above_log2; [lia|]. assert (Z.log2 a < k) by (apply Z.log2_lt_pow2; lia). lia. }
  rewrite <- Z.lxor_lor by exact L. apply Z.add_nocarry_lxor; exact L.
Qed.
Lemma length_lor b0 b1 b2 b3 : byte b3 < 128 ->
  Z.lor (Z.lor (Z.lor (byte b0) (byte b1 * 2 ^ 8)) (wrap32 (byte b2 * 2 ^ 16))) (wrap32 (byte b3 * 2 ^ 24)) = declared b0 b1 b2 b3.
Proof.
  intro H. pose proof (byte_range b0). pose proof (byte_range b1). pose proof (byte_range b2). pose proof (byte_range b3).
  assert (W : forall z, 0 <= z < 2 ^ 31 -> wrap32 z = z) by (intros z Hz; unfold wrap32; rewrite Z.mod_small by lia; lia).
  rewrite !W by lia. unfold declared.
  rewrite (lor_add (byte b0) (byte b1) 8) by lia. rewrite (lor_add _ (byte b2) 16) by lia. rewrite (lor_add _ (byte b3) 24) by lia. reflexivity.
Qed.

Definition nonhex (c : ascii) : bool := negb (is_hex (byte c)).
Lemma decode_header b0 b1 b2 b3 rest len : byte b3 < 128 ->
  decode_part (to_char 128 :: to_char 2 :: b0 :: b1 :: b2 :: b3 :: rest) len =
  (let data := firstn (Z.to_nat (declared b0 b1 b2 b3)) rest in
   if (length data <=? Z.to_nat len)%nat then Ok (Some data) else UB "write behind the end of an array").
Proof.
  intro H. unfold decode_part. cbn [existsb]. change (is_hex (byte (to_char 128))) with false. cbn [negb orb].
  change ((byte (to_char 128) =? 128) && (byte (to_char 2) =? 2)) with true. cbv iota. cbn [get].
  rewrite length_lor by exact H. apply write_read.
Qed.
Lemma decode_binary c0 c1 c2 c3 rest len : existsb nonhex [c0; c1; c2; c3] = true -> byte c0 <> 128 \/ byte c1 <> 2 -> 
  decode_part (c0 :: c1 :: c2 :: c3 :: rest) len =
  if 4 <=? len then Ok (Some (firstn (Z.to_nat len) (c0 :: c1 :: c2 :: c3 :: rest))) else UB "write behind the end of an array".
Proof.
  intros H N. unfold decode_part. change (fun c => negb (is_hex (byte c))) with nonhex. rewrite H.
  assert (E : (byte c0 =? 128) && (byte c1 =? 2) = false).
  { destruct (Z.eqb_spec (byte c0) 128); [|reflexivity]. destruct (Z.eqb_spec (byte c1) 2); [|reflexivity]. exfalso. tauto. }
  rewrite E. rewrite write_read. rewrite app_length. cbn [length].
  destruct (Z.leb_spec 4 len) as [L|L].
  - assert (A : (4 + length (firstn (Z.to_nat (len - 4)) rest) <= Z.to_nat len)%nat) by (pose proof (firstn_le_length (Z.to_nat (len - 4)) rest); lia).
    apply Nat.leb_le in A. rewrite A. replace (Z.to_nat len) with (4 + Z.to_nat (len - 4))%nat by lia. reflexivity.
  - rewrite (proj2 (Nat.leb_gt _ _)) by lia. reflexivity.
Qed.
Lemma decode_short s len : (length s < 4)%nat -> decode_part s len = Ok None.
Proof. destruct s as [|? [|? [|? [|? ?]]]]; cbn; intro; try reflexivity; lia. Qed.

(** Hexadecimal format: the second element is never written. *)
Definition hole (bytes : list (option ascii)) : Prop := match nth_error bytes 1 with Some (Some _) => False | _ => True end.
Lemma nth_error_update {A} : forall (l : list A) i j x, i <> j -> nth_error (update i x l) j = nth_error l j.
Proof. induction l as [|h t IH]; intros [|i] [|j] x N; cbn; try reflexivity; try lia. apply IH. lia. Qed.
Lemma write_hole i c bytes bytes' : (i = 0 \/ 2 <= i) -> hole bytes -> write i c bytes = Ok bytes' -> hole bytes'.
Proof.
  intros I H W. unfold write in W. destruct ((0 <=? i) && (i <? Z.of_nat (length bytes))) eqn:E; [|discriminate].
  apply andb_true_iff in E. rewrite Z.leb_le in E. inversion W. unfold hole. rewrite nth_error_update by lia. exact H.
Qed.
Lemma write_no_throw i c bytes x : write i c bytes <> Throw x.
Proof. unfold write. destruct (_ && _); discriminate. Qed.
Lemma write_pairs_hole : forall n s i b bytes, 2 <= i -> 2 <= b -> hole bytes ->
  match write_pairs n s i b bytes with Ok (b', bytes', _) => 2 <= b' /\ hole bytes' | UB _ => True | Throw _ => False end.
Proof.
  induction n as [|n IH]; intros s i b bytes I B H; cbn [write_pairs]; [split; assumption|].
  destruct s as [|c1 s1]; [split; assumption|]. destruct (byte c1 =? 255); [split; assumption|].
  destruct s1 as [|c2 s2]; [split; assumption|]. destruct (byte c2 =? 255); [split; assumption|].
  destruct (write i _ bytes) as [bytes'|x|x] eqn:W; cbn [obind].
  - apply IH; [lia|lia|]. eapply write_hole; [right; exact I|exact H|exact W].
  - trivial.
  - exact (write_no_throw _ _ _ _ W).
Qed.
Lemma read_hole bytes n : (2 <= n)%nat -> hole bytes -> exists x, read_bytes n bytes = UB x.
Proof.
  intros L H. destruct n as [|[|n]]; try lia. destruct bytes as [|[c|] bytes]; cbn [read_bytes]; try (eexists; reflexivity).
  destruct bytes as [|[c2|] bytes]; cbn [read_bytes obind]; try (eexists; reflexivity). destruct H.
Qed.
Lemma decode_hex c0 c1 c2 c3 rest len : existsb nonhex [c0; c1; c2; c3] = false ->
  exists x, decode_part (c0 :: c1 :: c2 :: c3 :: rest) len = UB x.
Proof.
  intro H. unfold decode_part. change (fun c => negb (is_hex (byte c))) with nonhex. rewrite H.
  set (bytes := repeat (@None ascii) (Z.to_nat (Z.quot len 2))).
  assert (HB : hole bytes).
  { unfold hole, bytes. destruct (nth_error _ 1) as [[c|]|] eqn:E; trivial. apply nth_error_In in E. apply repeat_spec in E. discriminate. }
  clearbody bytes.
  destruct (write 0 _ bytes) as [bytes1|x|x] eqn:W1; cbn [obind]; [|eexists; reflexivity|exfalso; exact (write_no_throw _ _ _ _ W1)].
  apply write_hole in W1; [|lia|exact HB].
  destruct (write 2 _ bytes1) as [bytes2|x|x] eqn:W2; cbn [obind]; [|eexists; reflexivity|exfalso; exact (write_no_throw _ _ _ _ W2)].
  apply write_hole in W2; [|lia|exact W1].
  pose proof (write_pairs_hole (Z.to_nat (Z.quot (len - 3) 2)) rest 4 2 bytes2 ltac:(lia) ltac:(lia) W2) as WP.
  destruct (write_pairs _ _ _ _ _) as [[[b bytes3] s']|x|x]; cbn [obind]; [|eexists; reflexivity|destruct WP].
  destruct WP as [B HB3]. destruct (read_hole bytes3 (Z.to_nat b) ltac:(lia) HB3) as [x ->]. exists x. reflexivity.
Qed.
