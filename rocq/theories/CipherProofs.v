(** CipherProofs.v - bytes, ints and the Type-1 cipher (C45). *)
From Coq Require Import ZArith NArith.
From Verif Require Import Base Fonts FontsSpec.
Open Scope Z_scope.

Lemma byte_range c : 0 <= byte c < 256.
Proof. unfold byte. pose proof (N_ascii_bounded c). lia. Qed.
Lemma byte_to_char z : 0 <= z < 256 -> byte (to_char z) = z.
Proof.
  intro H. unfold byte, to_char. rewrite Z.mod_small by lia. rewrite N_ascii_embedding by lia. lia.
Qed.
Lemma to_char_byte c : to_char (byte c) = c.
Proof.
  unfold to_char. pose proof (byte_range c). rewrite Z.mod_small by lia. unfold byte. rewrite N2Z.id. apply ascii_N_embedding.
Qed.
Lemma byte_inj a b : byte a = byte b -> a = b.
Proof. intro H. rewrite <- (to_char_byte a), <- (to_char_byte b), H. reflexivity. Qed.

Lemma wrap32_mod16 z : (wrap32 z) mod 65536 = z mod 65536.
Proof.
  unfold wrap32. assert (E : (z + 2 ^ 31) mod 2 ^ 32 = (z + 2 ^ 31) - 2 ^ 32 * ((z + 2 ^ 31) / 2 ^ 32)) by (rewrite Z.mod_eq; lia).
  rewrite E. replace (z + 2 ^ 31 - 2 ^ 32 * ((z + 2 ^ 31) / 2 ^ 32) - 2 ^ 31) with (z + (- (65536 * ((z + 2 ^ 31) / 2 ^ 32))) * 65536) by lia.
  apply Z.mod_add. lia.
Qed.
Lemma wrap32_range z : - 2 ^ 31 <= wrap32 z < 2 ^ 31.
Proof. unfold wrap32. pose proof (Z.mod_pos_bound (z + 2 ^ 31) (2 ^ 32)). lia. Qed.
Lemma in_int_iff z : in_int z = true <-> int_range z.
Proof. unfold in_int, int_range, INT_MIN, INT_MAX. rewrite andb_true_iff, !Z.leb_le. lia. Qed.
Lemma int_op_ok w z : int_range z -> int_op w z = Ok z.
Proof. intro H. unfold int_op. rewrite (proj2 (in_int_iff z) H). reflexivity. Qed.
Lemma int_op_wrap z : exists v, int_op true z = Ok v /\ v mod 65536 = z mod 65536.
Proof.
  unfold int_op. destruct (in_int z); [exists z; auto|]. exists (wrap32 z). split; [reflexivity|apply wrap32_mod16].
Qed.
Lemma int_op_strict z v : int_op false z = Ok v -> v = z /\ int_range z.
Proof. unfold int_op. destruct (in_int z) eqn:E; [|discriminate]. intro H. inversion H. subst. split; [reflexivity|now apply in_int_iff]. Qed.

Lemma land16 z : Z.land z (2 ^ 16 - 1) = z mod 65536.
Proof. change (2 ^ 16 - 1) with (Z.ones 16). rewrite Z.land_ones by lia. reflexivity. Qed.
Lemma lxor_range a b : 0 <= a < 256 -> 0 <= b < 256 -> 0 <= Z.lxor a b < 256.
Proof.
  intros A B. assert (N : 0 <= Z.lxor a b) by (apply Z.lxor_nonneg; lia). split; [exact N|].
  destruct (Z.eq_dec (Z.lxor a b) 0) as [->|Z0]; [lia|].
  apply Z.log2_lt_pow2 with (b := 8); [lia|].
  assert (La : Z.log2 a < 8).
  { destruct (Z.eq_dec a 0) as [->|]; [reflexivity|]. apply Z.log2_lt_pow2; lia. }
  assert (Lb : Z.log2 b < 8).
  { destruct (Z.eq_dec b 0) as [->|]; [reflexivity|]. apply Z.log2_lt_pow2; lia. }
  pose proof (Z.log2_lxor a b ltac:(lia) ltac:(lia)). lia.
Qed.
Lemma lxor_cancel a b : Z.lxor (Z.lxor a b) b = a.
Proof. rewrite Z.lxor_assoc, Z.lxor_nilpotent, Z.lxor_0_r. reflexivity. Qed.
Lemma key_range r : 0 <= r < 65536 -> 0 <= r / 256 < 256.
Proof. intro. split; [apply Z.div_pos; lia|apply Z.div_lt_upper_bound; lia]. Qed.

(** One step of the key under wrap around. *)
Lemma key_step c r :
  exists s p q, int_op true (c + r) = Ok s /\ int_op true (s * 52845) = Ok p /\ int_op true (p + 22719) = Ok q /\
    Z.land q (2 ^ 16 - 1) = ((c + r) * 52845 + 22719) mod 65536.
Proof.
  destruct (int_op_wrap (c + r)) as [s [Es Ms]]. destruct (int_op_wrap (s * 52845)) as [p [Ep Mp]].
  destruct (int_op_wrap (p + 22719)) as [q [Eq Mq]].
  exists s, p, q. repeat split; try assumption. rewrite land16, Mq.
  rewrite Z.add_mod, Mp, <- Z.add_mod by lia.
  rewrite Z.add_mod by lia. rewrite (Z.mul_mod s) by lia. rewrite Ms. rewrite <- Z.mul_mod by lia. rewrite <- Z.add_mod by lia. reflexivity.
Qed.

Lemma decrypt_encrypt : forall plain i r n, 0 <= r < 65536 ->
  decrypt_from true (encrypt r plain) i r n = Ok (skipn (Z.to_nat (n - i)) plain).
Proof.
  induction plain as [|p plain IH]; intros i r n Hr.
  - cbn [encrypt decrypt_from]. rewrite skipn_nil. reflexivity.
  - cbn [encrypt decrypt_from]. pose proof (byte_range p). pose proof (key_range r Hr).
    pose proof (lxor_range _ _ H H0) as Hc. rewrite byte_to_char by exact Hc.
    destruct (key_step (Z.lxor (byte p) (r / 256)) r) as [s [q0 [q [E1 [E2 [E3 E4]]]]]].
    rewrite E1. cbn [obind]. rewrite E2. cbn [obind]. rewrite E3. cbn [obind]. rewrite E4.
    rewrite IH by (apply Z.mod_pos_bound; lia). cbn [obind].
    assert (Sh : Z.shiftr r 8 = r / 256) by (rewrite Z.shiftr_div_pow2 by lia; reflexivity).
    rewrite Sh, lxor_cancel, to_char_byte.
    destruct (n <=? i) eqn:L.
    + apply Z.leb_le in L. replace (Z.to_nat (n - i)) with 0%nat by lia. replace (Z.to_nat (n - (i + 1))) with 0%nat by lia. reflexivity.
    + apply Z.leb_gt in L. replace (Z.to_nat (n - i)) with (S (Z.to_nat (n - (i + 1)))) by lia. reflexivity.
Qed.

(** Every text is the encryption of one. *)
Lemma encrypt_onto : forall bytes r, 0 <= r < 65536 -> exists plain, encrypt r plain = bytes.
Proof.
  induction bytes as [|c bytes IH]; intros r Hr.
  - exists []. reflexivity.
  - set (p := Z.lxor (byte c) (r / 256)).
    pose proof (lxor_range _ _ (byte_range c) (key_range r Hr)) as Hp. fold p in Hp.
    destruct (IH (((byte c + r) * 52845 + 22719) mod 65536)) as [t Et]; [apply Z.mod_pos_bound; lia|].
    exists (to_char p :: t). cbn [encrypt]. rewrite byte_to_char by exact Hp. unfold p at 1 2. rewrite lxor_cancel, to_char_byte, Et.
    reflexivity.
Qed.
Lemma encrypt_length : forall plain r, length (encrypt r plain) = length plain.
Proof. induction plain as [|p t IH]; intro r; cbn; [reflexivity|]. now rewrite IH. Qed.

Lemma decrypt_strict : forall plain i r n, 0 <= r < 65536 ->
  (forall d, decrypt_from false (encrypt r plain) i r n = Ok d -> Forall in_key (keys r plain) /\ d = skipn (Z.to_nat (n - i)) plain) /\
  (Forall in_key (keys r plain) -> decrypt_from false (encrypt r plain) i r n = Ok (skipn (Z.to_nat (n - i)) plain)) /\
  (forall x, decrypt_from false (encrypt r plain) i r n <> Throw x).
Proof.
  induction plain as [|p plain IH]; intros i r n Hr.
  - cbn [encrypt decrypt_from keys]. rewrite skipn_nil. split; [|split].
    + intros d E. inversion E. split; [constructor|reflexivity].
    + reflexivity.
    + discriminate.
  - cbn [encrypt decrypt_from keys]. pose proof (byte_range p) as Hb. pose proof (key_range r Hr) as Hk.
    pose proof (lxor_range _ _ Hb Hk) as Hc. rewrite byte_to_char by exact Hc.
    set (c := Z.lxor (byte p) (r / 256)) in *.
    rewrite (int_op_ok false (c + r)) by (unfold int_range; lia). cbn [obind].
    assert (Sh : Z.shiftr r 8 = r / 256) by (rewrite Z.shiftr_div_pow2 by lia; reflexivity).
    assert (PX : Z.lxor c (Z.shiftr r 8) = byte p) by (rewrite Sh; apply lxor_cancel).
    rewrite PX, to_char_byte.
    destruct (IH (i + 1) (((c + r) * 52845 + 22719) mod 65536) n ltac:(apply Z.mod_pos_bound; lia)) as [I1 [I2 I3]].
    assert (T : forall X : str, (if n <=? i then p :: skipn (Z.to_nat (n - (i + 1))) plain else skipn (Z.to_nat (n - (i + 1))) plain)
                = skipn (Z.to_nat (n - i)) (p :: plain)).
    { intros _. destruct (n <=? i) eqn:L.
      - apply Z.leb_le in L. replace (Z.to_nat (n - i)) with 0%nat by lia. replace (Z.to_nat (n - (i + 1))) with 0%nat by lia. reflexivity.
      - apply Z.leb_gt in L. replace (Z.to_nat (n - i)) with (S (Z.to_nat (n - (i + 1)))) by lia. reflexivity. }
    specialize (T []).
    destruct (Z_le_gt_dec ((c + r) * 52845 + 22719) (2 ^ 31 - 1)) as [K|K].
    + rewrite (int_op_ok false ((c + r) * 52845)) by (unfold int_range; lia). cbn [obind].
      rewrite (int_op_ok false ((c + r) * 52845 + 22719)) by (unfold int_range; lia). cbn [obind]. rewrite land16.
      split; [|split].
      * intros d E. destruct (decrypt_from false _ _ _ _) as [o| |] eqn:D in E; cbn [obind] in E; try discriminate.
        destruct (I1 o D) as [F ->]. inversion E. split; [constructor; [exact K|exact F]|exact T].
      * intro F. inversion F as [|? ? _ F']; subst. rewrite (I2 F'). cbn [obind]. f_equal. exact T.
      * intros x E. destruct (decrypt_from false _ _ _ _) as [o| |] eqn:D in E; cbn [obind] in E; try discriminate.
        exact (I3 _ D).
    + assert (B : forall k, (do p0 <- int_op false ((c + r) * 52845); do q <- int_op false (p0 + 22719); k q) = (UB "signed integer overflow" : outcome str)).
      { intro k. destruct (int_op false ((c + r) * 52845)) as [v|x|x] eqn:E1; cbn [obind].
        - apply int_op_strict in E1. destruct E1 as [-> _]. unfold int_op. destruct (in_int _) eqn:E2; [|reflexivity].
          apply in_int_iff in E2. unfold int_range in E2. lia.
        - unfold int_op in E1. destruct (in_int _); [discriminate|]. now inversion E1.
        - unfold int_op in E1. destruct (in_int _); discriminate. }
      rewrite B. split; [|split].
      * discriminate.
      * intro F. inversion F as [|? ? F1 _]; subst. unfold in_key in F1. cbn [fst snd] in F1. lia.
      * discriminate.
Qed.
