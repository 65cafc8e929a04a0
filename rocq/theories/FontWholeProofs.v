(** FontWholeProofs.v - the whole font file: frames, segment headers, clear text and encrypted part together. *)
From Coq Require Import ZArith NArith Reals Lia.
From Verif Require Import Base Double Fonts FontsSpec CipherProofs CharstringProofs FontTextProofs FontFileProofs FontClearProofs.
Open Scope Z_scope.

Lemma rbind_ok {A B} (m : run A) (k : A -> run B) b : rbind m k = Some (Ok b) -> exists a, m = Some (Ok a) /\ k a = Some (Ok b).
Proof. destruct m as [[a|x|x]|]; cbn; intro H; try discriminate. exists a. now split. Qed.

(** The encrypted part changes nothing but boxes. *)
Lemma read_chars_frame w fuel lenIV tbl : forall ms f f', read_chars w fuel lenIV tbl ms f = Some (Ok f') -> same_font f f'.
Proof.
  induction ms as [|[[name num] rest] ms IH]; intros f f' H; cbn [read_chars] in H.
  - inversion H; subst. apply same_font_refl.
  - apply rbind_ok in H as (n & _ & H). apply rbind_ok in H as (cs & _ & H). apply rbind_ok in H as (s & _ & H).
    eapply same_font_trans; [apply set_box_same|]. eapply IH. exact H.
Qed.
Lemma parse_decrypted_frame w fuel d f f' : parse_decrypted w fuel d f = Some (Ok f') -> same_font f f'.
Proof.
  unfold parse_decrypted. intro H. apply rbind_ok in H as (lenIV & _ & H).
  assert (ID : forall g, Some (Ok f) = Some (Ok g) -> same_font f g) by (intros g E; inversion E; subst; apply same_font_refl).
  destruct (find_text (S_ "/Subrs") d) as [[a t]|]; [|now apply ID].
  destruct (find_text (S_ "ND") t) as [[sub b]|]; [|now apply ID].
  apply rbind_ok in H as (tbl & _ & H).
  destruct (find_text (S_ "/CharStrings") d) as [[a2 chars]|]; [|now apply ID].
  destruct (contains (S_ "end") chars); [|now apply ID]. eapply read_chars_frame. exact H.
Qed.
Lemma parseEncrypted_frame w fuel s len f f' : parseEncryptedPart w fuel s len f = Some (Ok f') -> same_font f f'.
Proof.
  unfold parseEncryptedPart. intro H. apply rbind_ok in H as (o & _ & H). destruct o as [bytes|].
  - apply rbind_ok in H as (d & _ & H). eapply parse_decrypted_frame. exact H.
  - inversion H; subst. apply same_font_refl.
Qed.

(** Headers of segments. *)
Lemma part_length_plain s len : (match s with a :: b :: _ => byte a <> 128 \/ byte b <> 1 | _ => True end) -> part_length s len = (len, s).
Proof.
  intro H. unfold part_length. destruct s as [|a [|b r]]; cbn [get].
  - reflexivity.
  - destruct (byte a =? 128) eqn:E; [|reflexivity]. reflexivity.
  - destruct (Z.eqb_spec (byte a) 128), (Z.eqb_spec (byte b) 1); cbn [andb]; try reflexivity. lia.
Qed.
Lemma wrap_small z : - 2 ^ 31 <= z < 2 ^ 31 -> wrap32 z = z.
Proof. intro H. unfold wrap32. rewrite Z.mod_small; lia. Qed.
Lemma part_length_header b0 b1 b2 b3 rest len : byte b3 < 128 ->
  part_length (to_char 128 :: to_char 1 :: b0 :: b1 :: b2 :: b3 :: rest) len = (declared b0 b1 b2 b3, rest).
Proof.
  intro H. unfold part_length. cbn [get]. rewrite !byte_to_char by lia. cbn [Z.eqb andb Pos.eqb].
  pose proof (byte_range b1). rewrite (wrap_small (byte b1 * 2 ^ 8)) by lia. rewrite length_lor by exact H. reflexivity.
Qed.

Lemma text_pos ls : ls <> [] -> 0 < Z.of_nat (length (text_of ls)).
Proof. intro NE. destruct ls as [|l ls]; [congruence|]. unfold text_of. cbn [map concat]. rewrite !app_length. cbn [length]. lia. Qed.
Lemma plain_start ls tail : hd_error (text_of ls) <> Some (to_char 128) -> ls <> [] ->
  part_length (text_of ls ++ tail) (Z.of_nat (length (text_of ls))) = (Z.of_nat (length (text_of ls)), text_of ls ++ tail).
Proof.
  intros H NE. pose proof (text_pos ls NE) as L. apply part_length_plain. destruct (text_of ls) as [|a r]; [cbn in L; lia|]. cbn [app].
  destruct (r ++ tail) as [|b r2]; [exact I|]. left. intro E. apply H. cbn [hd_error]. f_equal. rewrite <- E. symmetry. apply to_char_byte.
Qed.

(** The font file: clear text and encrypted part. *)
Section Whole.
  Context (strtod : str -> option double).
  Lemma clear_part ls tail f : is_text ls ->
    parseAsciiPart strtod (text_of ls ++ tail) (Z.of_nat (length (text_of ls))) f =
    obind (ascii_lines strtod ls false false f) (fun f => Ok (f, tail)).
  Proof.
    intro T. unfold parseAsciiPart. rewrite Nat2Z.id, firstn_app, firstn_all, Nat.sub_diag, firstn_O, app_nil_r, lines_of_text by exact T.
    rewrite skipn_app, skipn_all, Nat.sub_diag. cbn [app skipn]. reflexivity.
  Qed.
  (** The result of the clear text is not touched by the encrypted part. *)
  Lemma file_clear w fuel s len1 len2 ls tail f f' : part_length s len1 = (Z.of_nat (length (text_of ls)), text_of ls ++ tail) ->
    ls <> [] -> 0 < len2 -> is_text ls ->
    parse_file strtod w fuel (mkFile (Some s) (Some len1) (Some len2)) f = Some (Ok f') ->
    exists f1, ascii_lines strtod ls false false f = Ok f1 /\ same_font f1 f'.
  Proof.
    intros PL NE L2 T H. unfold parse_file in H. cbn [ff_stream ff_length1 ff_length2] in H. rewrite PL in H.
    assert (L1 : 0 < Z.of_nat (length (text_of ls))).
    { destruct ls as [|l ls]; [congruence|]. unfold text_of. cbn [map concat]. rewrite !app_length. cbn [length]. lia. }
    destruct (Z.leb_spec (Z.of_nat (length (text_of ls))) 0); [lia|]. destruct (Z.leb_spec len2 0); [lia|]. cbn [orb] in H.
    rewrite clear_part in H by exact T. apply rbind_ok in H as ([f1 s2] & E & H).
    destruct (ascii_lines strtod ls false false f) as [g|x|x]; cbn [obind] in E; inversion E; subst.
    exists f1. split; [reflexivity|]. eapply parseEncrypted_frame. exact H.
  Qed.
  Lemma file_whole s len1 len2 ls tail data prefix d lenIV ss gs subrs f m' :
    part_length s len1 = (Z.of_nat (length (text_of ls)), text_of ls ++ tail) -> ls <> [] -> 0 < len2 -> is_text ls ->
    length (f_matrix f) = 6%nat -> matrix_lines strtod ls (f_matrix f) m' ->
    decode_part tail len2 = Ok (Some data) -> data = encrypt 55665 (prefix ++ d) -> length prefix = 4%nat ->
    private_part d lenIV ss gs -> font_ok lenIV ss gs subrs ->
    exists n f1 f', ascii_lines strtod ls false false f = Ok f1 /\ f_matrix f1 = m' /\
      (forall fuel, (n <= fuel)%nat -> parse_file strtod true fuel (mkFile (Some s) (Some len1) (Some len2)) f = Some (Ok f')) /\
      boxes_ok lenIV gs subrs f1 f'.
  Proof.
    intros PL NE L2 T L6 ML DP ED LP PP FO.
    assert (L1 : 0 < Z.of_nat (length (text_of ls))).
    { destruct ls as [|l ls']; [congruence|]. unfold text_of. cbn [map concat]. rewrite !app_length. cbn [length]. lia. }
    destruct (ascii_matrix strtod ls _ m' ML false false f eq_refl L6 []) as (i & w & f1 & EM & _ & EA).
    rewrite app_nil_r in EA. cbn [ascii_lines] in EA.
    destruct (parse_encrypted_spec tail len2 data prefix d lenIV ss gs subrs f1 DP ED LP PP FO) as (n & f' & R & B).
    exists n, f1, f'. split; [exact EA|]. split; [exact EM|]. split; [|exact B].
    intros fuel L. unfold parse_file. cbn [ff_stream ff_length1 ff_length2]. rewrite PL.
    destruct (Z.leb_spec (Z.of_nat (length (text_of ls))) 0); [lia|]. destruct (Z.leb_spec len2 0); [lia|]. cbn [orb].
    rewrite clear_part by exact T. rewrite EA. cbn [obind rbind]. apply R. exact L.
  Qed.
End Whole.

Lemma nonhex_iff c : nonhex c = true <-> ~ hex_digit c.
Proof.
  unfold nonhex, is_hex, hex_digit. rewrite Bool.negb_true_iff, !Bool.orb_false_iff, !Bool.andb_false_iff, !Z.leb_gt. lia.
Qed.
(** The encrypted part without a header. *)
Lemma decode_plain data tail : (exists c, In c (firstn 4 data) /\ ~ hex_digit c) -> (4 <= length data)%nat ->
  (match data with a :: b :: _ => byte a <> 128 \/ byte b <> 2 | _ => True end) ->
  decode_part (data ++ tail) (Z.of_nat (length data)) = Ok (Some data).
Proof.
  intros (c & IN & NH) L H. destruct data as [|c0 [|c1 [|c2 [|c3 r]]]]; cbn [length] in L; try lia.
  cbn [app]. rewrite decode_binary.
  - destruct (Z.leb_spec 4 (Z.of_nat (length (c0 :: c1 :: c2 :: c3 :: r)))); [|cbn [length] in *; lia].
    rewrite Nat2Z.id. change (c0 :: c1 :: c2 :: c3 :: r ++ tail) with ((c0 :: c1 :: c2 :: c3 :: r) ++ tail).
    rewrite firstn_app, firstn_all, Nat.sub_diag, firstn_O, app_nil_r. reflexivity.
  - apply existsb_exists. exists c. split; [exact IN|]. now apply nonhex_iff.
  - exact H.
Qed.
Lemma decode_framed b0 b1 b2 b3 data tail len : byte b3 < 128 -> declared b0 b1 b2 b3 = Z.of_nat (length data) -> Z.of_nat (length data) <= len ->
  decode_part (to_char 128 :: to_char 2 :: b0 :: b1 :: b2 :: b3 :: data ++ tail) len = Ok (Some data).
Proof.
  intros H D L. rewrite decode_header by exact H. rewrite D, Nat2Z.id. cbn zeta.
  rewrite firstn_app, firstn_all, Nat.sub_diag, firstn_O, app_nil_r. destruct (Nat.leb_spec (length data) (Z.to_nat len)); [reflexivity|lia].
Qed.

(** ** Frames of the whole parser *)
Lemma same_font_style f g : same_font f g -> f_name f = f_name g /\ f_norm f = f_norm g /\ f_base f = f_base g /\ f_fixed f = f_fixed g /\
  f_serif f = f_serif g /\ f_symbolic f = f_symbolic g /\ f_type3 f = f_type3 g /\ f_ascent f = f_ascent g /\ f_descent f = f_descent g.
Proof. unfold same_font. tauto. Qed.
Lemma parse_file_frame strtod w fuel ff f f' : parse_file strtod w fuel ff f = Some (Ok f') ->
  f_name f = f_name f' /\ f_norm f = f_norm f' /\ f_base f = f_base f' /\ f_fixed f = f_fixed f' /\
  f_serif f = f_serif f' /\ f_symbolic f = f_symbolic f' /\ f_type3 f = f_type3 f' /\ f_ascent f = f_ascent f' /\ f_descent f = f_descent f'.
Proof.
  intro H. unfold parse_file in H.
  assert (ID : forall g, Some (Ok f) = Some (Ok g) -> same_font f g) by (intros g E; inversion E; subst; apply same_font_refl).
  destruct (ff_stream ff) as [s|]; [|now apply same_font_style, ID]. destruct (ff_length1 ff) as [len1|]; [|now apply same_font_style, ID].
  destruct (ff_length2 ff) as [len2|]; [|now apply same_font_style, ID]. destruct (part_length s len1) as [l1 s1].
  destruct ((l1 <=? 0) || (len2 <=? 0)); [now apply same_font_style, ID|].
  apply rbind_ok in H as ([f1 s2] & E & H). apply parseEncrypted_frame, same_font_style in H.
  unfold parseAsciiPart in E. destruct (ascii_lines strtod (lines_of (firstn (Z.to_nat l1) s1)) false false f) as [g|x|x] eqn:A; cbn [obind] in E; inversion E; subst.
  apply ascii_frame in A. unfold same_but_style in A. repeat match goal with X : _ /\ _ |- _ => destruct X end. repeat split; congruence.
Qed.
Lemma parse_font_frame strtod w fuel g emb f' : parse_font strtod w fuel (Some g) emb = Some (Ok (Some f')) ->
  let f := basic_font g in
  f_name f = f_name f' /\ f_norm f = f_norm f' /\ f_base f = f_base f' /\ f_fixed f = f_fixed f' /\
  f_serif f = f_serif f' /\ f_symbolic f = f_symbolic f' /\ f_type3 f = f_type3 f' /\ f_ascent f = f_ascent f' /\ f_descent f = f_descent f'.
Proof.
  unfold parse_font. destruct (if emb then g_file g else None) as [ff|]; intro H.
  - apply rbind_ok in H as (f1 & E & H). inversion H; subst. eapply parse_file_frame. exact E.
  - inversion H; subst. cbn zeta. repeat split.
Qed.
(** The style of a font without embedded file. *)
Lemma contains_iff p s : contains p s = true <-> exists a b, s = a ++ p ++ b.
Proof. apply contains_spec. Qed.
