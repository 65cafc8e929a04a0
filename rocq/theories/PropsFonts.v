(** PropsFonts.v - property theorems C45-C50, C64-C66 (fonts). *)
From Coq Require Import ZArith NArith Reals Lra Lia.
From Verif Require Import Base Double Fonts FontsSpec CipherProofs CharstringProofs FontTextProofs FontFileProofs FontClearProofs FontWholeProofs FontExamples.
Open Scope Z_scope.

(** ** C45 Decryption inverts the encryption of the Type 1 format *)

(** With wrap-around arithmetic: for every key and every plain text. [n] is the number of leading bytes to skip. *)
Theorem C45_inverse : forall plain r n, 0 <= r < 65536 -> 0 <= n -> decrypt true (encrypt r plain) r n = Ok (skipn (Z.to_nat n) plain).
Proof. intros plain r n R N. unfold decrypt. rewrite decrypt_encrypt by exact R. now rewrite Z.sub_0_r. Qed.
Print Assumptions C45_inverse.
(** Every byte string is the encryption of exactly one plain text: decryption is total and onto. *)
Theorem C45_total : forall bytes r n, 0 <= r < 65536 -> 0 <= n ->
  exists plain, encrypt r plain = bytes /\ length plain = length bytes /\ decrypt true bytes r n = Ok (skipn (Z.to_nat n) plain).
Proof.
  intros bytes r n R N. destruct (encrypt_onto bytes r R) as [plain E]. exists plain. split; [exact E|].
  split; [rewrite <- E; symmetry; apply encrypt_length|]. rewrite <- E. now apply C45_inverse.
Qed.
Print Assumptions C45_total.
(** With the arithmetic of the C++ standard: the same result exactly if no key makes the arithmetic overflow; otherwise the
    behaviour is undefined. *)
Theorem C45_standard : forall plain r n, 0 <= r < 65536 -> 0 <= n ->
  (Forall in_key (keys r plain) -> decrypt false (encrypt r plain) r n = Ok (skipn (Z.to_nat n) plain)) /\
  (~ Forall in_key (keys r plain) -> exists x, decrypt false (encrypt r plain) r n = UB x).
Proof.
  intros plain r n R N. destruct (decrypt_strict plain 0 r n R) as (H1 & H2 & H3). unfold decrypt. split.
  - intro F. rewrite H2 by exact F. now rewrite Z.sub_0_r.
  - intro NF. destruct (decrypt_from false (encrypt r plain) 0 r n) as [d|x|x] eqn:E; [|now exists x|].
    + exfalso. apply NF. now apply (H1 d).
    + exfalso. now apply (H3 x).
Qed.
Print Assumptions C45_standard.
(** The key of the encrypted part (55665) overflows with the first byte, whatever it is: in standard C++ the behaviour of the
    program is undefined for every embedded font. *)
Theorem C45_eexec_refuted : forall c bytes n, exists x, decrypt false (c :: bytes) 55665 n = UB x.
Proof.
  intros c bytes n. exists "signed integer overflow"%string. pose proof (byte_range c). unfold decrypt, decrypt_from. cbn zeta.
  rewrite (int_op_ok false (byte c + 55665)) by (unfold int_range; lia). cbn [obind].
  unfold int_op at 1. destruct (in_int ((byte c + 55665) * 52845)) eqn:E; [|reflexivity]. apply in_int_iff in E. unfold int_range in E. lia.
Qed.
Print Assumptions C45_eexec_refuted.
Example C45_ex : decrypt true (encrypt 55665 (S_ "0123/Private")) 55665 4 = Ok (S_ "/Private").
Proof. vm_compute. reflexivity. Qed.
Example C45_ex_standard : Forall in_key (keys 100 (S_ "a")) /\ ~ Forall in_key (keys 4330 (S_ "abcd")).
Proof.
  split; [constructor; [vm_compute; discriminate|constructor]|].
  intro F. inversion F as [|? ? _ F2]; subst. inversion F2 as [|? ? F3 _]; subst. vm_compute in F3. now apply F3.
Qed.

(** ** C46 Interpretation of charstrings *)

(** A charstring that the format can execute - every operator finds its operands, no division by zero, numbers of 32 bits, the
    subroutines it calls exist and return - is interpreted without undefined behaviour, in either arithmetic, as soon as the depth
    of recursion suffices. *)
Theorem C46_safe : forall w table subrs ts m cs,
  (forall i body, subrs i = Some body -> exists s, subr_of i table = Some s /\ charstring body (bytes_of s)) ->
  exec subrs ts m_start m -> charstring ts (bytes_of cs) ->
  exists n s, forall fuel, (n <= fuel)%nat -> parseCharString w table fuel cs cs_start = Some (Ok s).
Proof.
  intros w table subrs ts m cs HS EX CS. destruct (exec_sim w table subrs HS ts m_start m EX cs cs_start CS) as (n & s & R & _).
  { repeat split. }
  exists n, s. exact R.
Qed.
Print Assumptions C46_safe.
(** Whatever the bytes are: if no subroutine contains the byte 10 (callsubr), the interpretation ends, and its result doesn't depend on
    the depth of recursion that is available. *)
Theorem C46_terminates : forall w table cs s, (forall i sub c, In (i, sub) table -> In c sub -> byte c <> 10) ->
  exists r, forall fuel, (2 <= fuel)%nat -> parseCharString w table fuel cs s = Some r.
Proof.
  intros w table cs s H. destruct (parseCharString w table 2 cs s) as [r|] eqn:E.
  - exists r. intros fuel L. eapply fuel_mono; [exact L|exact E].
  - exfalso. revert E. apply flat_subrs_end; [|lia]. intros i sub I c IC [EQ|[]]. now apply (H i sub c I IC).
Qed.
Print Assumptions C46_terminates.
(** If moreover there are no bytes 12 (escape) and 255 (number of five bytes), it ends without undefined behaviour (wrap-around
    arithmetic). *)
Theorem C46_bytes : forall table cs s, (forall i sub c, In (i, sub) table -> In c sub -> byte c <> 10 /\ byte c <> 12 /\ byte c <> 255) ->
  (forall c, In c cs -> byte c <> 12 /\ byte c <> 255) ->
  exists s', forall fuel, (2 <= fuel)%nat -> parseCharString true table fuel cs s = Some (Ok s').
Proof.
  intros table cs s H1 H2. destruct (flat_subrs_safe table) with (fuel := 2%nat) (cs := cs) (s := s) as [s' E].
  - intros i sub I c IC [EQ|[EQ|[EQ|[]]]]; destruct (H1 i sub c I IC) as (A & B & C); congruence.
  - lia.
  - intros c IC [EQ|[EQ|[]]]; destruct (H2 c IC); congruence.
  - exists s'. intros fuel L. eapply fuel_mono; [exact L|exact E].
Qed.
Print Assumptions C46_bytes.
(** The complete list of what can go wrong with arbitrary bytes: nothing is thrown; the undefined behaviours are divisions by zero (or
    of the smallest int by -1), a callothersubr with too few operands and a number cut off by the end of the charstring; in standard
    arithmetic also overflow. *)
Theorem C46_errors : forall w table fuel cs s,
  (forall x, parseCharString w table fuel cs s <> Some (Throw x)) /\
  forall x, parseCharString w table fuel cs s = Some (UB x) ->
    In x ["division by zero"; "INT_MIN / -1"; "back() of an empty vector"; "pop_back() of an empty vector"; "read behind the end of a string"]%string \/
    (w = false /\ x = "signed integer overflow"%string).
Proof.
  intros w table fuel cs s. pose proof (parse_fine w table fuel cs s) as F. split.
  - intros x E. rewrite E in F. exact F.
  - intros x E. rewrite E in F. exact F.
Qed.
Print Assumptions C46_errors.
(** All of them happen. *)
Theorem C46_errors_refuted : forall fuel,
  parseCharString true [] (S fuel) (of_bytes [140; 139; 12; 12]) cs_start = Some (UB "division by zero") /\
  parseCharString true [] (S fuel) (of_bytes [255; 128; 0; 0; 0; 138; 12; 12]) cs_start = Some (UB "INT_MIN / -1") /\
  parseCharString true [] (S fuel) (of_bytes [139; 139; 12; 16]) cs_start = Some (UB "back() of an empty vector") /\
  parseCharString true [] (S fuel) (of_bytes [139; 139; 139; 139; 12; 16]) cs_start = Some (UB "pop_back() of an empty vector") /\
  parseCharString true [] (S fuel) (of_bytes [255; 0]) cs_start = Some (UB "read behind the end of a string") /\
  parseCharString false [] (S fuel) (of_bytes [255; 127; 255; 255; 255; 22; 140; 22]) cs_start = Some (UB "signed integer overflow").
Proof. intro fuel. repeat split; vm_compute; reflexivity. Qed.
Print Assumptions C46_errors_refuted.
(** A subroutine that calls itself is interpreted without end: no depth of recursion suffices. *)
Theorem C46_recursion_refuted : forall w fuel, parseCharString w [(0, of_bytes [139; 10])] fuel (of_bytes [139; 10]) cs_start = None.
Proof.
  assert (G : forall w fuel s, parseCharString w [(0, of_bytes [139; 10])] fuel (of_bytes [139; 10]) s = None).
  { intro w. induction fuel as [|fuel IH]; intro s; [reflexivity|]. cbn [parseCharString of_bytes map cs_loop].
    rewrite !byte_to_char by lia. cbn [Z.eqb Pos.eqb Z.ltb Z.leb Z.compare Pos.compare Pos.compare_cont push with_args cs_args subr_of].
    change (139 - 139 =? 0) with true. cbn iota. change [to_char 139; to_char 10] with (of_bytes [139; 10]). rewrite IH. reflexivity. }
  intros. apply G.
Qed.
Print Assumptions C46_recursion_refuted.

(** A glyph: a side bearing, a vertical move, a subroutine (a horizontal line), a curve. *)
Definition ex_subr : list token := [Number 50; Op Hlineto; Op Return].
Definition ex_glyph : list token :=
  [Number 30; Number 500; Op Hsbw; Number 0; Number 20; Op Hstem; Number 100; Op Vmoveto; Number 0; Op Callsubr;
   Number 10; Number 20; Number (-300); Number 40; Number 50; Number 60; Op Rrcurveto; Op Closepath; Op Endchar].
Definition ex_subrs (i : Z) : option (list token) := if i =? 0 then Some ex_subr else None.
Definition ex_end : machine := match go_on 30 ex_subrs ex_glyph m_start with Some m => m | None => m_start end.
Example C46_ex : exec ex_subrs ex_glyph m_start ex_end /\ charstring ex_glyph (bytes_of (of_bytes (code ex_glyph))) /\
  charstring ex_subr (bytes_of (of_bytes (code ex_subr))) /\ length (m_drawn ex_end) = 2%nat.
Proof.
  split; [apply (go_on_ok ex_subrs 30); vm_compute; reflexivity|]. split; [apply charstring_of; vm_compute; reflexivity|].
  split; [apply charstring_of; vm_compute; reflexivity|vm_compute; reflexivity].
Qed.

(** ** C47 The box of a glyph is the bounding box of its points *)

(** For every glyph program that the format can execute and that begins with its side bearing: the box is the smallest one around all points
    and control points the program went through, and contains every point of every line and Bezier curve of the outline. *)
Theorem C47_box : forall w table subrs ts m cs,
  (forall i body, subrs i = Some body -> exists s, subr_of i table = Some s /\ charstring body (bytes_of s)) ->
  exec subrs ts m_start m -> begins_with_sidebearing ts -> charstring ts (bytes_of cs) ->
  exists n s, (forall fuel, (n <= fuel)%nat -> parseCharString w table fuel cs cs_start = Some (Ok s)) /\ tight_box (cs_box s) (m_seen m) /\
    forall c t, In c (m_drawn m) -> (0 <= t <= 1)%R -> box_contains (cs_box s) (piece_x c t) (piece_y c t).
Proof.
  intros w table subrs ts m cs HS EX BS CS. destruct (glyph_run table subrs ts m cs HS EX BS CS w) as (n & s & R & _ & G).
  exists n, s. split; [exact R|]. split; [exact (proj1 G)|]. intros c t IC T. now apply (good_contains s m c t G).
Qed.
Print Assumptions C47_box.
Example C47_ex : begins_with_sidebearing ex_glyph /\
  parseCharString true [(0, of_bytes (code ex_subr))] 2 (of_bytes (code ex_glyph)) cs_start =
    Some (Ok (mkCs [] [] (-160) 220 (-210, 0, 90, 220))).
Proof.
  split; [|vm_compute; reflexivity]. exists [Number 30; Number 500], Hsbw. eexists. split; [reflexivity|]. split; [now left|].
  intros t [<-|[<-|[]]]; right; eexists; reflexivity.
Qed.
(** Without a side bearing, the box isn't one: a single horizontal line leaves the vertical bounds at their initial values. *)
Theorem C47_no_sidebearing_refuted : forall w fuel, exists s, parseCharString w [] (S fuel) (of_bytes [140; 6]) cs_start = Some (Ok s) /\
  cs_box s = (1, 2 ^ 31 - 1, 1, - 2 ^ 31).
Proof. intros w fuel. eexists. split; [destruct w; vm_compute; reflexivity|vm_compute; reflexivity]. Qed.
Print Assumptions C47_no_sidebearing_refuted.
(** Accented characters: the components named by seac are not considered, the box is a single point. *)
Theorem C47_seac_refuted : forall w fuel, exists s,
  parseCharString w [] (S fuel) (of_bytes (code [Number 30; Number 500; Op Hsbw; Number 30; Number 100; Number 200; Number 65; Number 193; Op Seac])) cs_start =
    Some (Ok s) /\ cs_box s = (30, 0, 30, 0).
Proof. intros w fuel. eexists. split; [destruct w; vm_compute; reflexivity|vm_compute; reflexivity]. Qed.
Print Assumptions C47_seac_refuted.
(** What comes behind endchar still counts. *)
Theorem C47_endchar_refuted : forall w fuel, exists s,
  parseCharString w [] (S fuel) (of_bytes (code [Number 30; Number 500; Op Hsbw; Op Endchar; Number 100; Op Hlineto])) cs_start =
    Some (Ok s) /\ cs_box s = (30, 0, 130, 0).
Proof. intros w fuel. eexists. split; [destruct w; vm_compute; reflexivity|vm_compute; reflexivity]. Qed.
Print Assumptions C47_endchar_refuted.
(** Quotients are rounded towards zero: a line of length 3/2 counts as 1. *)
Theorem C47_div_refuted : forall w fuel, exists s,
  parseCharString w [] (S fuel) (of_bytes (code [Number 0; Number 500; Op Hsbw; Number 3; Number 2; Op Div; Op Hlineto])) cs_start =
    Some (Ok s) /\ cs_box s = (0, 0, 1, 0).
Proof. intros w fuel. eexists. split; [destruct w; vm_compute; reflexivity|vm_compute; reflexivity]. Qed.
Print Assumptions C47_div_refuted.

(** ** C48 Decoding of the encrypted part *)

(** Binary data that begins with a segment header: the data behind the header, if it fits into the buffer of the given length (the entry
    Length2); otherwise there is a write behind its end. *)
Theorem C48_header : forall b0 b1 b2 b3 data tail len, byte b3 < 128 -> declared b0 b1 b2 b3 = Z.of_nat (length data) ->
  (Z.of_nat (length data) <= len ->
     decode_part (to_char 128 :: to_char 2 :: b0 :: b1 :: b2 :: b3 :: data ++ tail) len = Ok (Some data)) /\
  (0 <= len < Z.of_nat (length data) -> exists x, decode_part (to_char 128 :: to_char 2 :: b0 :: b1 :: b2 :: b3 :: data ++ tail) len = UB x).
Proof.
  intros b0 b1 b2 b3 data tail len B D. split; intro L; [now apply decode_framed|].
  exists "write behind the end of an array"%string. rewrite decode_header by exact B. rewrite D, Nat2Z.id. cbn zeta.
  rewrite firstn_app, firstn_all, Nat.sub_diag, firstn_O, app_nil_r. destruct (Nat.leb_spec (length data) (Z.to_nat len)); [lia|reflexivity].
Qed.
Print Assumptions C48_header.
(** A header that declares more than there is: what there is. *)
Theorem C48_truncated : forall b0 b1 b2 b3 data len, byte b3 < 128 -> Z.of_nat (length data) <= declared b0 b1 b2 b3 -> Z.of_nat (length data) <= len ->
  decode_part (to_char 128 :: to_char 2 :: b0 :: b1 :: b2 :: b3 :: data) len = Ok (Some data).
Proof.
  intros b0 b1 b2 b3 data len B D L. rewrite decode_header by exact B. cbn zeta. rewrite firstn_all2 by lia.
  destruct (Nat.leb_spec (length data) (Z.to_nat len)); [reflexivity|lia].
Qed.
Print Assumptions C48_truncated.
(** Binary data without a header (one of the first four bytes isn't a hexadecimal digit): the first [len] bytes. *)
Theorem C48_binary : forall c0 c1 c2 c3 rest len, (exists c, In c [c0; c1; c2; c3] /\ ~ hex_digit c) -> ~ (byte c0 = 128 /\ byte c1 = 2) ->
  (4 <= len -> decode_part (c0 :: c1 :: c2 :: c3 :: rest) len = Ok (Some (firstn (Z.to_nat len) (c0 :: c1 :: c2 :: c3 :: rest)))) /\
  (len < 4 -> exists x, decode_part (c0 :: c1 :: c2 :: c3 :: rest) len = UB x).
Proof.
  intros c0 c1 c2 c3 rest len (c & I & N) H.
  assert (E : existsb nonhex [c0; c1; c2; c3] = true) by (apply existsb_exists; exists c; split; [exact I|now apply nonhex_iff]).
  rewrite (decode_binary c0 c1 c2 c3 rest len E) by lia. split; intro L.
  - destruct (Z.leb_spec 4 len); [reflexivity|lia].
  - destruct (Z.leb_spec 4 len); [lia|]. eexists; reflexivity.
Qed.
Print Assumptions C48_binary.
(** A stream that ends within the first four bytes: nothing. *)
Theorem C48_short : forall s len, (length s < 4)%nat -> decode_part s len = Ok None.
Proof. exact decode_short. Qed.
Print Assumptions C48_short.
(** Data in hexadecimal form - which the code claims to support - is never decoded: whatever follows the first four digits and
    whatever the length is, the behaviour is undefined. *)
Theorem C48_hex_refuted : forall c0 c1 c2 c3 rest len, Forall hex_digit [c0; c1; c2; c3] ->
  exists x, decode_part (c0 :: c1 :: c2 :: c3 :: rest) len = UB x.
Proof.
  intros c0 c1 c2 c3 rest len F. apply decode_hex. destruct (existsb nonhex [c0; c1; c2; c3]) eqn:E; [|reflexivity].
  exfalso. apply existsb_exists in E as (c & I & N). apply nonhex_iff in N. apply N. rewrite Forall_forall in F. now apply F.
Qed.
Print Assumptions C48_hex_refuted.
Example C48_ex : decode_part (of_bytes [128; 2; 5; 0; 0; 0; 1; 2; 3; 4; 5; 128; 3]) 5 = Ok (Some (of_bytes [1; 2; 3; 4; 5])) /\
  decode_part (of_bytes [1; 2; 3; 4; 5; 128; 3]) 5 = Ok (Some (of_bytes [1; 2; 3; 4; 5])).
Proof. split; vm_compute; reflexivity. Qed.

(** ** C49 The font matrix of an embedded font *)

(** [value]: the conversion of a number to a double. A font file with the clear text [ls] whose entries "/FontMatrix" have at most six numbers
    each: if the font is parsed, its matrix is Poppler's one with the elements replaced by the numbers of the entries. *)
Theorem C49_matrix : forall value w fuel g ls tail len2 m f, is_text ls -> ls <> [] -> hd_error (text_of ls) <> Some (to_char 128) -> 0 < len2 ->
  g_file g = Some (mkFile (Some (text_of ls ++ tail)) (Some (Z.of_nat (length (text_of ls)))) (Some len2)) -> length (g_matrix g) = 6%nat ->
  matrix_lines value ls (g_matrix g) m -> parse_font value w fuel (Some g) true = Some (Ok (Some f)) -> f_matrix f = m.
Proof.
  intros value w fuel g ls tail len2 m f T NE H1 L2 GF L6 ML H. unfold parse_font in H. rewrite GF in H. cbn iota in H.
  apply rbind_ok in H as (f1 & E & H). inversion H; subst f1. clear H.
  eapply (file_clear value) with (ls := ls) (tail := tail) in E; [|apply plain_start; assumption|exact NE|exact L2|exact T].
  destruct E as (f1 & EA & SF).
  destruct (ascii_matrix value ls (g_matrix g) m ML false false (basic_font g) eq_refl L6 []) as (i & b & f2 & EM & _ & EA2).
  rewrite app_nil_r in EA2. cbn [ascii_lines] in EA2. rewrite EA2 in EA. inversion EA; subst. unfold same_font in SF. symmetry. tauto.
Qed.
Print Assumptions C49_matrix.
(** No other font file changes the matrix; in particular, fonts that aren't embedded keep Poppler's one. *)
Theorem C49_not_embedded : forall value w fuel g emb, (emb = false \/ g_file g = None) ->
  exists f, parse_font value w fuel (Some g) emb = Some (Ok (Some f)) /\ f_matrix f = g_matrix g /\ f_boxes f = [].
Proof.
  intros value w fuel g emb H. exists (basic_font g). split; [|split; reflexivity]. unfold parse_font.
  destruct H as [->| ->]; [reflexivity|]. destruct emb; reflexivity.
Qed.
Print Assumptions C49_not_embedded.
(** An entry with more than six numbers overflows the matrix, wherever it is in the text (the lines before it being fine). *)
Theorem C49_overflow_refuted : forall value w fuel g ls line rest tail len2 ts ds m, is_text (ls ++ line :: rest) ->
  hd_error (text_of (ls ++ line :: rest)) <> Some (to_char 128) -> 0 < len2 ->
  g_file g = Some (mkFile (Some (text_of (ls ++ line :: rest) ++ tail)) (Some (Z.of_nat (length (text_of (ls ++ line :: rest))))) (Some len2)) ->
  length (g_matrix g) = 6%nat -> matrix_lines value ls (g_matrix g) m ->
  matrix_entry line ts -> Forall2 (fun t d => value t = Some d) ts ds -> (6 < length ds)%nat ->
  exists x, parse_font value w fuel (Some g) true = Some (UB x).
Proof.
  intros value w fuel g ls line rest tail len2 ts ds m T H1 L2 GF L6 ML ME FD L.
  assert (NE : ls ++ line :: rest <> []) by (intro X; apply app_eq_nil in X as [_ X]; discriminate).
  destruct (ascii_matrix value ls (g_matrix g) m ML false false (basic_font g) eq_refl L6 (line :: rest)) as (i & b & f2 & EM & LM & EA2).
  exists "write behind the end of fontMatrix"%string. unfold parse_font. rewrite GF. cbn iota. unfold parse_file. cbn [ff_stream ff_length1 ff_length2].
  rewrite (plain_start (ls ++ line :: rest) tail H1 NE). pose proof (text_pos (ls ++ line :: rest) NE) as LP.
  destruct (Z.leb_spec (Z.of_nat (length (text_of (ls ++ line :: rest)))) 0); [lia|]. destruct (Z.leb_spec len2 0); [lia|]. cbn [orb].
  rewrite clear_part by exact T. rewrite EA2, ascii_step. rewrite (matrix_line_spec value line ts ds f2 ME FD) by (rewrite EM; exact LM).
  destruct (Nat.leb_spec (length ds) 6); [lia|]. reflexivity.
Qed.
Print Assumptions C49_overflow_refuted.

(** ** C50 Font names *)

(** For every font - embedded or not, whatever its file contains - that is parsed: the normalised name is the lower-cased name behind the first
    "+" (the whole name if there is none); the base name is the normalised one before the first "-", without digits. *)
Theorem C50_names : forall value w fuel g emb f, parse_font value w fuel (Some g) emb = Some (Ok (Some f)) ->
  f_name f = (match g_name g with Some n => n | None => g_address g end) /\
  (forall a b, f_name f = a ++ S_ "+" ++ b -> ~ In "+"%char a -> f_norm f = lowered b) /\
  (~ In "+"%char (f_name f) -> f_norm f = lowered (f_name f)) /\
  (forall a b, f_norm f = a ++ S_ "-" ++ b -> ~ In "-"%char a -> f_base f = filter not_digit a) /\
  (~ In "-"%char (f_norm f) -> f_base f = filter not_digit (f_norm f)).
Proof.
  intros value w fuel g emb f H. apply parse_font_frame in H. cbn zeta in H. destruct H as (H1 & H2 & H3 & _). rewrite <- H1, <- H2, <- H3.
  unfold basic_font. cbn [f_name f_norm f_base]. split; [reflexivity|]. split; [intros a b E N; rewrite E; now apply norm_plus|].
  split; [apply norm_no_plus|]. split; [intros a b E N; rewrite E; now apply base_minus|apply base_no_minus].
Qed.
Print Assumptions C50_names.
Definition ex_gfx (name : string) (flags weight : Z) (file : option font_file) : gfx_font :=
  mkGfx (Some (S_ name)) [] flags false weight [dec 1 3; dZ 0; dZ 0; dec 1 3; dZ 0; dZ 0] file.
Example C50_ex : forall value w fuel, exists f, parse_font value w fuel (Some (ex_gfx "LTSL+Nimbus12-Bold" 0 0 None)) true = Some (Ok (Some f)) /\
  f_norm f = S_ "nimbus12-bold" /\ f_base f = S_ "nimbus".
Proof. intros. eexists. split; [reflexivity|]. split; vm_compute; reflexivity. Qed.

(** ** C66 Style from name and flags *)

(** For fonts without embedded file. [flags] is the bit set of the font descriptor (bits 0, 1, 2: fixed width, serif, symbolic; 6: italic; 18: bold). *)
Theorem C66_flags : forall value w fuel g emb f, parse_font value w fuel (Some g) emb = Some (Ok (Some f)) ->
  f_fixed f = Z.testbit (g_flags g) 0 /\ f_serif f = Z.testbit (g_flags g) 1 /\ f_symbolic f = Z.testbit (g_flags g) 2 /\ f_type3 f = g_type3 g.
Proof.
  intros value w fuel g emb f H. apply parse_font_frame in H. cbn zeta in H. destruct H as (_ & _ & _ & H1 & H2 & H3 & H4 & _).
  rewrite <- H1, <- H2, <- H3, <- H4. repeat split.
Qed.
Print Assumptions C66_flags.
Definition occurs (p s : str) : Prop := exists a b, s = a ++ p ++ b.
Theorem C66_style : forall value w fuel g emb f, (emb = false \/ g_file g = None) -> parse_font value w fuel (Some g) emb = Some (Ok (Some f)) ->
  (f_italic f = true <-> Z.testbit (g_flags g) 6 = true \/ occurs (S_ "italic") (lowered (f_name f))) /\
  (occurs (S_ "black") (lowered (f_name f)) -> f_weight f = 800) /\
  (~ occurs (S_ "black") (lowered (f_name f)) -> occurs (S_ "bold") (lowered (f_name f)) \/ Z.testbit (g_flags g) 18 = true -> f_weight f = 700) /\
  (~ occurs (S_ "black") (lowered (f_name f)) -> ~ occurs (S_ "bold") (lowered (f_name f)) -> Z.testbit (g_flags g) 18 = false ->
     f_weight f = if 0 <? g_weight g then g_weight g else 400).
Proof.
  intros value w fuel g emb f NE H.
  assert (E : f = basic_font g).
  { unfold parse_font in H. destruct NE as [->|GF]; [inversion H; reflexivity|]. rewrite GF in H. destruct emb; inversion H; reflexivity. }
  subst f. clear H. unfold basic_font. cbn [f_name f_italic f_weight].
  set (nm := match g_name g with Some n => n | None => g_address g end). change (lower_name nm) with (lowered nm). unfold occurs, name_weight.
  rewrite Bool.orb_true_iff, contains_spec. split; [reflexivity|].
  pose proof (contains_spec (S_ "black") (lowered nm)) as CB. pose proof (contains_spec (S_ "bold") (lowered nm)) as CO.
  destruct (contains (S_ "black") (lowered nm)).
  { split; [reflexivity|]. split; intros N; exfalso; apply N, CB; reflexivity. }
  split; [intro X; apply CB in X; discriminate|]. destruct (contains (S_ "bold") (lowered nm)).
  - split; [reflexivity|]. intros _ N. exfalso. apply N, CO. reflexivity.
  - split.
    + intros _ [X|X]; [apply CO in X; discriminate|]. rewrite X. reflexivity.
    + intros _ _ X. rewrite X. reflexivity.
Qed.
Print Assumptions C66_style.
(** The subset prefix counts: the random letters in front of "+" can make a font bold. *)
Theorem C66_prefix_refuted : forall value w fuel, exists f, parse_font value w fuel (Some (ex_gfx "XBOLDX+Nimbus" 0 0 None)) true = Some (Ok (Some f)) /\
  f_norm f = S_ "nimbus" /\ f_weight f = 700.
Proof. intros. eexists. split; [reflexivity|]. split; vm_compute; reflexivity. Qed.
Print Assumptions C66_prefix_refuted.

(** ** C65 Style from the clear text of an embedded font *)

(** The first entry "/Weight (...)": Regular, Medium and Bold determine the weight, other words don't change it; without an entry the
    weight is the one of the font that isn't embedded. The first line that begins with "/ItalicAngle" makes the font italic unless it is
    literally "/ItalicAngle 0 def"; a font that was italic stays it. *)
Theorem C65_style : forall value w fuel g ls tail len2 f f0, is_text ls -> ls <> [] -> hd_error (text_of ls) <> Some (to_char 128) -> 0 < len2 ->
  g_file g = Some (mkFile (Some (text_of ls ++ tail)) (Some (Z.of_nat (length (text_of ls)))) (Some len2)) ->
  parse_font value w fuel (Some g) true = Some (Ok (Some f)) -> parse_font value w fuel (Some g) false = Some (Ok (Some f0)) ->
  ((forall l, In l ls -> ~ has_weight l) -> f_weight f = f_weight f0) /\
  (forall ls1 l ls2 word, ls = ls1 ++ l :: ls2 -> (forall x, In x ls1 -> ~ has_weight x) -> weight_entry l word ->
     (word = S_ "Regular" -> f_weight f = 400) /\ (word = S_ "Medium" -> f_weight f = 500) /\ (word = S_ "Bold" -> f_weight f = 700) /\
     (word <> S_ "Regular" -> word <> S_ "Medium" -> word <> S_ "Bold" -> f_weight f = f_weight f0)) /\
  ((forall l, In l ls -> ~ angle_line l) -> f_italic f = f_italic f0) /\
  (forall ls1 l ls2, ls = ls1 ++ l :: ls2 -> (forall x, In x ls1 -> ~ angle_line x) -> angle_line l ->
     (f_italic f = true <-> f_italic f0 = true \/ l <> S_ "/ItalicAngle 0 def")).
Proof.
  intros value w fuel g ls tail len2 f f0 T NE H1 L2 GF H H0. inversion H0; subst f0. clear H0.
  unfold parse_font in H. rewrite GF in H. cbn iota in H. apply rbind_ok in H as (f1 & E & H). inversion H; subst f1. clear H.
  eapply (file_clear value) with (ls := ls) (tail := tail) in E; [|apply plain_start; assumption|exact NE|exact L2|exact T].
  destruct E as (f1 & EA & SF). unfold same_font in SF.
  assert (EW : f_weight f1 = f_weight f) by tauto. assert (EI : f_italic f1 = f_italic f) by tauto. clear SF. rewrite <- EW, <- EI. clear EW EI.
  split; [intro N; now apply (ascii_no_weight value ls false _ _ N) in EA|]. split.
  { intros ls1 l ls2 word E1 N WE. rewrite E1 in EA. apply (ascii_weight value ls1 l ls2 word _ _ _ N WE) in EA. rewrite EA. unfold named_weight.
    assert (SE : forall x y, str_eqb x y = true <-> x = y) by (intros; apply str_eqb_eq).
    split; [intros ->; reflexivity|]. split; [intros ->; reflexivity|]. split; [intros ->; reflexivity|]. intros N1 N2 N3.
    destruct (str_eqb word (S_ "Regular")) eqn:Q1; [apply SE in Q1; contradiction|].
    destruct (str_eqb word (S_ "Medium")) eqn:Q2; [apply SE in Q2; contradiction|].
    destruct (str_eqb word (S_ "Bold")) eqn:Q3; [apply SE in Q3; contradiction|]. reflexivity. }
  split; [intro N; now apply (ascii_no_italic value ls false _ _ N) in EA|].
  intros ls1 l ls2 E1 N AL. rewrite E1 in EA. apply (ascii_italic value ls1 l ls2 false _ _ N AL) in EA. rewrite EA.
  rewrite Bool.orb_true_iff, Bool.negb_true_iff. destruct (str_eqb l (S_ "/ItalicAngle 0 def")) eqn:Q.
  - apply str_eqb_eq in Q. split; [intros [X|X]; [now left|discriminate]|]. intros [X|X]; [now left|contradiction].
  - split; [intros [X|_]; [now left|right; intro Y; rewrite Y, str_eqb_refl in Q; discriminate]|]. intros _. now right.
Qed.
Print Assumptions C65_style.
(** "/ItalicAngle 0.0 def" counts as italic. *)
Theorem C65_angle_refuted : forall value w fuel g, g_flags g = 0 -> g_name g = Some (S_ "Nimbus") -> length (g_matrix g) = 6%nat ->
  g_file g = Some (mkFile (Some (S_ "/ItalicAngle 0.0 def" ++ [newline])) (Some 21) (Some 1)) ->
  exists f, parse_font value w fuel (Some g) true = Some (Ok (Some f)) /\ f_italic f = true.
Proof.
  intros value w fuel g GF GN L6 FF. exists (set_italic true (basic_font g)). split; [|reflexivity].
  unfold parse_font. rewrite FF. cbn iota. unfold parse_file. cbn [ff_stream ff_length1 ff_length2].
  change (part_length (S_ "/ItalicAngle 0.0 def" ++ [newline]) 21) with (21, S_ "/ItalicAngle 0.0 def" ++ [newline]). cbn [Z.leb Z.compare orb].
  unfold parseAsciiPart.
  change (lines_of (firstn (Z.to_nat 21) (S_ "/ItalicAngle 0.0 def" ++ [newline]))) with [S_ "/ItalicAngle 0.0 def"].
  rewrite ascii_step. rewrite matrix_line_absent by (apply find_text_none; vm_compute; reflexivity). cbn [obind].
  rewrite italic_line_angle by (eexists (S_ " 0.0 def"); reflexivity). cbn iota.
  change (str_eqb (S_ "/ItalicAngle 0.0 def") (S_ "/ItalicAngle 0 def")) with false. rewrite Bool.orb_true_r.
  rewrite weight_line_none by (intros (word & a & t & b & F & _); apply find_text_some in F; vm_compute in F; discriminate).
  cbn iota. cbn [ascii_lines obind rbind]. change (skipn (Z.to_nat 21) (S_ "/ItalicAngle 0.0 def" ++ [newline])) with ([] : str). reflexivity.
Qed.
Print Assumptions C65_angle_refuted.

(** ** C64 The glyph boxes of an embedded font *)

(** A font file without segment headers: the clear text, then the encrypted private part [d]. If the tables of [d] are of the form that the
    parser knows (RD, ND), its charstrings can be executed and its glyph programs begin with side bearings, then the font is parsed (wrap-around
    arithmetic): names and flags are those of the font without its file, the matrix is the one of C49, and the glyphs' boxes are the bounding boxes of their
    outlines. Names without a glyph program have no box. *)
Theorem C64_boxes : forall value g f0 ls prefix d tail data lenIV ss gs subrs m, is_text ls -> ls <> [] -> hd_error (text_of ls) <> Some (to_char 128) ->
  data = encrypt 55665 (prefix ++ d) -> length prefix = 4%nat -> (exists c, In c (firstn 4 data) /\ ~ hex_digit c) ->
  ~ (exists r, data = to_char 128 :: to_char 2 :: r) ->
  g_file g = Some (mkFile (Some (text_of ls ++ data ++ tail)) (Some (Z.of_nat (length (text_of ls)))) (Some (Z.of_nat (length data)))) ->
  length (g_matrix g) = 6%nat -> matrix_lines value ls (g_matrix g) m -> private_part d lenIV ss gs -> font_ok lenIV ss gs subrs ->
  (forall fuel, parse_font value true fuel (Some g) false = Some (Ok (Some f0))) ->
  exists n f, (forall fuel, (n <= fuel)%nat -> parse_font value true fuel (Some g) true = Some (Ok (Some f))) /\
    f_name f = f_name f0 /\ f_norm f = f_norm f0 /\ f_base f = f_base f0 /\ f_matrix f = m /\
    (forall name, (forall p, ~ In (name, p) gs) -> box_of name (f_boxes f) = None) /\
    (forall name p ts e, In (name, p) gs -> glyph_ok lenIV subrs p ts e ->
       exists b, box_of name (f_boxes f) = Some b /\ tight_box b (m_seen e) /\
         forall c t, In c (m_drawn e) -> (0 <= t <= 1)%R -> box_contains b (piece_x c t) (piece_y c t)).
Proof.
  intros value g f0 ls prefix d tail data lenIV ss gs subrs m T NE H1 ED LP NH ND GF L6 ML PP FO F0.
  specialize (F0 0%nat). inversion F0; subst f0. clear F0.
  assert (LD : (4 <= length data)%nat) by (rewrite ED, encrypt_length, app_length; lia).
  destruct (file_whole value (text_of ls ++ data ++ tail) (Z.of_nat (length (text_of ls))) (Z.of_nat (length data)) ls (data ++ tail) data prefix d
              lenIV ss gs subrs (basic_font g) m) as (n & f1 & f & EA & EM & R & B); try assumption.
  { apply plain_start; assumption. }
  { lia. }
  { apply decode_plain; [exact NH|exact LD|]. destruct data as [|a [|b r]]; [exact I|exact I|].
    destruct (Z.eq_dec (byte a) 128) as [EA'|]; [|now left]. destruct (Z.eq_dec (byte b) 2) as [EB|]; [|now right].
    exfalso. apply ND. exists r. rewrite <- EA', <- EB, !to_char_byte. reflexivity. }
  apply ascii_frame in EA. unfold same_but_style in EA. destruct B as (SF & B1 & B2). unfold same_font in SF.
  repeat match goal with X : _ /\ _ |- _ => destruct X end.
  exists n, f. split.
  { intros fuel L. unfold parse_font. rewrite GF. cbn iota. rewrite R by exact L. reflexivity. }
  split; [congruence|]. split; [congruence|]. split; [congruence|]. split; [congruence|]. split; [|exact B2].
  intros name N. rewrite B1 by exact N. match goal with X : f_boxes _ = f_boxes f1 |- _ => rewrite <- X end. reflexivity.
Qed.
Print Assumptions C64_boxes.
(** The same with segment headers (PFB) in front of both parts. *)
Theorem C64_segments : forall value g f0 ls prefix d tail data lenIV ss gs subrs m a0 a1 a2 a3 b0 b1 b2 b3 len1 len2, is_text ls -> ls <> [] ->
  byte a3 < 128 -> declared a0 a1 a2 a3 = Z.of_nat (length (text_of ls)) ->
  data = encrypt 55665 (prefix ++ d) -> length prefix = 4%nat -> byte b3 < 128 -> declared b0 b1 b2 b3 = Z.of_nat (length data) ->
  Z.of_nat (length data) <= len2 ->
  g_file g = Some (mkFile (Some (to_char 128 :: to_char 1 :: a0 :: a1 :: a2 :: a3 :: text_of ls ++
                                 to_char 128 :: to_char 2 :: b0 :: b1 :: b2 :: b3 :: data ++ tail)) (Some len1) (Some len2)) ->
  length (g_matrix g) = 6%nat -> matrix_lines value ls (g_matrix g) m -> private_part d lenIV ss gs -> font_ok lenIV ss gs subrs ->
  (forall fuel, parse_font value true fuel (Some g) false = Some (Ok (Some f0))) ->
  exists n f, (forall fuel, (n <= fuel)%nat -> parse_font value true fuel (Some g) true = Some (Ok (Some f))) /\
    f_name f = f_name f0 /\ f_norm f = f_norm f0 /\ f_base f = f_base f0 /\ f_matrix f = m /\
    (forall name, (forall p, ~ In (name, p) gs) -> box_of name (f_boxes f) = None) /\
    (forall name p ts e, In (name, p) gs -> glyph_ok lenIV subrs p ts e ->
       exists b, box_of name (f_boxes f) = Some b /\ tight_box b (m_seen e) /\
         forall c t, In c (m_drawn e) -> (0 <= t <= 1)%R -> box_contains b (piece_x c t) (piece_y c t)).
Proof.
  intros value g f0 ls prefix d tail data lenIV ss gs subrs m a0 a1 a2 a3 b0 b1 b2 b3 len1 len2 T NE A3 DA ED LP B3 DB LL GF L6 ML PP FO F0.
  specialize (F0 0%nat). inversion F0; subst f0. clear F0.
  assert (LD : (4 <= length data)%nat) by (rewrite ED, encrypt_length, app_length; lia).
  destruct (file_whole value (to_char 128 :: to_char 1 :: a0 :: a1 :: a2 :: a3 :: text_of ls ++ to_char 128 :: to_char 2 :: b0 :: b1 :: b2 :: b3 :: data ++ tail)
              len1 len2 ls (to_char 128 :: to_char 2 :: b0 :: b1 :: b2 :: b3 :: data ++ tail) data prefix d
              lenIV ss gs subrs (basic_font g) m) as (n & f1 & f & EA & EM & R & B); try assumption.
  { rewrite part_length_header by exact A3. now rewrite DA. }
  { lia. }
  { now apply decode_framed. }
  apply ascii_frame in EA. unfold same_but_style in EA. destruct B as (SF & B1 & B2). unfold same_font in SF.
  repeat match goal with X : _ /\ _ |- _ => destruct X end.
  exists n, f. split.
  { intros fuel L. unfold parse_font. rewrite GF. cbn iota. rewrite R by exact L. reflexivity. }
  split; [congruence|]. split; [congruence|]. split; [congruence|]. split; [congruence|]. split; [|exact B2].
  intros name N. rewrite B1 by exact N. match goal with X : f_boxes _ = f_boxes f1 |- _ => rewrite <- X end. reflexivity.
Qed.
Print Assumptions C64_segments.

(** A font with one subroutine and the glyph A. *)
Definition ex_sd : str := store (S_ "0000") ex_subr.
Definition ex_gd : str := store (S_ "abcd") ex_glyph.
Definition ex_sub_text : str := S_ " 1 array dup 0 7 RD " ++ ex_sd ++ S_ " NP ".
Definition ex_char_text : str := S_ " 1 dict dup begin /A 25 RD " ++ ex_gd ++ S_ " ND end".
Definition ex_private : str := S_ "dup /Private 8 dict dup begin /lenIV 4 def /Subrs" ++ ex_sub_text ++ S_ "ND 2 index /CharStrings" ++ ex_char_text.
Definition ex_lines : list str :=
  [S_ "%!PS-AdobeFont-1.0: Nimbus"; S_ "/Weight (Medium) readonly def"; S_ "/ItalicAngle 0 def"; S_ "/FontMatrix [0.001 0 0 0.001 0 0] readonly def"].
Lemma ex_subr_table : table subr_head ex_sub_text [(0, ex_sd)].
Proof.
  change ex_sub_text with (S_ " 1 array " ++ (S_ "dup" ++ [" "%char] ++ S_ "0" ++ [" "%char] ++ S_ "7" ++ [" "%char] ++ S_ "RD" ++ [" "%char]) ++ ex_sd ++ S_ " NP ").
  apply Table_entry.
  - apply quiet_subr. vm_compute. reflexivity.
  - apply Subr_head; try (apply whiteb; reflexivity); (apply decimalb; [discriminate|reflexivity|vm_compute; reflexivity]).
  - vm_compute. reflexivity.
  - apply Table_end. apply quiet_subr. vm_compute. reflexivity.
Qed.
Lemma ex_glyph_table : table glyph_head ex_char_text [(S_ "A", ex_gd)].
Proof.
  change ex_char_text with (S_ " 1 dict dup begin " ++ (S_ "/" ++ S_ "A" ++ S_ " " ++ S_ "25" ++ [" "%char] ++ S_ "RD" ++ [" "%char]) ++ ex_gd ++ S_ " ND end").
  apply Table_entry.
  - apply quiet_glyph. vm_compute. reflexivity.
  - apply Glyph_head; try (apply whiteb; reflexivity); try discriminate.
    + apply (allb (fun c => negb (is_space c))); [intros c; apply white_nonspace|reflexivity].
    + apply (allb is_space); [apply whiteb|reflexivity].
    + apply decimalb; [discriminate|reflexivity|vm_compute; reflexivity].
  - vm_compute. reflexivity.
  - apply Table_end. apply quiet_glyph. vm_compute. reflexivity.
Qed.
Example C64_ex_private : private_part ex_private 4 [(0, ex_sd)] [(S_ "A", ex_gd)].
Proof.
  split; [|split].
  - right. exists (S_ "dup /Private 8 dict dup begin "). eexists. exists (S_ "4"). eexists. split; [apply find_text_some; vm_compute; reflexivity|].
    split; [apply find_text_some; vm_compute; reflexivity|]. split; [apply decimalb; [discriminate|reflexivity|reflexivity]|lia].
  - exists (S_ "dup /Private 8 dict dup begin /lenIV 4 def "), (ex_sub_text ++ S_ "ND 2 index /CharStrings" ++ ex_char_text), ex_sub_text, (S_ " 2 index /CharStrings" ++ ex_char_text).
    split; [apply find_text_some; vm_compute; reflexivity|]. split; [apply find_text_some; vm_compute; reflexivity|]. apply ex_subr_table.
  - exists (S_ "dup /Private 8 dict dup begin /lenIV 4 def /Subrs" ++ ex_sub_text ++ S_ "ND 2 index "), ex_char_text.
    split; [apply find_text_some; vm_compute; reflexivity|]. split; [apply ex_glyph_table|].
    exists (S_ " 1 dict dup begin /A 25 RD " ++ ex_gd ++ S_ " ND "), []. vm_compute. reflexivity.
Qed.
Example C64_ex_ok : font_ok 4 [(0, ex_sd)] [(S_ "A", ex_gd)] ex_subrs /\ glyph_ok 4 ex_subrs ex_gd ex_glyph ex_end.
Proof.
  assert (SO : stored 4 ex_sd ex_subr) by (apply store_ok; vm_compute; reflexivity).
  assert (GO : glyph_ok 4 ex_subrs ex_gd ex_glyph ex_end).
  { split; [apply store_ok; vm_compute; reflexivity|]. split; [apply C46_ex|apply C47_ex]. }
  split; [|exact GO]. split; [repeat constructor; simpl; tauto|]. split.
  { intros i data [E|[]]. inversion E; subst. split; [lia|]. exists ex_subr. exact SO. }
  split. { intros i body E. unfold ex_subrs in E. destruct (Z.eqb_spec i 0); [|discriminate]. inversion E; subst. exists ex_sd. split; [now left|exact SO]. }
  split; [repeat constructor; simpl; tauto|]. intros name data [E|[]]. inversion E; subst. exists ex_glyph, ex_end. exact GO.
Qed.
Example C64_ex_clear : is_text ex_lines /\ hd_error (text_of ex_lines) <> Some (to_char 128) /\
  (exists c, In c (firstn 4 (encrypt 55665 (S_ "0000" ++ ex_private))) /\ ~ hex_digit c) /\
  ~ (exists r, encrypt 55665 (S_ "0000" ++ ex_private) = to_char 128 :: to_char 2 :: r) /\
  matrix_lines (fun _ => Some (dZ 1)) ex_lines [dZ 0; dZ 0; dZ 0; dZ 0; dZ 0; dZ 0] [dZ 1; dZ 1; dZ 1; dZ 1; dZ 1; dZ 1].
Proof.
  split; [|split; [|split; [|split]]].
  - intros l I. apply (fun H => proj1 (Bool.negb_true_iff (mem_ascii newline l)) H) in I || idtac.
    assert (A : forallb (fun l => negb (mem_ascii newline l)) ex_lines = true) by (vm_compute; reflexivity).
    rewrite forallb_forall in A. specialize (A l I). apply Bool.negb_true_iff in A. intro X. apply mem_ascii_In in X. congruence.
  - vm_compute. discriminate.
  - eexists. split; [left; vm_compute; reflexivity|]. apply nonhex_iff. vm_compute. reflexivity.
  - intros [r E]. apply (f_equal (fun s => match s with a :: _ => byte a | [] => 0 end)) in E. vm_compute in E. discriminate.
  - repeat (apply ML_other; [apply find_text_none; vm_compute; reflexivity|]).
    apply ML_entry with (ts := [S_ "0.001"; S_ "0"; S_ "0"; S_ "0.001"; S_ "0"; S_ "0"]) (ds := [dZ 1; dZ 1; dZ 1; dZ 1; dZ 1; dZ 1]).
    + exists []. eexists. exists (S_ " "). eexists. exists (S_ "0.001 0 0 0.001 0 0"). eexists. split; [apply find_text_some; vm_compute; reflexivity|].
      split; [apply find_text_some; vm_compute; reflexivity|]. split; [apply find_text_some; vm_compute; reflexivity|].
      assert (P0 : plain_number (S_ "0")).
      { exists [], (S_ "0"), []. split; [reflexivity|]. split; [now left|]. split; [discriminate|]. split; [|now left]. apply (allb is_digit); [apply is_digit_iff|reflexivity]. }
      assert (P1 : plain_number (S_ "0.001")).
      { exists [], (S_ "0"), (S_ ".001"). split; [reflexivity|]. split; [now left|]. split; [discriminate|]. split; [apply (allb is_digit); [apply is_digit_iff|reflexivity]|].
        right. exists (S_ "001"). split; [reflexivity|]. apply (allb is_digit); [apply is_digit_iff|reflexivity]. }
      assert (SP : white " "%char) by (apply whiteb; reflexivity).
      apply (Numbers_next [] (S_ "0.001") (S_ " 0 0 0.001 0 0")); [constructor|exact P1|exact SP|].
      apply (Numbers_next (S_ " ") (S_ "0") (S_ " 0 0.001 0 0")); [repeat constructor; exact SP|exact P0|exact SP|].
      apply (Numbers_next (S_ " ") (S_ "0") (S_ " 0.001 0 0")); [repeat constructor; exact SP|exact P0|exact SP|].
      apply (Numbers_next (S_ " ") (S_ "0.001") (S_ " 0 0")); [repeat constructor; exact SP|exact P1|exact SP|].
      apply (Numbers_next (S_ " ") (S_ "0") (S_ " 0")); [repeat constructor; exact SP|exact P0|exact SP|].
      apply (Numbers_next (S_ " ") (S_ "0") []); [repeat constructor; exact SP|exact P0|exact I|]. constructor. constructor.
    + repeat constructor.
    + cbn [length]. lia.
    + apply ML_end.
Qed.
(** Other names for the same operators - which the format allows and most fonts use: "-|" for RD - and there are no boxes. *)
Definition ex_other : str := S_ "/lenIV 4 def /Subrs 1 array dup 0 7 -| " ++ ex_sd ++ S_ " |ND /CharStrings 1 dict dup begin /A 25 -| " ++ ex_gd ++ S_ " |- end".
Theorem C64_names_refuted : forall fuel f, parse_decrypted true fuel ex_other f = Some (Ok f).
Proof.
  intros fuel f. unfold parse_decrypted.
  assert (E1 : read_lenIV ex_other = Ok 4) by (vm_compute; reflexivity). rewrite E1. cbn [rbind].
  destruct (find_text (S_ "/Subrs") ex_other) as [[a t]|] eqn:E2; [|reflexivity].
  destruct (find_text (S_ "ND") t) as [[sub b]|] eqn:E3; [|reflexivity].
  assert (ES : matches match_dup (length sub) sub = []).
  { vm_compute in E2. inversion E2; subst. vm_compute in E3. inversion E3; subst. vm_compute. reflexivity. }
  rewrite ES. cbn [read_subrs rbind].
  destruct (find_text (S_ "/CharStrings") ex_other) as [[a2 chars]|] eqn:E4; [|reflexivity].
  assert (EC : matches match_char (length chars) chars = []) by (vm_compute in E4; inversion E4; subst; vm_compute; reflexivity).
  rewrite EC. destruct (contains (S_ "end") chars); reflexivity.
Qed.
Print Assumptions C64_names_refuted.
(** The two letters "ND" inside the data of a subroutine end the text in which the table is searched: the data behind them is read
    behind the end of that text. *)
Definition ex_cut : str := S_ "/Subrs 1 array dup 0 6 RD ..ND.. NP ND /CharStrings 1 dict dup begin /A 25 RD " ++ ex_gd ++ S_ " ND end".
Theorem C64_cut_refuted : forall fuel f, parse_decrypted true fuel ex_cut f = Some (UB "read behind the end of a string").
Proof.
  intros fuel f. unfold parse_decrypted. change (read_lenIV ex_cut) with (@Ok Z 4). cbn [rbind].
  destruct (find_text (S_ "/Subrs") ex_cut) as [[a t]|] eqn:E2; [|vm_compute in E2; discriminate].
  destruct (find_text (S_ "ND") t) as [[sub b]|] eqn:E3; [|vm_compute in E2; inversion E2; subst; vm_compute in E3; discriminate].
  assert (ES : read_subrs true 4 (matches match_dup (length sub) sub) [] = UB "read behind the end of a string").
  { vm_compute in E2. inversion E2; subst. vm_compute in E3. inversion E3; subst. vm_compute. reflexivity. }
  rewrite ES. reflexivity.
Qed.
Print Assumptions C64_cut_refuted.
