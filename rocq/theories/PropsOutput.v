(** PropsOutput.v - property theorems C16-C20 and C53 (serialisation and dehyphenation). *)
From Coq Require Import ZArith NArith.
From Verif Require Import Base Double Elements UtilsSpec TextUtils Document Dehyphenation Serialization SerializationSpec
  JsonSpec DehyphenationProofs SerializationProofs JsonProofs.

(** A small document used by the examples: one-character words. *)
Definition ch (s : string) : character :=
  mkChar 0 (S_ "char-1") 0 pos_default (S_ s) (S_ s) [] (S_ "Times") done (dzero, dzero, dzero) done dzero false false None None [].
Definition wd (s : string) : word :=
  mkWord (S_ "word-1") 0 pos_default (S_ s) (S_ "Times") done [ch s] None [] None None.
Definition blk (role : nat) (emph : bool) (ls : list (list nat)) : block :=
  mkBlock (S_ "b-1") 0 pos_default [] (S_ "Times") done role emph ls.
Definition toy (bss : list (list block)) : document :=
  mkDoc (map (fun bs => mkPage 1 done done [] [] bs) bss) [(S_ "Times", mkFont 400 false false)].
Definition toy_heap (ws : list string) : heap := fun i => wd (nth i ws ""%string).

(** ** C16 JSONL records are well-formed *)

(** If the strings that are written unescaped (ids, font names) need no escaping, all numbers are finite, the selected
    roles are roles of the enum and the fonts are known, then the serializer writes, for every set of units (in any
    order), one line per record, and each line is the JSON text of the documented object. *)
Theorem C16_records : forall d h roles units, clean d h -> Forall (fun r => r < 14) roles -> fonts_known d h roles ->
  exists ls, jsonl_serialize d h roles units [] = Ok (concat (map (fun l => l ++ [nl]) ls)) /\
    Forall2 json ls (flat_map (unit_json d h roles) units) /\ Forall (fun l => ~ In nl l) ls.
Proof.
  intros d h roles units HC HR HF. destruct (jsonl_ok d h roles units HC HR HF) as (ls & E & HJ). exists ls.
  split; [unfold jsonl_serialize; rewrite E; reflexivity|]. split; [assumption|].
  clear -HJ. induction HJ as [|s v ls vs Hs _ IH]; constructor; [|assumption].
  apply json_printable in Hs. rewrite Forall_forall in Hs. intros I. apply Hs in I. cbn in I. lia.
Qed.
Print Assumptions C16_records.

(** The lexeme printed for any finite number is a JSON number. *)
Theorem C16_numbers : forall d, is_fin d = true -> json_number (print_double d).
Proof. exact print_double_number. Qed.
Print Assumptions C16_numbers.

(** A quote in a font name (written unescaped) or a NaN coordinate makes the line something that is not JSON at all. *)
Theorem C16_font_name_refuted : exists b w, forall v, ~ json (word_record b w) v.
Proof.
  exists (blk 0 false []), (mkWord (S_ "w") 0 (mkPos 1 done done done done 0 0) (S_ "x") [quote] done [] None [] None None).
  intros v H. apply json_scan in H. vm_compute in H. discriminate.
Qed.
Print Assumptions C16_font_name_refuted.
Theorem C16_nan_refuted : exists p, forall v, ~ json (page_record p) v.
Proof.
  exists (mkPage 1 dnan done [] [] []). intros v H. apply json_scan in H. vm_compute in H. discriminate.
Qed.
Print Assumptions C16_nan_refuted.
(** The unit "lines" writes nothing; a character with an unknown font throws. *)
Theorem C16_lines_unit : forall d h roles, jsonl_serialize d h roles [2] [] = Ok [].
Proof. reflexivity. Qed.
Print Assumptions C16_lines_unit.
Theorem C16_unknown_font_refuted : exists d h, is_throw (jsonl_serialize d h [0] [4] []) = true.
Proof. exists (mkDoc [mkPage 1 done done [] [] [blk 0 false [[0]]]] []), (toy_heap ["a"]%string). reflexivity. Qed.
Print Assumptions C16_unknown_font_refuted.

Example C16_example :
  let d := toy [[blk 0 false [[0]]]] in let h := toy_heap ["a""b"]%string in
  clean d h /\ fonts_known d h [0] /\
  jsonl_serialize d h [0] [3] [] = Ok (S_ "{""type"": ""word"", ""id"": ""word-1"", ""rank"": 0, ""page"": -1, ""minX"": 1.79769e+308, ""minY"": 1.79769e+308, ""maxX"": 2.22507e-308, ""maxY"": 2.22507e-308, ""font"": ""Times"", ""fontSize"": 1, ""text"": ""a\""b"", ""block"": ""b-1"", ""origin"": ""pdftotext++""}" ++ [nl]).
Proof.
  cbv zeta.
  assert (P : forall s, forallb (fun c => negb (Ascii.eqb c quote) && negb (Ascii.eqb c "\") && (32 <=? nat_of_ascii c)) s = true -> plain s).
  { intros s G. rewrite forallb_forall in G. apply Forall_forall. intros c Hc. apply G in Hc.
    apply andb_prop in Hc. destruct Hc as [Hc H32]. apply andb_prop in Hc. destruct Hc as [Hq Hb].
    apply negb_true_iff in Hq, Hb. apply Ascii.eqb_neq in Hq, Hb. apply Nat.leb_le in H32. auto. }
  assert (FB : fin_box pos_default) by (unfold fin_box; cbn [pos_default leftX upperY rightX lowerY]; repeat split; vm_compute; reflexivity).
  assert (F1 : is_fin done = true) by (vm_compute; reflexivity).
  assert (F0 : is_fin dzero = true) by reflexivity.
  assert (CC : clean_char (ch "a""b")).
  { unfold clean_char, ch. cbn [c_id c_fontName c_pos c_fontSize c_opacity c_color].
    split; [apply P; reflexivity|]. split; [apply P; reflexivity|]. auto. }
  assert (CW : clean_word (toy_heap ["a""b"]%string 0)).
  { unfold clean_word, toy_heap, wd. cbn [nth w_id w_fontName w_pos w_fontSize w_chars].
    split; [apply P; reflexivity|]. split; [apply P; reflexivity|]. auto. }
  split; [|split].
  - constructor; [|constructor]. unfold clean_page. cbn [p_width p_height p_figures p_shapes p_blocks].
    split; [assumption|]. split; [assumption|]. split; [constructor|]. split; [constructor|].
    constructor; [|constructor]. unfold clean_block, blk. cbn [b_id b_fontName b_pos b_fontSize b_lines concat app].
    split; [apply P; reflexivity|]. split; [apply P; reflexivity|]. split; [assumption|]. split; [assumption|].
    constructor; [assumption|constructor].
  - intros p b i c [<-|[]] [<-|[]] [<-|[]] [<-|[]] _. discriminate.
  - vm_compute. reflexivity.
Qed.

(** ** C17 Plain-text output is exactly the selected blocks *)
Theorem C17_plain_text : forall d h roles,
  plain_serialize d h roles [] =
  intercalate [nl; nl] (map (fun b => intercalate [" "%char] (block_shown h b)) (flat_map (selected roles) (d_pages d))) ++ [nl].
Proof. intros. rewrite plain_ok. reflexivity. Qed.
Print Assumptions C17_plain_text.
Example C17_example :
  plain_serialize (toy [[blk 0 false [[0; 1]; [2]]; blk 2 false [[3]]]; []; [blk 4 false [[4]]]])
    (toy_heap ["a"; "b"; "c"; "x"; "d"]%string) [0; 4] [] = S_ "a b c

d
".
Proof. reflexivity. Qed.

(** ** C18 Extended plain-text output *)

(** There is one text per page, ending with a newline and a form feed; together the page texts are the selected blocks
    separated by one empty line, each block preceded by its upper-case role and, iff it is emphasized, by ^A. *)
Theorem C18_extended : forall d h roles, Forall (fun r => r < 14) roles ->
  exists texts, Forall2 (page_text_ok h roles) (d_pages d) texts /\
    concat texts = intercalate [nl; nl] (map (ext_text h) (flat_map (selected roles) (d_pages d))) /\
    ext_serialize d h roles [] = Ok (concat (map (fun t => t ++ [nl; ff]) texts) ++ [nl]).
Proof. intros d h roles H. exact (ext_ok d h roles [] H). Qed.
Print Assumptions C18_extended.
(** The same words as in the plain-text output: stripped of its prefix, each block text is the plain block text. *)
Theorem C18_same_words : forall h b, exists prefix,
  ext_text h b = prefix ++ intercalate [" "%char] (block_shown h b) /\
  prefix = S_ "[" ++ map upper (nth (b_role b) SEMANTIC_ROLE_NAMES []) ++ S_ "] " ++ (if b_emph b then [soh] else []).
Proof.
  intros h b. eexists. split; [|reflexivity]. unfold ext_text. rewrite <- !app_assoc. reflexivity.
Qed.
Print Assumptions C18_same_words.
(** A form feed is written after every page, also after the last one and after pages without selected blocks. *)
Theorem C18_trailing_form_feed_refuted : exists d h, ext_serialize d h [0] [] = Ok [nl; ff; nl] /\ length (d_pages d) = 1 /\ flat_map (selected [0]) (d_pages d) = [].
Proof. exists (toy [[]]), (toy_heap []). repeat split. Qed.
Print Assumptions C18_trailing_form_feed_refuted.
Theorem C18_unknown_role_refuted : exists d h roles, is_ub (ext_serialize d h roles []) = true.
Proof. exact ext_bad_role. Qed.
Print Assumptions C18_unknown_role_refuted.
Example C18_example :
  ext_serialize (toy [[blk 0 false [[0; 1]]; blk 4 true [[2]]]; [blk 2 false [[3]]]; [blk 0 false [[4]]]])
    (toy_heap ["a"; "b"; "c"; "x"; "d"]%string) [0; 4] [] =
  Ok (S_ "[PARAGRAPH] a b" ++ [nl; nl] ++ S_ "[HEADING] " ++ [soh] ++ S_ "c" ++ [nl; ff; nl; ff; nl; nl] ++ S_ "[PARAGRAPH] d" ++ [nl; ff; nl]).
Proof. reflexivity. Qed.

(** ** C19 Dehyphenation merges exactly the hyphenated line ends *)
Theorem C19_marks : forall d h, NoDup (doc_words d) -> (forall i, w_first (h i) = None /\ w_second (h i) = None) ->
  forall i m,
  (w_first (dehyphenate d h i) = Some m <-> exists b, broken_pair d h i b /\ m = stem (w_text (h i)) ++ w_text (h b)) /\
  (w_second (dehyphenate d h i) = Some m <-> exists a, broken_pair d h a i /\ m = stem (w_text (h a)) ++ w_text (h i)).
Proof. exact dehyph_marks. Qed.
Print Assumptions C19_marks.
(** For every document (even if a word occurs in two lines), nothing but the two marks of a word changes, and they
    change only on broken pairs. *)
Theorem C19_frame : forall d h i,
  set_first (set_second (h i) []) [] = set_first (set_second (dehyphenate d h i) []) [] /\
  (~ (exists b, broken_pair d h i b) -> w_first (dehyphenate d h i) = w_first (h i)) /\
  (~ (exists a, broken_pair d h a i) -> w_second (dehyphenate d h i) = w_second (h i)).
Proof. exact dehyph_frame. Qed.
Print Assumptions C19_frame.
(** The merge also joins words of different blocks and pages, skipping lines without words. *)
Example C19_example :
  let d := toy [[blk 0 false [[0; 1]; []]]; [blk 2 false [[2; 3]]]] in
  let h := toy_heap ["-"; "inter-"; "net"; "a-"]%string in
  NoDup (doc_words d) /\ (forall i, w_first (h i) = None /\ w_second (h i) = None) /\ broken_pair d h 1 2 /\
  map (fun i => (w_first (dehyphenate d h i), w_second (dehyphenate d h i))) [0; 1; 2; 3] =
  [(None, None); (Some (S_ "internet"), None); (None, Some (S_ "internet")); (None, None)].
Proof.
  cbv zeta. split; [|split; [|split]].
  - change (doc_words _) with [0; 1; 2; 3]. repeat (constructor; [intros I; cbn in I; intuition discriminate|]). constructor.
  - intros i. split; reflexivity.
  - exists [0; 1], [2; 3]. split; [exists [], []; reflexivity|]. split; [reflexivity|]. split; [reflexivity|].
    exists (S_ "inter"). split; [discriminate|reflexivity].
  - vm_compute. reflexivity.
Qed.

(** ** C20 No word text is lost by dehyphenation + plain-text output *)

(** With every block selected, the concatenation of the words written is the concatenation of the contributions of the
    words in document order, where a word contributes its text, without its hyphen if it is the first part of a merged
    word; only the third and later words of a chain of merges contribute nothing. *)
Theorem C20_no_loss : forall d h, NoDup (doc_words d) -> (forall i, w_first (h i) = None /\ w_second (h i) = None) ->
  (forall i, In i (doc_words d) -> w_text (h i) = chars_text (w_chars (h i))) ->
  exists ks, Forall2 (contributes d h) (doc_words d) ks /\
    concat (concat (map (block_shown (dehyphenate d h)) (flat_map p_blocks (d_pages d)))) = concat ks.
Proof. exact dehyph_no_loss. Qed.
Print Assumptions C20_no_loss.
(** Hence, if no word is both the second part of one merge and the first part of another, nothing is lost. *)
Theorem C20_no_chain : forall d h, NoDup (doc_words d) -> (forall i, w_first (h i) = None /\ w_second (h i) = None) ->
  (forall i, In i (doc_words d) -> w_text (h i) = chars_text (w_chars (h i))) ->
  (forall a b c, broken_pair d h a b -> broken_pair d h b c -> False) ->
  exists ks, Forall2 (fun w k => (exists b, broken_pair d h w b) /\ k = stem (w_text (h w)) \/
                                 ~ (exists b, broken_pair d h w b) /\ k = w_text (h w)) (doc_words d) ks /\
    concat (concat (map (block_shown (dehyphenate d h)) (flat_map p_blocks (d_pages d)))) = concat ks.
Proof.
  intros d h ND H0 HT NC. destruct (dehyph_no_loss d h ND H0 HT) as (ks & HF & E). exists ks. split; [|exact E].
  clear E ND H0 HT. induction HF as [|w k ws ks Hk _ IH]; constructor; [|exact IH].
  destruct Hk as [[(a & a' & H1 & H2) _]|[(_ & (H & _) & ->)|(_ & NJ & ->)]].
  - destruct (NC _ _ _ H1 H2).
  - left. auto.
  - right. split; [|reflexivity]. intros (b & Hb). apply NJ. split; [eauto|]. intros (a & Ha). exact (NC _ _ _ Ha Hb).
Qed.
Print Assumptions C20_no_chain.
(** In a chain text is lost; and with a role filter, the text of an unselected block can leak into the output while the
    text of a selected block is lost. *)
Theorem C20_chain_refuted : exists d h, NoDup (doc_words d) /\
  plain_serialize d (dehyphenate d h) [0] [] = S_ "ab-" ++ [nl] /\ map (fun i => w_text (h i)) (doc_words d) = map S_ ["a-"; "b-"; "c"]%string.
Proof.
  exists (toy [[blk 0 false [[0]; [1]; [2]]]]), (toy_heap ["a-"; "b-"; "c"]%string). split; [|split; reflexivity].
  change (doc_words _) with [0; 1; 2]. repeat (constructor; [intros I; cbn in I; intuition discriminate|]). constructor.
Qed.
Print Assumptions C20_chain_refuted.
Theorem C20_role_filter_refuted : exists d h,
  map b_role (p_blocks (hd (mkPage 0 done done [] [] []) (d_pages d))) = [0; 2; 0] /\
  plain_serialize d (dehyphenate d h) [0] [] = S_ "para" ++ [nl; nl] ++ S_ "graph" ++ [nl] /\
  plain_serialize d (dehyphenate d h) [2] [] = [nl] /\
  map (fun i => w_text (h i)) (doc_words d) = map S_ ["pa-"; "ra"; "graph"]%string.
Proof.
  exists (toy [[blk 0 false [[0]]; blk 2 false [[1]]; blk 0 false [[2]]]]), (toy_heap ["pa-"; "ra"; "graph"]%string).
  repeat split.
Qed.
Print Assumptions C20_role_filter_refuted.

(** ** C53 Output destination *)
Theorem C53_destination : forall shell can_open text path,
  (path = S_ "-" -> serialize shell can_open text path = [Stdout text]) /\
  (path <> S_ "-" -> exists dir, dir_of path dir /\
     let cmd := S_ "mkdir -p " ++ dir in
     (shell cmd = 0%Z -> can_open path = true -> serialize shell can_open text path = [Shell cmd; WriteFile path text]) /\
     (shell cmd <> 0%Z \/ can_open path = false -> exists msg, serialize shell can_open text path = [Shell cmd; Stderr msg])).
Proof. exact serialize_ok. Qed.
Print Assumptions C53_destination.
(** The path reaches the shell unquoted, and for a file in the root directory the command has no operand. *)
Theorem C53_shell_refuted : forall shell can_open text,
  hd_error (serialize shell can_open text (S_ "a b;rm -r c/out.txt")) = Some (Shell (S_ "mkdir -p a b;rm -r c")) /\
  hd_error (serialize shell can_open text (S_ "/out.txt")) = Some (Shell (S_ "mkdir -p ")).
Proof.
  intros. split; unfold serialize.
  - change (parentDir (S_ "a b;rm -r c/out.txt")) with (S_ "a b;rm -r c"). cbn [length S_ list_ascii_of_string Nat.eqb andb].
    destruct (negb _); [reflexivity|]. destruct (negb _); reflexivity.
  - change (parentDir (S_ "/out.txt")) with (@nil ascii). cbn [length S_ list_ascii_of_string Nat.eqb andb].
    destruct (negb _); [reflexivity|]. destruct (negb _); reflexivity.
Qed.
Print Assumptions C53_shell_refuted.
