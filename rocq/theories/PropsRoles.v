(** PropsRoles.v - property theorems C37, C62, C63 (prediction of semantic roles). *)
From Coq Require Import ZArith NArith Reals Lra Lia.
From Flocq Require Import Core IEEE754.BinarySingleNaN.
From Verif Require Import Base Double DoubleFacts Float FloatFacts GridProofs UtilsSpec Bpe BpeSpec BpeProofs Elements Document Roles RolesSpec RolesProofs VocabProofs FeaturesProofs.

(** ** C37 Predicted role is the arg-max *)

(** For every table of probabilities with a row of [yDim] entries per block, every block gets the number chosen by its row. *)
Theorem C37_argmax : forall data yDim n, n * yDim <= length data ->
  exists roles, assign_roles data yDim n 0 = Ok roles /\ length roles = n /\
    forall i r, nth_error roles i = Some r -> chosen (row data yDim i) r /\ (r < yDim \/ r = 0).
Proof. intros data yDim n L. exact (assign_roles_ok data yDim n 0 L). Qed.
Print Assumptions C37_argmax.
Theorem C37_unique : forall row r r', chosen row r -> chosen row r' -> r = r'.
Proof. exact chosen_unique. Qed.
Print Assumptions C37_unique.

(** The whole prediction: on an object whose model is loaded or can be loaded, for every document in which the input features
    are defined and every network that returns a row per block, every block gets the number chosen by its row of the network's
    answer to the two input tensors; with at most 14 classes it is the number of a semantic role. *)
Theorem C37_predict : forall from fonts network fuel bpe roles p p1 pages layout words,
  (p_modelOk p = true /\ p1 = p \/ p_modelOk p = false /\ readModel fuel bpe roles p = Some (Ok tt, p1)) ->
  layout_tensor from fonts pages = Ok layout -> words_tensor from (p_bpeVocab p1) pages = Some (Ok words) ->
  let data := fst (network layout words) in let yDim := snd (network layout words) in
  length data = length (blocks_of pages) * yDim ->
  exists rs, predict from fonts network fuel bpe roles p pages = Some (Ok rs, p1) /\ length rs = length (blocks_of pages) /\
    (forall i r, nth_error rs i = Some r -> chosen (row data yDim i) r) /\
    (1 <= yDim <= 14 -> forall i r, nth_error rs i = Some r -> exists name, getSemanticRoleName r = Ok name).
Proof.
  intros from fonts network fuel bpe roles p p1 pages layout words HP HL HW data yDim LD.
  destruct (assign_roles_ok data yDim (length (blocks_of pages)) 0) as (rs & E & L & C); [cbn [Nat.add]; lia|].
  exists rs. split; [|split; [exact L|split]].
  - unfold predict.
    assert (LO : (if p_modelOk p then Some (Ok tt, p) else readModel fuel bpe roles p) = Some (Ok tt, p1)).
    { destruct HP as [[-> ->]|[-> R]]; [reflexivity|exact R]. }
    rewrite LO, HL, HW. unfold data, yDim in E. destruct (network layout words) as [d y]. cbn [fst snd] in E.
    rewrite <- blocks_of_snd, map_length, E. reflexivity.
  - intros i r H. exact (proj1 (C i r H)).
  - intros Y i r H. destruct (C i r H) as [_ B]. unfold getSemanticRoleName, name_of.
    assert (R14 : r < 14) by lia. clear -R14.
    do 14 (destruct r as [|r]; [eexists; reflexivity|]). lia.
Qed.
Print Assumptions C37_predict.

(** A network with more classes than there are roles gives a block a number without a name (undefined behaviour when it is
    written); a network with too few values per block makes the prediction read behind the end of the data. *)
Theorem C37_too_many_classes_refuted : exists data r, length data = 15 /\ assign_roles data 15 1 0 = Ok [r] /\ is_ub (getSemanticRoleName r) = true.
Proof. exists (repeat fzero 14 ++ [fone]), 14. split; [reflexivity|]. split; vm_compute; reflexivity. Qed.
Print Assumptions C37_too_many_classes_refuted.
Theorem C37_short_output_refuted : forall data yDim n, 0 < n -> 0 < yDim -> length data < yDim -> is_ub (assign_roles data yDim n 0) = true.
Proof.
  intros data yDim n N Y L. destruct n as [|n]; [lia|]. cbn [assign_roles]. 
  assert (H : forall m k best, length data < k + m -> is_ub (best_loop data 0 m k best) = true \/ m = 0).
  { intros m. induction m as [|m IH]; intros k best Q; [right; reflexivity|left]. cbn [best_loop Nat.add].
    destruct (nth_error data k) eqn:E; [|reflexivity]. destruct (IH (S k) (if fgt f (fst best) then (f, k) else best)) as [X|X]; [lia|exact X|].
    subst m. assert (X : nth_error data k <> None) by congruence. apply nth_error_Some in X. lia. }
  cbn [Nat.mul]. destruct (H yDim 0 (fzero, 0)) as [X|X]; [lia| |lia].
  destruct (best_loop data 0 yDim 0 (fzero, 0)); try discriminate. reflexivity.
Qed.
Print Assumptions C37_short_output_refuted.
Definition half : float := fdiv (fZ 1) (fZ 2).
Definition quarter : float := fdiv (fZ 1) (fZ 4).
Example C37_example : assign_roles [quarter; half; half; fzero; fzero; fzero; fzero; fzero; fone] 3 3 0 = Ok [1; 0; 2].
Proof. vm_compute. reflexivity. Qed.

(** ** C62 The model sees the document: the two input tensors *)

(** Layout: 15 features per block, in document order, describing the block, its page and its text. *)
Theorem C62_layout : forall from fonts pages, (Z.of_nat (length pages) < 2 ^ 24)%Z ->
  (forall p b, In (p, b) (blocks_of pages) -> usual_block from fonts (Z.of_nat (length pages)) p b /\ exists k, size_tenths (rb_fontSize b) k) ->
  exists vs, layout_tensor from fonts pages = Ok (vs, (Z.of_nat (length (blocks_of pages)), 15%Z)) /\ length vs = length (blocks_of pages) * 15 /\
    forall i p b, nth_error (blocks_of pages) i = Some (p, b) ->
      exists text words weight italic lo hi k, from (rb_text b) = Some text /\ Forall2 (fun s t => from s = Some t) (rb_words b) words /\
        fonts (rb_fontName b) = Some (weight, italic) /\ size_range pages lo hi /\ size_tenths (rb_fontSize b) k /\
        features (Z.of_nat (length pages)) (IZR lo / 10) (IZR hi / 10) (IZR k / 10) p b weight italic text words (row vs 15 i).
Proof. exact layout_ok. Qed.
Print Assumptions C62_layout.

(** Words: 100 ids per block, in document order: the byte pair encoding of the text of the block, cut or padded, whatever
    the blocks before it contain. *)
Theorem C62_words : forall from voc pages,
  (forall p b, In (p, b) (blocks_of pages) -> exists t, from (rb_text b) = Some t /\ (N.of_nat (length t) < 2 ^ 32 - 1)%N) ->
  exists vs, words_tensor from voc pages = Some (Ok (vs, (Z.of_nat (length (blocks_of pages)), 100%Z))) /\ length vs = length (blocks_of pages) * 100 /\
    forall i p b t, nth_error (blocks_of pages) i = Some (p, b) -> from (rb_text b) = Some t -> text_ids voc t (row vs 100 i).
Proof.
  intros from voc pages H. unfold words_tensor. rewrite <- blocks_of_snd.
  destruct (words_loop_ok from voc (map snd (blocks_of pages)) (make_encoder voc)) as (vs & E & L & R).
  - constructor.
  - intros b I. apply in_map_iff in I as ([p b'] & X & I). cbn [snd] in X. subst b'. exact (H p b I).
  - exists vs. rewrite E, map_length in *. split; [reflexivity|]. split; [exact L|]. intros i p b t X. apply R.
    rewrite nth_error_map, X. reflexivity.
Qed.
Print Assumptions C62_words.

(** If the text of a block cannot be decoded, neither tensor is made: the prediction of the roles fails. *)
Theorem C62_undecodable : forall from fonts voc pages p b, In p pages -> In b (rp_blocks p) -> from (rb_text b) = None ->
  (forall r, layout_tensor from fonts pages <> Ok r) /\ (forall r, words_tensor from voc pages <> Some (Ok r)).
Proof.
  intros from fonts voc pages p b Hp Hb N. split.
  - intros r H. unfold layout_tensor in H. cbv zeta in H. set (range := font_size_range pages) in *. clearbody range. set (n := Z.of_nat (length pages)) in *. clearbody n.
    match type of H with obind (concat_outcomes ?l) _ = _ => set (L := l) in * end.
    assert (I : exists o, In o L /\ forall v, o <> Ok v).
    { exists (block_features from fonts n range p b). split; [apply in_concat; exists (map (block_features from fonts n range p) (rp_blocks p)); split; [exact (in_map _ _ _ Hp)|exact (in_map _ _ _ Hb)]|].
      intros v E. unfold block_features in E. destruct range as [mn mx]. destruct (fontInfo_at _ _) as [[w i]| |]; try discriminate. cbn [obind] in E. unfold convert in E. rewrite N in E. discriminate. }
    clearbody L. destruct I as (o & I & NO). revert H. assert (X : forall v, concat_outcomes L <> Ok v).
    { induction L as [|x L IH]; [destruct I|]. intros v E. cbn [concat_outcomes] in E. destruct I as [->|I].
      - destruct o; try discriminate. exact (NO _ eq_refl).
      - destruct x; try discriminate. cbn [obind] in E. destruct (concat_outcomes L) as [v'| |]; try discriminate. exact (IH I v' eq_refl). }
    destruct (concat_outcomes L) as [v| |]; try discriminate. intros _. exact (X v eq_refl).
  - intros r H. unfold words_tensor in H. cbv zeta in H. assert (I : In b (concat (map rp_blocks pages))) by (apply in_concat; exists (rp_blocks p); split; [exact (in_map _ _ _ Hp)|exact Hb]).
    revert H. assert (X : forall bs e v, In b bs -> words_loop from e bs <> Some (Ok v)).
    { induction bs as [|x bs IH]; intros e v J E; [destruct J|]. cbn [words_loop] in E. destruct J as [->|J].
      - unfold convert in E. rewrite N in E. discriminate.
      - destruct (convert from (rb_text x)) as [t| |]; try discriminate. destruct (encode e t 100 []) as [[[enc e']| |]|]; try discriminate.
        destruct (words_loop from e' bs) as [[v'| |]|] eqn:EW; try discriminate. exact (IH e' v' J EW). }
    destruct (words_loop _ _ _) as [[v| |]|] eqn:EW; try discriminate. intros _. exact (X _ _ v I EW).
Qed.
Print Assumptions C62_undecodable.
(** The features are not what their names say for some documents: a text of non-ASCII characters with share 0 of non-ASCII
    characters (only the low byte of a character is looked at); a block inside its page (whose clip box does not start at
    the origin) at a position behind the right end of the page; undefined behaviour for a word that starts with a character
    above U+00FF; an exception for a block whose font is not known. *)
Definition a_block (t : str) : rblock := mkRBlock (mkPos 1 (dZ 1100) (dZ 100) (dZ 1200) (dZ 200) 0 0) t (S_ "f") (dZ 10) [t].
Definition a_page (l : Z) (b : rblock) : rpage := mkRPage (dZ l) (dZ 0) (dZ (l + 600)) (dZ 800) [b].
Definition feature (o : outcome (list float * (Z * Z))) (i : nat) : option float :=
  match o with Ok (vs, _) => nth_error vs i | _ => None end.
Theorem C62_non_ascii_refuted : exists from fonts pages v, from (S_ "x") = Some [257%N] /\
  map (fun pb => rb_text (snd pb)) (blocks_of pages) = [S_ "x"] /\ feature (layout_tensor from fonts pages) 11 = Some v /\ value v = 0%R.
Proof.
  exists (fun t => if str_eqb t (S_ "x") then Some [257%N] else Some []), (fun _ => Some (400%Z, false)),
    [a_page 1000 (mkRBlock (mkPos 1 (dZ 1100) (dZ 100) (dZ 1200) (dZ 200) 0 0) (S_ "x") (S_ "f") (dZ 10) [])], fzero.
  split; [reflexivity|]. split; [reflexivity|]. split; [|reflexivity]. vm_compute. reflexivity.
Qed.
Print Assumptions C62_non_ascii_refuted.
Theorem C62_clip_origin_refuted : exists from fonts p b v,
  dle (rp_leftX p) (leftX (rb_pos b)) = true /\ dle (leftX (rb_pos b)) (rp_rightX p) = true /\ blocks_of [p] = [(p, b)] /\
  feature (layout_tensor from fonts [p]) 1 = Some v /\ flt fone v = true.
Proof.
  exists (fun t => Some []), (fun _ => Some (400%Z, false)), (a_page 1000 (a_block (S_ "x"))), (a_block (S_ "x")).
  assert (H : match feature (layout_tensor (fun t => Some []) (fun _ => Some (400%Z, false)) [a_page 1000 (a_block (S_ "x"))]) 1 with
              | Some v => flt fone v | None => false end = true) by (vm_compute; reflexivity).
  destruct (feature _ 1) as [v|]; [|discriminate]. exists v. split; [vm_compute; reflexivity|]. split; [vm_compute; reflexivity|].
  split; [reflexivity|]. split; [reflexivity|exact H].
Qed.
Print Assumptions C62_clip_origin_refuted.
Theorem C62_isupper_refuted : exists from fonts pages, (forall t, exists w, from t = Some w) /\ (forall f, exists i, fonts f = Some i) /\
  is_ub (layout_tensor from fonts pages) = true.
Proof.
  exists (fun t => Some [916%N]), (fun _ => Some (400%Z, false)), [a_page 0 (a_block (S_ "x"))].
  split; [eauto|]. split; [eauto|]. vm_compute. reflexivity.
Qed.
Print Assumptions C62_isupper_refuted.
Theorem C62_unknown_font_refuted : exists from fonts pages, (forall t, exists w, from t = Some w) /\ is_throw (layout_tensor from fonts pages) = true.
Proof.
  exists (fun t => Some [65%N]), (fun _ => None), [a_page 0 (a_block (S_ "x"))]. split; [eauto|]. vm_compute. reflexivity.
Qed.
Print Assumptions C62_unknown_font_refuted.

(** ** C63 Vocabulary files *)

(** Loading two well-formed files: the id of a token is the one of its first line, the role of a number the one of its last
    line; lines without a tab and characters behind the last newline are ignored. *)
Theorem C63_load : forall s1 ls1 rest1 es1 s2 ls2 rest2 es2 fuel,
  has_lines s1 ls1 rest1 -> Forall2 line_entry ls1 es1 -> has_lines s2 ls2 rest2 -> Forall2 line_entry ls2 es2 ->
  length ls1 < fuel -> length ls2 < fuel ->
  exists p, readModel fuel (Some (s1, true)) (Some (s2, true)) new_predictor = Some (Ok tt, p) /\ p_modelOk p = true /\
    (forall t z, lookup t (p_bpeVocab p) = Some z <-> first_for t (some_list es1) z) /\
    (forall k r, lookup_role k (p_rolesVocab p) = Some r <-> last_for k (map (fun e => (snd e, fst e)) (some_list es2)) r).
Proof.
  intros s1 ls1 rest1 es1 s2 ls2 rest2 es2 fuel (-> & A1 & A2) F1 (-> & B1 & B2) F2 L1 L2.
  eexists. split.
  - unfold readModel. cbn [p_bpeVocab p_rolesVocab new_predictor].
    rewrite (loop_ok insert_token ls1 rest1 es1 fuel [] A1 A2 F1 L1). cbn [p_rolesVocab].
    rewrite (loop_ok (fun t z m => assign_role z t m) ls2 rest2 es2 fuel [] B1 B2 F2 L2). reflexivity.
  - cbn [p_modelOk p_bpeVocab p_rolesVocab]. split; [reflexivity|]. split.
    + intros t z. rewrite fold_entries, insert_fold. cbn [lookup]. apply find_first.
    + intros k r. rewrite fold_entries, roles_fold. cbn [lookup_role]. apply find_last.
Qed.
Print Assumptions C63_load.

(** A terminated line with a tab but without a readable int behind it: the load fails with an exception. *)
Theorem C63_bad_line : forall s ls l rest es roles fuel,
  Forall (no_char 10) ls -> no_char 10 l -> s = concat (map (fun l => l ++ [10%N]) (ls ++ [l])) ++ rest ->
  Forall2 line_entry ls es -> (forall e, ~ line_entry l e) -> length ls < fuel ->
  exists w p, readModel fuel (Some (s, true)) roles new_predictor = Some (Throw w, p).
Proof.
  intros s ls l rest es roles fuel A1 A2 -> F B L. unfold readModel. cbn [p_bpeVocab p_rolesVocab new_predictor].
  destruct (loop_throw insert_token ls l rest es true fuel [] A1 A2 F B L) as (w & E). rewrite E. eauto.
Qed.
Print Assumptions C63_bad_line.

(** A file that can't be decoded (or read) to its end: the load never succeeds, and if no line is malformed it does not
    end at all. *)
Theorem C63_undecodable : forall s ls rest es roles fuel,
  has_lines s ls rest -> Forall2 line_entry ls es -> (exists e, line_entry rest e) ->
  readModel fuel (Some (s, false)) roles new_predictor = None.
Proof.
  intros s ls rest es roles fuel (-> & A1 & A2) F (e & R). unfold readModel. cbn [p_bpeVocab p_rolesVocab new_predictor].
  assert (ST : forall n s m, read_loop insert_token n s false (Some rest) m = None).
  { induction n as [|n IH]; intros s m; [reflexivity|]. cbn [read_loop]. rewrite (read_line_entry insert_token rest e m R). apply IH. }
  assert (LO : read_loop insert_token fuel (concat (map (fun l => l ++ [10%N]) ls) ++ rest) false None [] = None).
  { generalize ([] : vocabulary) as m. revert es fuel F. induction ls as [|l ls IH]; intros es fuel F m.
    - cbn [map concat app]. destruct fuel as [|fuel]; [reflexivity|]. cbn [read_loop]. rewrite (proj2 (getline_none rest) A2).
      rewrite (read_line_entry insert_token rest e m R). apply ST.
    - inversion F as [|l' x ls' es' H1 H2]; subst. inversion A1 as [|? ? N1 N2]; subst. destruct fuel as [|fuel]; [reflexivity|].
      cbn [map concat read_loop]. rewrite <- !app_assoc. cbn [app]. rewrite (getline_app l _ N1), (read_line_entry insert_token l x m H1).
      exact (IH N2 es' fuel H2 _). }
  rewrite LO. reflexivity.
Qed.
Print Assumptions C63_undecodable.

(** A missing roles file is reported by the first prediction only: the object counts as loaded, and the next prediction runs. *)
Theorem C63_failed_load_forgotten_refuted : exists p1, (exists w, readModel 5 None None new_predictor = Some (Throw w, p1)) /\
  forall from fonts network fuel bpe roles, predict from fonts network fuel bpe roles p1 [] = Some (Ok [], p1).
Proof.
  exists (mkPredictor true [] []). split; [exists "invalid_argument"%string; reflexivity|]. intros from fonts network fuel bpe roles.
  unfold predict. cbn [p_modelOk p_bpeVocab]. cbn. destruct (network _ _) as [d y]. reflexivity.
Qed.
Print Assumptions C63_failed_load_forgotten_refuted.

(** Non-vacuity. *)
Definition w_str (s : string) : wstr := map N_of_ascii (S_ s).
Definition tab_line (t : string) (n : string) : wstr := w_str t ++ 9%N :: w_str n.
Definition demo_file : wstr := tab_line "ab" "0" ++ [10%N] ++ tab_line "c" "17" ++ [10%N] ++ tab_line "ab" "5" ++ [10%N] ++ w_str "x".
Lemma demo_reads n z : reads (w_str n) z -> is_int z -> forall t, no_char 9 (w_str t) -> line_entry (tab_line t n) (Some (w_str t, z)).
Proof. intros R I t N. constructor; assumption. Qed.
Example C63_example :
  has_lines demo_file [tab_line "ab" "0"; tab_line "c" "17"; tab_line "ab" "5"] (w_str "x") /\
  Forall2 line_entry [tab_line "ab" "0"; tab_line "c" "17"; tab_line "ab" "5"] [Some (w_str "ab", 0%Z); Some (w_str "c", 17%Z); Some (w_str "ab", 5%Z)] /\
  match readModel 9 (Some (demo_file, true)) (Some (demo_file, true)) new_predictor with
  | Some (Ok _, p) => lookup (w_str "ab") (p_bpeVocab p) = Some 0%Z /\ lookup (w_str "c") (p_bpeVocab p) = Some 17%Z /\ lookup (w_str "x") (p_bpeVocab p) = None /\
                      lookup_role 5 (p_rolesVocab p) = Some (w_str "ab")
  | _ => False
  end.
Proof.
  split; [|split].
  - split; [reflexivity|]. split; [|vm_compute; intuition discriminate]. repeat constructor; vm_compute; intuition discriminate.
  - constructor; [|constructor; [|constructor; [|constructor]]]; apply demo_reads; try (unfold is_int; lia); try (vm_compute; intuition discriminate).
    + apply (proj1 (stoi_reads (w_str "0") 0)). vm_compute. reflexivity.
    + apply (proj1 (stoi_reads (w_str "17") 17)). vm_compute. reflexivity.
    + apply (proj1 (stoi_reads (w_str "5") 5)). vm_compute. reflexivity.
  - vm_compute. repeat split.
Qed.
Lemma demo_fin : forallb is_fin (map dZ [0; 10; 20; 100; 110; 600; 800]%Z) = true. Proof. vm_compute. reflexivity. Qed.
Definition demo_block (y fs : Z) (t : str) : rblock := mkRBlock (mkPos 1 (dZ 10) (dZ y) (dZ 100) (dZ (y + 10)) 0 0) t (S_ "f") (dZ fs) [t; t].
Definition demo_page : rpage := mkRPage (dZ 0) (dZ 0) (dZ 600) (dZ 800) [demo_block 10 10 (S_ "Hi 4"); demo_block 100 20 (S_ "a@b.")].
Lemma demo_R z : (0 <= z <= 2560)%Z -> is_fin (dZ z) = true /\ B2R (dZ z) = IZR z.
Proof.
  intros H. destruct (Z.eq_dec z 0) as [->|NZ]; [split; reflexivity|]. destruct (dZ_exact z) as [A B]; [lia|]. split; [exact A|]. rewrite <- B. symmetry. apply E_fin, A.
Qed.
Lemma demo_size z : (1 <= z <= 256)%Z -> size_tenths (dZ z) (10 * z).
Proof.
  intros H. destruct (demo_R z) as [A B]; [lia|]. split; [lia|]. split; [exact A|]. rewrite B.
  replace (IZR (10 * z) / 10)%R with (IZR z) by (rewrite mult_IZR; field). symmetry. change (rd (IZR z) = IZR z). rewrite <- B. apply rd_B2R.
Qed.
Example C62_example :
  let from := fun s => Some (map N_of_ascii s) in let fonts := fun f => if str_eqb f (S_ "f") then Some (700%Z, true) else None in
  (forall p b, In (p, b) (blocks_of [demo_page]) -> usual_block from fonts 1 p b /\ exists k, size_tenths (rb_fontSize b) k) /\
  match layout_tensor from fonts [demo_page] with
  | Ok (vs, sh) => sh = (2, 15)%Z /\ map (fun i => match nth_error vs i with Some v => flt fzero v | None => false end) (seq 0 30) =
      [false; true; true; true; true; false; true; true; false; false; true; false; false; true; true;
       false; true; true; true; true; true; true; true; true; false; false; false; true; false; false]
  | _ => False
  end.
Proof.
  cbv zeta. split.
  - assert (U : forall y fs t, (0 <= y <= 200)%Z -> (1 <= fs <= 256)%Z -> length t < 10 ->
      usual_block (fun s => Some (map N_of_ascii s)) (fun f => if str_eqb f (S_ "f") then Some (700%Z, true) else None) 1 demo_page (demo_block y fs t) /\
      exists k, size_tenths (rb_fontSize (demo_block y fs t)) k).
    { intros y fs t Y FS T. split; [|exists (10 * fs)%Z; exact (demo_size fs FS)].
      unfold usual_block, finite4, near_page. cbn [rp_leftX rp_upperY rp_rightX rp_lowerY demo_page demo_block rb_pos leftX upperY rightX lowerY pageNum rb_fontName rb_text rb_words].
      destruct (demo_R 0) as [F0 V0]; [lia|]. destruct (demo_R 600) as [F6 V6]; [lia|]. destruct (demo_R 800) as [F8 V8]; [lia|].
      destruct (demo_R 10) as [F1 V1]; [lia|]. destruct (demo_R 100) as [F2 V2]; [lia|]. destruct (demo_R y) as [F3 V3]; [lia|]. destruct (demo_R (y + 10)) as [F4 V4]; [lia|].
      rewrite V0, V6, V8, V1, V2, V3, V4, plus_IZR. change (bpow radix2 20) with 1048576%R.
      assert (YR : (0 <= IZR y <= 200)%R) by (split; apply IZR_le; lia).
      split; [split; [exact F0|split; [exact F0|split; [exact F6|exact F8]]]|]. split; [lra|]. split; [lra|].
      split; [split; [exact F1|split; [exact F3|split; [exact F2|exact F4]]]|].
      split; [rewrite Rabs_pos_eq; lra|]. split; [rewrite Rabs_pos_eq; lra|]. split; [rewrite Rabs_pos_eq; lra|]. split; [rewrite Rabs_pos_eq; lra|].
      split; [lia|]. split; [eexists; reflexivity|]. split.
      { eexists. split; [reflexivity|]. rewrite map_length. lia. }
      split; [vm_compute; reflexivity|]. intros s I. eexists. split; [reflexivity|]. destruct s as [|c s]; [exact Logic.I|]. cbn [map]. apply N_ascii_bounded. }
    intros p b [X|[X|[]]]; injection X as <- <-; apply U; try lia; cbn; lia.
  - vm_compute. split; reflexivity.
Qed.
