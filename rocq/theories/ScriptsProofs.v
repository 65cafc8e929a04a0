(** ScriptsProofs.v - proofs about sub- and superscripts (C27). *)
From Coq Require Import ZArith NArith.
From Verif Require Import Base Double DoubleFacts MathUtils MathUtilsProofs Elements ElementsProofs GeometrySpec Document Scripts ScriptsSpec.
Local Open Scope nat_scope.
Local Opaque TOL dZ dadd dsub ddiv dmul dec DBL_MAX DBL_MIN.

Lemma base_tol_pos : dle dzero (dec 1 1) = true. Proof. vm_compute. reflexivity. Qed.
Lemma fs_tol_pos : dle dzero (dec 9 1) = true. Proof. vm_compute. reflexivity. Qed.
Lemma raised_lt base c : raised base c = true -> dlt (c_base c) base = true.
Proof. apply smaller_lt, base_tol_pos. Qed.
Lemma lowered_gt base c : lowered base c = true -> dlt base (c_base c) = true.
Proof. apply larger_gt, base_tol_pos. Qed.
Lemma raised_lowered base c : raised base c = true -> lowered base c = false.
Proof.
  intros R. destruct (lowered base c) eqn:L; [|reflexivity]. apply raised_lt in R. apply lowered_gt in L.
  rewrite (dlt_asym _ _ R) in L. discriminate.
Qed.

(** [c] with more flags *)
Definition with_flags (c : character) (sub sup : bool) : character :=
  mkChar (c_uid c) (c_id c) (c_rank c) (c_pos c) (c_text c) (c_name c) (c_unicodes c) (c_fontName c) (c_fontSize c) (c_color c)
    (c_opacity c) (c_base c) (c_isSub c || sub) (c_isSuper c || sup) (c_markOf c) (c_hasMark c) (c_textWithMark c).
Lemma with_flags_none c : with_flags c false false = c.
Proof. destruct c. unfold with_flags. cbn. rewrite !orb_false_r. reflexivity. Qed.
Definition mark (mf base : double) (c : character) : character := with_flags c (is_sub mf base c) (is_super mf base c).
Lemma script_char_spec mf base c b : script_char mf base c b =
  (mark mf base c, if is_script mf base c then b else box_grow b (c_pos c)).
Proof.
  unfold script_char, mark, is_script, is_super, is_sub. change (smaller (c_fontSize c) mf fsEqualTolerance) with (small mf c).
  destruct (small mf c); cbn [andb orb]; [|rewrite with_flags_none; reflexivity].
  change (smaller (c_base c) base baseEqualTolerance) with (raised base c).
  change (larger (c_base c) base baseEqualTolerance) with (lowered base c).
  destruct (raised base c) eqn:R; [rewrite (raised_lowered _ _ R)|]; cbn [orb].
  - f_equal. unfold with_flags, set_super. rewrite orb_false_r, orb_true_r. reflexivity.
  - destruct (lowered base c); cbn [orb]; [|rewrite with_flags_none; reflexivity].
    f_equal. unfold with_flags, set_sub. rewrite orb_false_r, orb_true_r. reflexivity.
Qed.
Definition plain (mf base : double) (cs : list character) : list position :=
  map c_pos (filter (fun c => negb (is_script mf base c)) cs).
Lemma script_chars_spec mf base cs : forall b, script_chars mf base cs b = (map (mark mf base) cs, fold_left box_grow (plain mf base cs) b).
Proof.
  induction cs as [|c cs IH]; intros b; cbn [script_chars map]; [reflexivity|]. rewrite script_char_spec, IH. unfold plain. cbn [filter].
  destruct (is_script mf base c); reflexivity.
Qed.
(** marking changes nothing that the decisions depend on *)
Lemma mark_same mf base mf' base' c : is_sub mf' base' (mark mf base c) = is_sub mf' base' c /\ is_super mf' base' (mark mf base c) = is_super mf' base' c /\
  is_script mf' base' (mark mf base c) = is_script mf' base' c /\ c_pos (mark mf base c) = c_pos c.
Proof. repeat split. Qed.
Definition mark_word (mf base : double) (w : word) : word := set_chars w (map (mark mf base) (w_chars w)).
Lemma mark_word_idem mf base w : mark_word mf base (mark_word mf base w) = mark_word mf base w.
Proof.
  unfold mark_word, set_chars. cbn [w_chars w_id w_rank w_pos w_text w_fontName w_fontSize w_partOf w_parts w_first w_second]. f_equal. rewrite map_map. apply map_ext. intros c.
  destruct (mark_same mf base mf base c) as (A & B & _). unfold mark at 1. rewrite A, B. unfold mark, with_flags. cbn [c_uid c_id c_rank c_pos c_text c_name c_unicodes c_fontName c_fontSize c_color c_opacity c_base c_isSub c_isSuper c_markOf c_hasMark c_textWithMark].
  rewrite <- !orb_assoc, !orb_diag. reflexivity.
Qed.
Lemma plain_mark mf base base' cs : plain mf base (map (mark mf base') cs) = plain mf base cs.
Proof.
  unfold plain. induction cs as [|c cs IH]; [reflexivity|]. cbn [map filter]. destruct (mark_same mf base' mf base c) as (_ & _ & -> & E).
  destruct (negb (is_script mf base c)); cbn [map]; rewrite IH; [rewrite E|]; reflexivity.
Qed.
Definition member (w : nat) (ws : list nat) : bool := existsb (Nat.eqb w) ws.
Lemma script_words_spec mf base ws : forall h b, exists h',
  script_words mf base ws h b = (h', fold_left box_grow (flat_map (fun w => plain mf base (w_chars (h w))) ws) b) /\
  forall w, h' w = if member w ws then mark_word mf base (h w) else h w.
Proof.
  induction ws as [|w ws IH]; intros h b; cbn [script_words]; [exists h; split; reflexivity|].
  rewrite script_chars_spec. destruct (IH (upd h w (set_chars (h w) (map (mark mf base) (w_chars (h w))))) (fold_left box_grow (plain mf base (w_chars (h w))) b)) as (h' & E & H).
  exists h'. rewrite E. split.
  - f_equal. cbn [flat_map]. rewrite fold_left_app. f_equal. rewrite !flat_map_concat_map. f_equal. apply map_ext. intros v. unfold upd. destruct (Nat.eqb_spec v w) as [->|N]; [|reflexivity].
    cbn [set_chars w_chars]. apply plain_mark.
  - intros v. rewrite H. unfold member. cbn [existsb]. unfold upd. destruct (Nat.eqb_spec v w) as [->|N]; cbn [orb]; [|reflexivity].
    fold (mark_word mf base (h w)). destruct (existsb (Nat.eqb w) ws); [apply mark_word_idem|reflexivity].
Qed.

(** a word marked by several lines *)
Definition mark_all (mf : double) (bs : list double) (c : character) : character :=
  with_flags c (existsb (fun b => is_sub mf b c) bs) (existsb (fun b => is_super mf b c) bs).
Lemma mark_all_cons mf b bs c : mark_all mf bs (mark mf b c) = mark_all mf (b :: bs) c.
Proof.
  unfold mark_all, mark, with_flags. cbn [existsb c_uid c_id c_rank c_pos c_text c_name c_unicodes c_fontName c_fontSize c_color c_opacity c_base c_isSub c_isSuper c_markOf c_hasMark c_textWithMark].
  rewrite <- !orb_assoc. reflexivity.
Qed.
Definition mark_all_word (mf : double) (bs : list double) (w : word) : word := set_chars w (map (mark_all mf bs) (w_chars w)).
Lemma set_chars_same w : set_chars w (w_chars w) = w. Proof. destruct w; reflexivity. Qed.
Lemma detect_spec mf ls : forall h h' out, detectScripts mf ls h = (h', out) ->
  (forall w, h' w = mark_all_word mf (bases_of ls w) (h w)) /\
  Forall2 (fun l l' => sl_base l' = sl_base l /\ sl_words l' = sl_words l /\
    sl_box l' = fold_left box_grow (flat_map (fun w => plain mf (sl_base l) (w_chars (h w))) (sl_words l)) (sl_box l)) ls out.
Proof.
  induction ls as [|l ls IH]; intros h h' out H; cbn [detectScripts] in H.
  - injection H as <- <-. split; [|constructor]. intros w. unfold mark_all_word, bases_of, mark_all. cbn [filter map existsb].
    rewrite (map_ext _ (fun c => c)) by (intros c; apply with_flags_none). rewrite map_id. symmetry. apply set_chars_same.
  - destruct (script_words_spec mf (sl_base l) (sl_words l) h (sl_box l)) as (h1 & E & H1). rewrite E in H.
    destruct (detectScripts mf ls h1) as [h2 t'] eqn:E2. injection H as <- <-. destruct (IH _ _ _ E2) as [A B]. split.
    + intros w. rewrite A, H1. unfold bases_of. cbn [filter]. fold (member w (sl_words l)). destruct (member w (sl_words l)); cbn [map]; [|reflexivity].
      unfold mark_all_word, mark_word. cbn [set_chars w_chars w_id w_rank w_pos w_text w_fontName w_fontSize w_partOf w_parts w_first w_second]. unfold set_chars. cbn [w_id w_rank w_pos w_text w_fontName w_fontSize w_partOf w_parts w_first w_second].
      f_equal. rewrite map_map. apply map_ext. intros c. apply mark_all_cons.
    + constructor; [repeat split|]. clear -B H1. induction B as [|l1 l1' t t' (X & Y & Z) F IHF]; constructor; [|exact IHF].
      split; [exact X|]. split; [exact Y|]. rewrite Z. f_equal. rewrite !flat_map_concat_map. f_equal. apply map_ext. intros w. rewrite H1.
      destruct (member w (sl_words l)); [|reflexivity]. cbn [mark_word set_chars w_chars]. apply plain_mark.
Qed.

(** the base box *)
Lemma grow_fields ps : forall b,
  bx_left (fold_left box_grow ps b) = fold_left (fun x p => minimum x (leftX p)) ps (bx_left b) /\
  bx_upper (fold_left box_grow ps b) = fold_left (fun x p => minimum x (upperY p)) ps (bx_upper b) /\
  bx_right (fold_left box_grow ps b) = fold_left (fun x p => maximum x (rightX p)) ps (bx_right b) /\
  bx_lower (fold_left box_grow ps b) = fold_left (fun x p => maximum x (lowerY p)) ps (bx_lower b).
Proof. induction ps as [|p ps IH]; intros b; cbn [fold_left]; [repeat split|]. apply (IH (box_grow b p)). Qed.
Lemma min_least (f : position -> double) ps a : nn a -> (forall p, In p ps -> nn (f p)) -> least_of (fold_left (fun x p => minimum x (f p)) ps a) (a :: map f ps).
Proof.
  intros Na Np. destruct (nn_min_run f ps a Na Np) as (_ & R2 & R3 & R4). split.
  - intros v [<-|Hv]; [exact R2|]. apply in_map_iff in Hv as (p & <- & Hp). apply R3, Hp.
  - destruct R4 as [->|(p & Hp & ->)]; [left; reflexivity|right; apply in_map, Hp].
Qed.
Lemma max_greatest (f : position -> double) ps a : nn a -> (forall p, In p ps -> nn (f p)) -> greatest_of (fold_left (fun x p => maximum x (f p)) ps a) (a :: map f ps).
Proof.
  intros Na Np. destruct (nn_max_run f ps a Na Np) as (_ & R2 & R3 & R4). split.
  - intros v [<-|Hv]; [exact R2|]. apply in_map_iff in Hv as (p & <- & Hp). apply R3, Hp.
  - destruct R4 as [->|(p & Hp & ->)]; [left; reflexivity|right; apply in_map, Hp].
Qed.
Lemma grow_box b ps : (nn (bx_left b) /\ nn (bx_upper b) /\ nn (bx_right b) /\ nn (bx_lower b)) -> (forall p, In p ps -> nn_pos p) ->
  extended_box b ps (fold_left box_grow ps b).
Proof.
  intros (N1 & N2 & N3 & N4) NP. destruct (grow_fields ps b) as (E1 & E2 & E3 & E4). unfold extended_box. rewrite E1, E2, E3, E4.
  split; [apply min_least; [exact N1|]|split; [apply min_least; [exact N2|]|split; apply max_greatest; [exact N3| |exact N4|]]]; intros p Hp; apply (NP p Hp).
Qed.
