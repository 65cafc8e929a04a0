(** PipelineWhole.v - from the words to the blocks: nothing is lost and nothing is duplicated. *)
From Coq Require Import ZArith NArith.
From Verif Require Import Base Double Elements Sort XYCut Document Pipeline PipelineSpec PipelineLines PipelineProofs PipelineWords.
From Verif Require Fonts Parsing Statistics Words PageSegmentation Lines LinesSpec LinesDefined Scripts ScriptsProofs Blocks BlocksSpec
  Roles ReadingOrder ReadingOrderProofs Dehyphenation SerializationSpec DehyphenationProofs Cli PropsSegmentation PropsBlocks.

Lemma F2_map_l {A B C} (P : A -> C -> Prop) (f : B -> A) l l' : Forall2 P (map f l) l' -> Forall2 (fun x y => P (f x) y) l l'.
Proof. revert l'. induction l as [|x l IH]; cbn [map]; intros l' H; inversion H; subst; constructor; auto. Qed.
Lemma F2_fwd {A B} (P : A -> B -> Prop) (Q : A -> Prop) l l' : Forall2 P l l' -> Forall Q l -> Forall2 (fun x y => P x y /\ Q x) l l'.
Proof. induction 1 as [|x y l l' H _ IH]; intros F; inversion F; subst; constructor; auto. Qed.
Lemma filter_map_all {A B} (P : B -> bool) (f : A -> B) l b : (forall x, P (f x) = b) -> filter P (map f l) = if b then map f l else [].
Proof. intros H. induction l as [|x l IH]; cbn [map filter]; [destruct b; reflexivity|]. rewrite H, IH. destruct b; reflexivity. Qed.
Lemma flat_filter {A} (P : A -> bool) ls : filter P (concat ls) = concat (map (filter P) ls).
Proof. induction ls as [|l ls IH]; cbn [concat map]; [reflexivity|]. rewrite filter_app, IH. reflexivity. Qed.
Lemma filter_perm {A} (P : A -> bool) l l' : Permutation l l' -> Permutation (filter P l) (filter P l').
Proof.
  induction 1 as [|x l l' _ IH|x y l|l l1 l2 _ IH1 _ IH2]; cbn [filter]; [constructor| | |].
  - destruct (P x); [constructor|]; exact IH.
  - destruct (P x), (P y); try reflexivity. apply perm_swap.
  - rewrite IH1. exact IH2.
Qed.

Section Whole.
  Context (m : machine) (cfg : Words.words_config) (SANE : sane m) (qs : list Parsing.ppage).

  (** ** The segments *)
  Definition segmented (p : gpage) : Prop :=
    Permutation (g_words p) (flat_map sg_words (g_segs p)) /\ Forall (fun s => sg_lines s = []) (g_segs p) /\ g_blocks p = [].
  Lemma segmentation_inv d d' : inv1 cfg qs d -> Forall no_text (gd_pages d) -> run_segmentation m d = Ok d' ->
    inv1 cfg qs d' /\ Forall segmented (gd_pages d') /\ gd_lines d' = gd_lines d.
  Proof.
    intros I N H. unfold run_segmentation in H. destruct (omap _ (gd_pages d)) as [ps| |] eqn:E; try discriminate. cbn [obind] in H.
    apply Ok_inj in H. subst d'. apply omap_F2 in E. destruct SANE as (HP & HT & _).
    assert (E' : Forall2 (fun p p' => keeps p p' /\ segmented p') (gd_pages d) ps).
    { pose proof (F2_fwd _ _ _ _ E N) as E2. refine (F2_imp _ _ _ _ _ E2). clear E E2. intros p p' [H [N1 N2]].
      destruct (PageSegmentation.processPage _ _ _ _) as [[[segs cuts]| |]|] eqn:EP; cbn [from_run obind fst] in H; try discriminate.
      apply Ok_inj in H. subst p'. split; [unfold keeps, set_segs; cbn; repeat split|].
      destruct (PropsSegmentation.C30_partition _ _ _ HP HT _ _ _ EP) as [PE _]. unfold page_elems in PE.
      cbn [PageSegmentation.pp_words PageSegmentation.pp_figures PageSegmentation.pp_graphics PageSegmentation.pp_shapes] in PE.
      unfold segmented, set_segs. cbn [g_words g_segs g_blocks]. rewrite N1, N2. cbn [app]. split; [|split; [|reflexivity]].
      - set (isw := fun e => is_some (PageSegmentation.pe_word e)).
        assert (Q := Permutation_map PageSegmentation.pe_uid (filter_perm isw _ _ PE)). rewrite !filter_app in Q.
        rewrite (filter_map_all isw (fun i => PageSegmentation.mkPE i _ _) _ true) in Q by (intros x; reflexivity).
        rewrite (filter_map_all isw (fun f => PageSegmentation.mkPE 0 (Parsing.fg_pos f) None) _ false) in Q by (intros x; reflexivity).
        rewrite !(filter_map_all isw (fun e => PageSegmentation.mkPE 0 (e_pos e) None) _ false) in Q by (intros x; reflexivity).
        rewrite !app_nil_r, map_map in Q. cbn [PageSegmentation.pe_uid] in Q. rewrite map_id in Q. rewrite Q, flat_filter.
        clear. induction segs as [|s segs IH]; cbn [map concat flat_map]; [constructor|]. rewrite map_app. apply Permutation_app; [|exact IH]. reflexivity.
      - apply Forall_forall. intros s Hs. apply in_map_iff in Hs as (s0 & <- & _). reflexivity. }
    split; [apply (inv1_step cfg qs d); [exact (F2_imp _ _ _ _ (fun x y H => proj1 H) E')|reflexivity|exact I]|]. split; [|reflexivity].
    cbn [set_pages gd_pages]. clear -E'. induction E' as [|x y l l' [_ H] _ IH]; constructor; assumption.
  Qed.

  (** ** The lines *)
  Definition words_of (ls : list gline) (i : nat) : list nat := Lines.l_words (gl_line (nth i ls no_line)).
  Definition in_lines (ws : list word) (ls : list gline) (p : gpage) : Prop :=
    Permutation (flat_map (LinesSpec.with_parts (word_heap ws)) (g_words p)) (flat_map (words_of ls) (flat_map sg_lines (g_segs p))) /\
    g_blocks p = [].
  Lemma place_lines_spec segs : forall n k r segs' ls, length r = length segs -> Forall (fun s => sg_lines s = []) segs ->
    place_lines n k segs r = (segs', ls) ->
    flat_map sg_lines segs' = seq n (length ls) /\ map fst ls = LinesSpec.page_lines r.
  Proof.
    induction segs as [|s segs IH]; intros n k r segs' ls L F H; destruct r as [|[gs tb] r]; try discriminate; cbn [place_lines] in H.
    - apply pair_equal_spec in H as [<- <-]. split; reflexivity.
    - destruct (place_lines _ (S k) segs r) as [segs1 rest] eqn:E. apply pair_equal_spec in H as [<- <-]. inversion F as [|? ? F1 F2]; subst.
      destruct (IH _ _ _ _ _ (f_equal pred L) F2 E) as [A B]. cbn [flat_map sg_lines]. rewrite F1, A. cbn [app].
      rewrite app_length, map_length, seq_app. split; [reflexivity|]. rewrite map_app, map_map. cbn [fst]. rewrite map_id, B. reflexivity.
  Qed.
  Lemma page_glines_spec n hs ls : map gl_line (page_glines n hs ls) = map fst ls.
  Proof.
    unfold page_glines. rewrite map_map. transitivity (map (fun x : nat * (Lines.tline * nat) => fst (snd x)) (combine (seq 0 (length ls)) ls)).
    - apply map_ext. intros [i [l k]]. reflexivity.
    - generalize 0. induction ls as [|l ls IH]; intros a; [reflexivity|]. cbn [length seq combine map]. rewrite IH. reflexivity.
  Qed.
  Lemma words_of_ext ls ls' i : map gl_line ls = map gl_line ls' -> words_of ls i = words_of ls' i.
  Proof.
    intros H. unfold words_of. f_equal. assert (E : forall l, gl_line (nth i l no_line) = nth i (map gl_line l) (gl_line no_line)) by (intros l; symmetry; apply map_nth).
    rewrite !E, H. reflexivity.
  Qed.
  Lemma words_of_seq pre ls post : flat_map (words_of (pre ++ ls ++ post)) (seq (length pre) (length ls)) = flat_map Lines.l_words (map gl_line ls).
  Proof.
    revert pre. induction ls as [|l ls IH]; intros pre; cbn [length seq flat_map map]; [reflexivity|]. f_equal.
    - unfold words_of. rewrite app_nth2 by lia. rewrite Nat.sub_diag. reflexivity.
    - specialize (IH (pre ++ [l])). rewrite app_length, <- app_assoc in IH. cbn [length] in IH. rewrite Nat.add_1_r in IH. exact IH.
  Qed.
  Lemma place_pages_spec ws ps : forall k r pre post ps' ls, Forall segmented ps ->
    Forall2 (fun segs rp => Permutation (flat_map (LinesSpec.with_parts (word_heap ws)) (flat_map snd segs))
                                        (flat_map Lines.l_words (LinesSpec.page_lines (fst rp))) /\ length (fst rp) = length segs)
            (map (fun p => map (fun s => (sg_pos s, sg_words s)) (g_segs p)) ps) r ->
    place_pages (length pre) k ps r = (ps', ls) ->
    Forall2 keeps ps ps' /\ Forall (in_lines ws (pre ++ ls ++ post)) ps' /\
    flat_map (fun p => flat_map sg_lines (g_segs p)) ps' = seq (length pre) (length ls).
  Proof.
    induction ps as [|p ps IH]; intros k r pre post ps' ls F D H; destruct r as [|[rp hs] r]; cbn [map] in D; inversion D as [|? ? ? ? D1 D2]; subst; cbn [place_pages] in H.
    - apply pair_equal_spec in H as [<- <-]. repeat split; constructor.
    - inversion F as [|? ? F1 F2]; subst. destruct F1 as (W & NL & NB). cbn [fst] in D1. destruct D1 as [P L]. rewrite map_length in L.
      destruct (place_lines _ k (g_segs p) rp) as [segs l1] eqn:EL. destruct (place_pages _ _ ps r) as [ps1 rest] eqn:ER in H.
      apply pair_equal_spec in H as [<- <-]. destruct (place_lines_spec _ _ _ _ _ _ L NL EL) as [SI SL].
      pose proof (page_glines_spec (length pre) hs l1) as GL. set (g := page_glines (length pre) hs l1) in *.
      assert (LG : length g = length l1) by (rewrite <- (map_length gl_line g), GL, map_length; reflexivity).
      specialize (IH (k + length segs) r (pre ++ g) post ps1 rest F2 D2). rewrite app_length, LG in IH. destruct (IH ER) as (A & B & C).
      split; [constructor; [unfold keeps, set_segs; cbn; repeat split|exact A]|]. split.
      + rewrite <- !app_assoc in *. constructor; [|exact B]. split; [|exact NB]. cbn [set_segs g_words g_segs]. rewrite SI, <- LG, words_of_seq, GL, SL, <- P.
        apply Permutation_flat_map. rewrite W. clear. induction (g_segs p) as [|s l IH]; cbn [map flat_map snd]; [constructor|]. apply Permutation_app_head, IH.
      + cbn [flat_map set_segs g_segs]. rewrite SI, C, app_length, LG, seq_app. reflexivity.
  Qed.
  Definition numbered (d : gdoc) : Prop := segment_line_ids d = seq 0 (length (gd_lines d)).
  Definition inv2 (d : gdoc) : Prop := inv1 cfg qs d /\ Forall (in_lines (gd_words d) (gd_lines d)) (gd_pages d) /\ numbered d.
  Lemma lines_inv d d' : inv1 cfg qs d -> Forall segmented (gd_pages d) -> run_lines m d = Ok d' -> inv2 d'.
  Proof.
    intros I F H. unfold run_lines in H.
    destruct (Lines.detectTextLines _ _ _ _ _ _ _ _ _ _ _) as [r| |] eqn:E; try discriminate. cbn [obind] in H.
    destruct (place_pages 0 0 (gd_pages d) r) as [ps ls] eqn:EP. apply Ok_inj in H. subst d'.
    destruct SANE as (_ & _ & HW & HL & _ & _ & _ & _ & _ & HR & HY).
    apply (detect_words _ _ _ _ _ _ _ _ HW HL HR HY) in E.
    destruct (place_pages_spec (gd_words d) (gd_pages d) 0 r [] [] ps ls F E EP) as (K & B & N). rewrite app_nil_r in B.
    split; [apply (inv1_step cfg qs d); [exact K|reflexivity|exact I]|]. split; [exact B|exact N].
  Qed.

  (** ** From the lines to the blocks *)
  Lemma with_parts_core ws ws' : map core ws = map core ws' -> forall i, LinesSpec.with_parts (word_heap ws) i = LinesSpec.with_parts (word_heap ws') i.
  Proof. intros E i. unfold LinesSpec.with_parts, word_heap. pose proof (core_nth _ _ i E) as C. unfold core in C. injection C. intros _ _ _ _ _ _ _ EP _. intros. 
    assert (P1 : w_partOf (nth i ws no_word) = w_partOf (nth i ws' no_word)) by congruence. assert (P2 : w_parts (nth i ws no_word) = w_parts (nth i ws' no_word)) by congruence.
    rewrite P1, P2. reflexivity. Qed.
  Lemma in_lines_ext ws ws' ls ls' p : map core ws = map core ws' -> map gl_line ls = map gl_line ls' -> in_lines ws ls p -> in_lines ws' ls' p.
  Proof.
    intros E1 E2 [A B]. split; [|exact B]. rewrite <- (flat_map_ext _ _ (with_parts_core _ _ E1)). rewrite A.
    rewrite (flat_map_ext (words_of ls') (words_of ls)); [reflexivity|]. intros i. symmetry. apply words_of_ext, E2.
  Qed.
  Lemma lines1_inv d : inv2 d -> inv2 (fill_lines1 d).
  Proof.
    intros (I & F & N). unfold inv2, fill_lines1. split; [|split].
    - apply (inv1_step cfg qs d); [|reflexivity|exact I]. cbn [set_pages gd_pages]. apply F2_map_r. intros p. unfold keeps, set_textLines. cbn. repeat split.
    - cbn [set_pages gd_pages gd_words gd_lines]. apply Forall_forall. intros p Hp. apply in_map_iff in Hp as (p0 & <- & Hp0). rewrite Forall_forall in F. exact (F p0 Hp0).
    - unfold numbered, segment_line_ids in *. cbn [set_pages gd_pages gd_lines]. rewrite flat_map_concat_map, map_map, <- flat_map_concat_map. exact N.
  Qed.
  Lemma set_box_lines l ls : forall ls0, map gl_line (fold_left set_box (combine l ls) ls0) = map gl_line ls0.
  Proof.
    generalize (combine l ls). induction l0 as [|ib t IH]; intros ls0; cbn [fold_left]; [reflexivity|]. rewrite IH. unfold set_box.
    destruct (nth_error ls0 (fst ib)) as [g|] eqn:E; [|reflexivity]. revert E. generalize (fst ib). intros i. revert ls0.
    induction i as [|i IHi]; intros [|x ls0] E; try discriminate; cbn [nth_error] in E.
    - injection E as ->. reflexivity.
    - cbn [update map]. f_equal. apply IHi, E.
  Qed.
  Lemma plain_mark mf bs c : plain (ScriptsProofs.mark_all mf bs c) = plain c.
  Proof. destruct c. reflexivity. Qed.
  Lemma core_seq h ws : (forall i, core (h i) = core (word_heap ws i)) -> map core (map h (seq 0 (length ws))) = map core ws.
  Proof.
    intros H. rewrite map_map, (map_ext _ _ H), <- (map_map (word_heap ws) core). f_equal. pose proof (nth_part [] ws []) as P. rewrite app_nil_r in P. exact P.
  Qed.
  Lemma scripts_inv d d' : inv2 d -> run_scripts d = Ok d' -> inv2 d'.
  Proof.
    intros (I & F & N) H. unfold run_scripts in H. destruct (Scripts.detectScripts _ _ _) as [h sl] eqn:E. apply Ok_inj in H. subst d'.
    destruct (ScriptsProofs.detect_spec _ _ _ _ _ E) as [HW _].
    assert (EC : map core (map h (seq 0 (length (gd_words d)))) = map core (gd_words d)).
    { apply core_seq. intros i. rewrite HW. unfold ScriptsProofs.mark_all_word, Scripts.set_chars, core. cbn [w_id w_rank w_pos w_text w_fontName w_fontSize w_chars w_partOf w_parts].
      rewrite map_map. rewrite (map_ext _ plain) by (intros c; apply plain_mark). reflexivity. }
    assert (EL : map gl_line (fold_left set_box (combine (segment_line_ids d) (map Scripts.sl_box sl)) (gd_lines d)) = map gl_line (gd_lines d)) by apply set_box_lines.
    unfold inv2. split; [|split].
    - apply (inv1_step cfg qs d); [cbn [gd_pages]; apply F2_refl, keeps_refl|symmetry; exact EC|exact I].
    - cbn [gd_pages gd_words gd_lines]. apply Forall_forall. intros p Hp. rewrite Forall_forall in F. apply (in_lines_ext (gd_words d) _ (gd_lines d)); [symmetry; exact EC|symmetry; exact EL|exact (F p Hp)].
    - unfold numbered, segment_line_ids in *. cbn [gd_pages gd_lines]. apply (f_equal (@length _)) in EL. rewrite !map_length in EL. rewrite EL. exact N.
  Qed.

  (** ** The blocks *)
  Definition in_blocks (ws : list word) (p : gpage) : Prop :=
    Permutation (flat_map (LinesSpec.with_parts (word_heap ws)) (g_words p)) (flat_map (fun b => concat (b_lines b)) (g_blocks p)).
  Definition inv3 (d : gdoc) : Prop := inv1 cfg qs d /\ Forall (in_blocks (gd_words d)) (gd_pages d).
  Lemma blocks_inv d d' : inv2 d -> run_blocks m d = Ok d' -> inv3 d'.
  Proof.
    intros (I & F & N) H. unfold run_blocks in H.
    destruct (Blocks.detectTextBlocks _ _ _ _ _ _ _ _ _) as [[[pre fin] lh]| |] eqn:E; try discriminate. cbn [obind] in H. apply Ok_inj in H. subst d'.
    destruct SANE as (_ & _ & _ & _ & _ & _ & HS & HD & _).
    assert (ND : NoDup (concat (map (@concat nat) (map (fun p => map sg_lines (g_segs p)) (gd_pages d))))).
    { unfold numbered, segment_line_ids in N. rewrite map_map. replace (concat _) with (flat_map (fun p => flat_map sg_lines (g_segs p)) (gd_pages d)); [rewrite N; apply seq_NoDup|].
      rewrite flat_map_concat_map. f_equal. apply map_ext. intros p. apply flat_map_concat_map. }
    destruct (PropsBlocks.C33_partition _ _ _ _ _ _ _ _ _ _ _ _ HS HD ND E) as (_ & PT & _).
    destruct (PropsBlocks.C33_lines _ _ _ _ _ _ _ _ _ _ _ _ HS HD ND E) as (SC & _). clear E.
    assert (WD : forall l, Blocks.bl_words (lh l) = words_of (gd_lines d) l) by (intros l; destruct (SC l) as (_ & _ & _ & _ & _ & W & _); rewrite W; reflexivity).
    apply F2_map_l in PT. unfold inv3. cbn [gd_pages gd_words].
    assert (K : Forall2 (fun p p' => keeps p p' /\ (in_lines (gd_words d) (gd_lines d) p -> in_blocks (gd_words d) p')) (gd_pages d)
                  (map (fun '(p, bs) => set_blocks (g_blocks p ++ map (new_block m lh (g_num p)) bs) p) (combine (gd_pages d) fin))).
    { clear F N ND I. induction PT as [|p bs l l' H _ IH]; cbn [combine map]; constructor; [|exact IH]. split; [unfold keeps, set_blocks; cbn; repeat split|].
      intros [A B]. unfold in_blocks, set_blocks. cbn [g_words g_blocks]. rewrite B, A. cbn [app].
      rewrite (flat_map_concat_map sg_lines), <- H. clear -WD. induction bs as [|b bs IH]; cbn [map concat flat_map new_block b_lines]; [constructor|].
      rewrite flat_map_app. apply Permutation_app; [|exact IH]. rewrite flat_map_concat_map. rewrite (map_ext _ _ WD). reflexivity. }
    split.
    - apply (inv1_step cfg qs d); [exact (F2_imp _ _ _ _ (fun x y H => proj1 H) K)|reflexivity|exact I].
    - clear -K F. induction K as [|p p' l l' [_ H] _ IH]; inversion F; subst; constructor; auto.
  Qed.

  (** ** The reading order and the dehyphenation *)
  Lemma assign_length data y : forall n i rs, Roles.assign_roles data y n i = Ok rs -> length rs = n.
  Proof.
    induction n as [|n IH]; intros i rs H; cbn [Roles.assign_roles] in H; [apply Ok_inj in H; subst; reflexivity|].
    destruct (Roles.best_loop _ _ _ _ _) as [r| |]; try discriminate. cbn [obind] in H. destruct (Roles.assign_roles _ _ n _) as [rs1| |] eqn:E; try discriminate.
    cbn [obind] in H. apply Ok_inj in H. subst rs. cbn [length]. f_equal. exact (IH _ _ E).
  Qed.
  Lemma predict_length fb infos net fuel bpe roles p pages rs : from_run (option_map fst (Roles.predict fb infos net fuel bpe roles p pages)) = Ok rs ->
    length rs = length (concat (map Roles.rp_blocks pages)).
  Proof.
    unfold Roles.predict. destruct (if Roles.p_modelOk p then _ else _) as [[[u| |] p1]|]; cbn [option_map from_run fst]; try discriminate.
    destruct (Roles.layout_tensor _ _) as [lay| |]; cbn [option_map from_run fst]; try discriminate.
    destruct (Roles.words_tensor _ _ _) as [[wt| |]|]; cbn [option_map from_run fst]; try discriminate.
    destruct (net lay wt) as [data y]. cbn [option_map from_run fst]. apply assign_length.
  Qed.
  Definition lines_of (p : gpage) : list (list line) := map b_lines (g_blocks p).
  Lemma set_roles_lines ps : forall rs, length rs = length (concat (map g_blocks ps)) ->
    Forall2 (fun p p' => keeps p p' /\ lines_of p' = lines_of p) ps (set_roles rs ps).
  Proof.
    induction ps as [|p ps IH]; intros rs L; cbn [set_roles]; [constructor|]. cbn [map concat] in L. rewrite app_length in L. constructor.
    - split; [unfold keeps, set_blocks; cbn; repeat split|]. unfold lines_of, set_blocks. cbn [g_blocks]. rewrite map_map.
      assert (LE : length (g_blocks p) <= length rs) by lia. clear L IH. revert rs LE. induction (g_blocks p) as [|b bs IHb]; intros [|r rs] LE; cbn [length] in LE; try lia; cbn [combine map]; try reflexivity.
      f_equal. apply IHb. lia.
    - apply IH. rewrite skipn_length. lia.
  Qed.
  Lemma blocks_flat p : flat_map (fun b => concat (b_lines b)) (g_blocks p) = concat (concat (lines_of p)).
  Proof. unfold lines_of. induction (g_blocks p) as [|b bs IH]; cbn [flat_map map concat]; [reflexivity|]. rewrite concat_app, IH. reflexivity. Qed.
  Lemma flat_blocks bs : flat_map (fun b => concat (b_lines b)) bs = concat (map (@concat nat) (map b_lines bs)).
  Proof. induction bs as [|b bs IH]; cbn [flat_map map concat]; [reflexivity|]. rewrite IH. reflexivity. Qed.
  Lemma readingOrder_inv d d' : inv3 d -> run_readingOrder m d = Ok d' -> inv3 d'.
  Proof.
    intros (I & F) H. unfold run_readingOrder in H.
    destruct (from_run (option_map fst _)) as [rs| |] eqn:ER; try discriminate. cbn [obind] in H.
    destruct (from_run (ReadingOrder.order_pages _ _ _ _ _)) as [os| |] eqn:EO; try discriminate. cbn [obind] in H. apply Ok_inj in H. subst d'.
    apply predict_length in ER. rewrite map_map in ER. unfold role_page in ER. cbn [Roles.rp_blocks] in ER.
    assert (LR : length rs = length (concat (map g_blocks (gd_pages d)))).
    { rewrite ER. clear. induction (gd_pages d) as [|p ps IH]; cbn [map concat]; [reflexivity|]. rewrite !app_length, map_length, IH. reflexivity. }
    pose proof (set_roles_lines (gd_pages d) rs LR) as R. set (ps := set_roles rs (gd_pages d)) in *.
    destruct (ReadingOrder.order_pages _ _ _ _ _) as [[os1| |]|] eqn:EO1; cbn [from_run] in EO; try discriminate. apply Ok_inj in EO. subst os1.
    destruct SANE as (_ & _ & _ & _ & HS & HT & _).
    destruct (PropsSegmentation.C32_pagewise _ _ _ _ HS HT _ _ EO1) as [LO PO]. rewrite map_length in LO.
    assert (O : Forall2 (fun p p' => keeps p p' /\ Permutation (g_blocks p) (g_blocks p')) ps (map (fun '(p, q) => set_blocks (p_blocks q) p) (combine ps os))).
    { clear -LO PO. revert os LO PO. induction ps as [|p ps IH]; intros [|o os] LO PO; try discriminate; cbn [combine map]; constructor.
      - split; [unfold keeps, set_blocks; cbn; repeat split|]. cbn [set_blocks g_blocks]. apply (PO 0 (doc_page m p) o); reflexivity.
      - apply IH; [injection LO; auto|]. intros i a b. exact (PO (S i) a b). }
    assert (K : Forall2 (fun p p' => keeps p p' /\ Permutation (flat_map (fun b => concat (b_lines b)) (g_blocks p)) (flat_map (fun b => concat (b_lines b)) (g_blocks p')))
                  (gd_pages d) (map (fun '(p, q) => set_blocks (p_blocks q) p) (combine ps os))).
    { refine (F2_comp _ _ _ _ _ R _ _ O). intros p p1 p2 [K1 E1] [K2 E2]. split.
      - destruct K1 as (a & b & c & e & f & g & h), K2 as (a' & b' & c' & e' & f' & g' & h'). unfold keeps. rewrite a', b', c', e', f', g', h'. repeat (split; [assumption|]). assumption.
      - transitivity (flat_map (fun b => concat (b_lines b)) (g_blocks p1)); [|apply Permutation_flat_map, E2].
        rewrite !flat_blocks. fold (lines_of p1) (lines_of p). rewrite E1. reflexivity. }
    split.
    - apply (inv1_step cfg qs d); [exact (F2_imp _ _ _ _ (fun x y H => proj1 H) K)|reflexivity|exact I].
    - cbn [set_pages gd_pages gd_words]. apply (F2_Forall _ _ _ _ _ K F). intros p p' [(_ & _ & _ & _ & _ & _ & W) P] B. unfold in_blocks in *. rewrite W, B. exact P.
  Qed.
  Lemma dehyphenation_inv d d' : inv3 d -> run_dehyphenation m d = Ok d' -> inv3 d'.
  Proof.
    intros (I & F) H. unfold run_dehyphenation in H. apply Ok_inj in H. subst d'. set (h := Dehyphenation.dehyphenate _ _).
    assert (EC : map core (map h (seq 0 (length (gd_words d)))) = map core (gd_words d)).
    { apply core_seq. intros i. unfold h. rewrite DehyphenationProofs.dehyph_pairs.
      pose proof (DehyphenationProofs.marks_same (DehyphenationProofs.pairs (word_heap (gd_words d)) (SerializationSpec.text_lines (the_document m d))) (word_heap (gd_words d)) i) as S0.
      apply (f_equal core) in S0. symmetry. exact S0. }
    split.
    - apply (inv1_step cfg qs d); [cbn [gd_pages]; apply F2_refl, keeps_refl|symmetry; exact EC|exact I].
    - cbn [gd_pages gd_words]. apply Forall_forall. intros p Hp. rewrite Forall_forall in F. specialize (F p Hp). unfold in_blocks in *.
      rewrite (flat_map_ext _ _ (with_parts_core _ _ EC)). exact F.
  Qed.
  Lemma lines2_inv d : inv3 d -> inv3 (fill_lines2 d).
  Proof.
    intros (I & F). split.
    - apply (inv1_step cfg qs d); [|reflexivity|exact I]. cbn [fill_lines2 set_pages gd_pages]. apply F2_map_r. intros p. unfold keeps, set_textLines. cbn. repeat split.
    - cbn [fill_lines2 set_pages gd_pages gd_words]. apply Forall_forall. intros p Hp. apply in_map_iff in Hp as (p0 & <- & Hp0). rewrite Forall_forall in F. exact (F p0 Hp0).
  Qed.
End Whole.
