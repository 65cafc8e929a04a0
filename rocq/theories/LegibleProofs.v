(** LegibleProofs.v - proofs for C72_characters. *)
From Coq Require Import ZArith NArith Permutation.
From Verif Require Import Base Double DoubleFacts MathUtils Elements Sort XYCut GeometrySpec Document Pipeline PipelineSpec PipelineLines PipelineProofs PipelineWords PipelineWhole
  TotalSpec LegibleSpec LinesSpec ContentSpec.
From Verif Require Fonts Parsing Words WordsSpec Roles RolesSpec RolesProofs Cli PropsWords PropsRoles PropsFonts PropsTotal PropsPipeline PropsContent PipelineAccents PipelineContent PipelineStages DiacriticsSpec TotalWhole TotalPos.
Local Opaque TOL dadd dsub ddiv dmul dec DBL_MAX DBL_MIN.

(** ** The layout input is defined *)
Section Layout.
  Context (from : str -> option (list N)) (fonts : str -> option (Z * bool)).
  Definition seen (b : Roles.rblock) : Prop :=
    (exists i, fonts (Roles.rb_fontName b) = Some i) /\ (exists t, from (Roles.rb_text b) = Some t) /\
    forall s, In s (Roles.rb_words b) -> exists t, from s = Some t /\ match t with c :: _ => (c < 256)%N | [] => True end.
  Lemma upper_defined ws : (forall s, In s ws -> exists t, from s = Some t /\ match t with c :: _ => (c < 256)%N | [] => True end) ->
    exists r, Roles.count_upper_words from ws = Ok r.
  Proof.
    induction ws as [|w ws IH]; intros H; cbn [Roles.count_upper_words]; [eexists; reflexivity|].
    destruct (H w (or_introl eq_refl)) as (t & E & F). unfold Roles.convert. rewrite E. cbn [obind].
    destruct (IH (fun s Hs => H s (or_intror Hs))) as ([n k] & ER).
    assert (U : exists u, (match t with c :: _ => Roles.isupper c | [] => Ok false end) = Ok u).
    { destruct t as [|c t]; [eexists; reflexivity|]. unfold Roles.isupper. rewrite (proj2 (N.ltb_lt _ _) F). eexists. reflexivity. }
    destruct U as [u EU]. rewrite EU. cbn [obind]. rewrite ER. cbn [obind]. eexists. reflexivity.
  Qed.
  Lemma features_defined n range p b : seen b -> exists v, Roles.block_features from fonts n range p b = Ok v.
  Proof.
    intros ((i & EF) & (t & ET) & W). unfold Roles.block_features. destruct range as [mn mx]. unfold Roles.fontInfo_at. rewrite EF. cbn [obind]. destruct i as [we it].
    unfold Roles.convert. rewrite ET. cbn [obind]. destruct (upper_defined _ W) as ([x y] & EU). rewrite EU. cbn [obind]. eexists. reflexivity.
  Qed.
  Lemma concat_defined {A} (l : list (outcome (list A))) : (forall o, In o l -> exists v, o = Ok v) -> exists v, Roles.concat_outcomes l = Ok v.
  Proof.
    induction l as [|o l IH]; intros H; cbn [Roles.concat_outcomes]; [eexists; reflexivity|].
    destruct (H o (or_introl eq_refl)) as (v & ->). cbn [obind]. destruct (IH (fun x Hx => H x (or_intror Hx))) as (r & ->). cbn [obind]. eexists. reflexivity.
  Qed.
  Lemma layout_defined pages : (forall p b, In p pages -> In b (Roles.rp_blocks p) -> seen b) ->
    exists vs, Roles.layout_tensor from fonts pages = Ok (vs, (Z.of_nat (length (concat (map Roles.rp_blocks pages))), 15%Z)).
  Proof.
    intros H. unfold Roles.layout_tensor. cbv zeta.
    match goal with |- context [Roles.concat_outcomes ?l] => destruct (concat_defined l) as (v & E) end.
    { intros o Ho. apply in_concat in Ho as (x & Hx & Ho). apply in_map_iff in Hx as (p & <- & Hp). apply in_map_iff in Ho as (b & <- & Hb).
      apply features_defined. exact (H p b Hp Hb). }
    rewrite E. cbn [obind]. eexists. reflexivity.
  Qed.
End Layout.

(** ** Decoding *)
Section Decode.
  Context (from : str -> option (list N)) (PW : piecewise from).
  Lemma readable_concat k ss : (forall s, In s ss -> readable from k s) -> readable from (k * length ss) (concat ss).
  Proof.
    destruct PW as (P1 & _ & P3). induction ss as [|s ss IH]; intros H; cbn [concat length].
    - exists []. split; [exact P1|]. split; [cbn; lia|exact I].
    - destruct (H s (or_introl eq_refl)) as (t & E & L & F). destruct (IH (fun x Hx => H x (or_intror Hx))) as (t' & E' & L' & F').
      exists (t ++ t'). split; [exact (P3 _ _ _ _ E E')|]. split; [rewrite app_length; lia|]. destruct t as [|c t]; [exact F'|exact F].
  Qed.
  Definition size_le (n : nat) (s : str) : Prop := exists t, from s = Some t /\ length t <= n.
  Lemma size_mono n n' s : n <= n' -> size_le n s -> size_le n' s.
  Proof. intros L (t & E & H). exists t. split; [exact E|lia]. Qed.
  Lemma size_blank {A} (f : A -> nat) (g : A -> str) l : (forall x, In x l -> size_le (f x) (g x)) ->
    size_le (list_sum (map (fun x => f x + 1) l)) (blank_separated (map g l)).
  Proof.
    destruct PW as (P1 & P2 & P3). induction l as [|x l IH]; intros H; cbn [map blank_separated list_sum fold_right].
    - exists []. split; [exact P1|cbn; lia].
    - destruct (H x (or_introl eq_refl)) as (t & E & L). specialize (IH (fun y Hy => H y (or_intror Hy))).
      destruct l as [|y l]; cbn [map].
      + exists t. split; [exact E|]. cbn. lia.
      + destruct IH as (t' & E' & L'). cbn [map] in E', L'. exists (t ++ [32%N] ++ t'). split.
        * apply P3; [exact E|]. apply P3; [exact P2|exact E'].
        * rewrite !app_length. unfold list_sum in L'. cbn [length fold_right] in *. lia.
  Qed.
End Decode.

(** ** Counting the characters of blocks *)
Lemma sum_app l l' : list_sum (l ++ l') = list_sum l + list_sum l'.
Proof. unfold list_sum. induction l as [|x l IH]; cbn [app fold_right]; lia. Qed.
Lemma sum_perm l l' : Permutation l l' -> list_sum l = list_sum l'.
Proof. unfold list_sum. induction 1; cbn [fold_right]; lia. Qed.
Lemma sum_incl (f : nat -> nat) l l' : NoDup l -> incl l l' -> list_sum (map f l) <= list_sum (map f l').
Proof.
  revert l'. induction l as [|x l IH]; intros l' ND IN; [unfold list_sum; cbn; lia|]. inversion ND as [|? ? NX ND']; subst.
  destruct (in_split x l' (IN x (or_introl eq_refl))) as (a & b & ->).
  assert (IN' : incl l (a ++ b)).
  { intros y Hy. pose proof (IN y (or_intror Hy)) as X. apply in_app_or in X as [X|[X|X]]; [apply in_or_app; left; exact X|subst; contradiction|apply in_or_app; right; exact X]. }
  specialize (IH _ ND' IN'). rewrite !map_app in *. cbn [map]. rewrite sum_app in *. unfold list_sum in *. cbn [fold_right]. lia.
Qed.
Lemma sum_mult (f : nat -> nat) (g : nat -> list nat) l M : (forall x, In x l -> list_sum (map f (g x)) <= f x + M) ->
  list_sum (map f (flat_map g l)) <= list_sum (map f l) + length l * M.
Proof.
  induction l as [|x l IH]; intros H; cbn [flat_map length map]; [unfold list_sum; cbn; lia|]. rewrite map_app, sum_app. change (list_sum (f x :: map f l)) with (f x + list_sum (map f l)).
  specialize (H x (or_introl eq_refl)) as H1. specialize (IH (fun y Hy => H y (or_intror Hy))). lia.
Qed.
Lemma sum_length {A} (f : nat -> list A) l : list_sum (map (fun i => length (f i)) l) = length (flat_map f l).
Proof. induction l as [|x l IH]; cbn [map flat_map]; [reflexivity|]. rewrite app_length, <- IH. unfold list_sum. cbn [fold_right]. lia. Qed.
Lemma sum_ones (f : nat -> nat) l : (forall x, In x l -> 1 <= f x) -> length l <= list_sum (map f l).
Proof. unfold list_sum. induction l as [|x l IH]; intros H; cbn [length map fold_right]; [lia|]. specialize (IH (fun y Hy => H y (or_intror Hy))). specialize (H x (or_introl eq_refl)). lia. Qed.
Lemma sum_le {A} (f g : A -> nat) l : (forall x, In x l -> f x <= g x) -> list_sum (map f l) <= list_sum (map g l).
Proof. unfold list_sum. induction l as [|x l IH]; intros H; cbn [map fold_right]; [lia|]. specialize (IH (fun y Hy => H y (or_intror Hy))). specialize (H x (or_introl eq_refl)). lia. Qed.
Lemma sum_concat (f : nat -> nat) ls : list_sum (map (fun l => list_sum (map f l)) ls) = list_sum (map f (concat ls)).
Proof. induction ls as [|l ls IH]; cbn [map concat]; [reflexivity|]. rewrite map_app, sum_app, <- IH. reflexivity. Qed.

(** ** No word refers to the same part twice *)
Definition distinct_parts (d : gdoc) : Prop := Forall (fun w => NoDup (w_parts w)) (gd_words d).
Lemma distinct_core d d' : map core (gd_words d) = map core (gd_words d') -> distinct_parts d -> distinct_parts d'.
Proof.
  unfold distinct_parts. rewrite !Forall_forall. intros E H w Hw. apply (in_map core) in Hw. rewrite <- E in Hw. apply in_map_iff in Hw as (w0 & EC & Hw). specialize (H w0 Hw).
  pose proof (f_equal w_parts EC) as EP. cbn [core w_parts] in EP. rewrite <- EP. exact H.
Qed.
Lemma place_distinct ps : forall k wss, Forall (Forall (fun w => NoDup (w_parts w))) wss -> Forall (fun w => NoDup (w_parts w)) (snd (place_words k ps wss)).
Proof.
  induction ps as [|p ps IH]; intros k [|ws wss] F; cbn [place_words]; try (constructor; fail).
  destruct (place_words _ ps wss) as [ps' rest] eqn:E. cbn [snd]. inversion F as [|? ? F1 F2]; subst. apply Forall_app. split.
  - apply Forall_forall. intros w Hw. apply in_map_iff in Hw as (w0 & <- & Hw). cbn [shift_word w_parts]. rewrite Forall_forall in F1. specialize (F1 w0 Hw).
    apply FinFun.Injective_map_NoDup; [intros a b X; lia|exact F1].
  - specialize (IH (k + length ws) wss F2). rewrite E in IH. exact IH.
Qed.
Lemma words_distinct m cfg d d' : sane m -> run_words m cfg d = Ok d' -> distinct_parts d'.
Proof.
  intros SA H. unfold run_words in H. destruct (omap _ (gd_pages d)) as [wss| |] eqn:E; try discriminate. cbn [obind] in H.
  match type of H with context [place_words ?k ?ps ?w] => pose proof (place_distinct ps k w) as K end.
  destruct (place_words _ _ _) as [ps ws]. apply Ok_inj in H. subst d'. unfold distinct_parts. cbn [gd_words snd] in *. apply K. clear K.
  apply omap_F2 in E. destruct SA as (_ & _ & _ & _ & _ & _ & HS & HD & _). apply Forall_forall. intros ws' Hw. apply in_map_iff in Hw as (ws0 & <- & Hw).
  destruct (TotalWhole.F2_in_r _ _ _ _ E Hw) as (p & Hp & EW). cbv beta in EW.
  destruct (PropsWords.C22_words_partition (m_ordS m) (m_ordD m) (m_wordId m (g_num p)) cfg (g_num p) [] (g_chars p) HS HD) as (ws1 & E1 & _ & W & _).
  cbn [app] in E1. rewrite EW in E1. apply Ok_inj in E1. subst ws1.
  assert (NP : forall w, In w ws0 -> w_parts w = [] /\ w_partOf w = None).
  { intros w Iw. destruct (W w Iw) as (_ & WO). unfold WordsSpec.word_of in WO. tauto. }
  destruct (PropsWords.C24_relation cfg ws0 NP) as [L R]. apply Forall_forall. intros w Iw. destruct (In_nth_error _ _ Iw) as [i Ei].
  destruct (nth_error ws0 i) as [w0|] eqn:E0; [|apply nth_error_None in E0; assert (i < length (Words.mergeStackedMathSymbols cfg ws0)) by (apply nth_error_Some; congruence); lia].
  destruct (R _ _ E0) as (w' & E' & _ & _ & A3 & _). assert (w' = w) by congruence. subst w'.
  destruct A3 as [-> | (a & x & La & Lx & ->)]; [constructor|]. apply seq_rev_nodup. lia.
Qed.

Lemma modules_distinct m cfg es x d d' : sane m -> x <> Cli.MParsing -> distinct_parts d -> run_module m cfg es x d = Ok d' -> distinct_parts d'.
Proof.
  intros SA NP I H. destruct x; cbn [run_module] in H; try congruence.
  all: try (exact (words_distinct m cfg d d' SA H)).
  all: try (destruct (PipelineStages.core_scripts _ _ H) as (E & _); exact (distinct_core _ _ E I)).
  all: try (destruct (PipelineContent.dehyph_core _ _ _ H) as (E & _); exact (distinct_core _ _ E I)).
  all: unfold run_glyphStats, run_diacritics, run_wordStats, run_segmentation, run_lines, run_lineStats, run_blocks, run_readingOrder in H; cbv zeta in H;
    repeat match type of H with obind ?a _ = _ => let E := fresh in destruct a eqn:E; try discriminate; cbn [obind] in H end;
    repeat match type of H with context [let '(_, _) := ?a in _] => destruct a end;
    apply Ok_inj in H; subst d'; exact I.
Qed.
Lemma final_distinct m cfg c es code d : sane m -> process_pdf m cfg c es = Ok (code, d) -> distinct_parts d.
Proof.
  intros SA H. unfold process_pdf in H. revert H. apply (PropsContent.process_keeps (fun d => distinct_parts d)).
  - intros s1 E. cbn [run_module] in E. unfold run_parsing in E. destruct (Parsing.parse_events _ _ _ _ _ es); try discriminate. cbn [obind] in E. apply Ok_inj in E. subst s1. constructor.
  - intros x s1 s2 N I E. exact (modules_distinct _ _ _ _ _ _ SA N I E).
  - intros s1 I. exact I.
  - intros s1 I. exact I.
Qed.

(** ** The fonts of the characters are fonts of the document *)
Definition all_known (p : Parsing.parser) : Prop :=
  (forall n f, In (n, f) (Parsing.pr_fonts p) -> Fonts.f_name f = n) /\
  (forall f, Parsing.pr_font p = Some f -> In (Fonts.f_name f) (map fst (Parsing.pr_fonts p))) /\
  (forall q c, In q (Parsing.pages p) -> In c (Parsing.pp_chars q) -> In (c_fontName c) (map fst (Parsing.pr_fonts p))).
Lemma find_font_in n l f : Parsing.find_font n l = Some f -> In (n, f) l.
Proof.
  unfold Parsing.find_font. destruct (find _ l) as [[n' f']|] eqn:E; [|discriminate]. cbn [option_map snd]. intros [= <-]. apply find_some in E as [I E]. cbn [fst] in E. apply str_eqb_eq in E. subst n'. exact I.
Qed.
Lemma store_known k mk p p' : Parsing.store k mk p = Ok p' -> all_known p ->
  (forall n r c, mk n r = Parsing.IChar c -> In (c_fontName c) (map fst (Parsing.pr_fonts p))) -> all_known p'.
Proof.
  intros H (A & B & C) Hm. unfold Parsing.store in H. destruct (Parsing.pr_page p) as [q|] eqn:E; [|discriminate]. destruct (_ =? _)%Z; [discriminate|]. apply Ok_inj in H. subst p'.
  unfold all_known, Parsing.pages in *. cbn [Parsing.pr_done Parsing.pr_page Parsing.pr_fonts Parsing.pr_font]. rewrite E in C. split; [exact A|]. split; [exact B|].
  intros q' c Hq Hc. apply in_app_iff in Hq as [Hq|[<-|[]]]; [apply (C q' c); [apply in_or_app; left; exact Hq|exact Hc]|].
  assert (Cq : forall c, In c (Parsing.pp_chars q) -> In (c_fontName c) (map fst (Parsing.pr_fonts p))) by (intros c0 H0; apply (C q c0); [apply in_or_app; right; left; reflexivity|exact H0]).
  unfold Parsing.place in Hc. destruct (Parsing.same_clip _ _); [|destruct (Parsing.add_figures _ _ _); exact (Cq c Hc)].
  destruct (mk (Parsing.pp_num q) (Parsing.pr_num p)) as [c1|e|e] eqn:EM; cbn [Parsing.add_page Parsing.pp_chars Parsing.opt_char] in Hc; [|rewrite app_nil_r in Hc; exact (Cq c Hc)..].
  apply in_app_iff in Hc as [Hc|[<-|[]]]; [exact (Cq c Hc)|]. exact (Hm _ _ _ EM).
Qed.
Lemma parse_known m es : reads_fonts m -> forall p p',
  Parsing.handle_all (m_parseFont m) (m_mapUnicode m) (m_fromBytes m) (m_iswspace m) (m_charId m) es p = Ok p' -> all_known p -> all_known p'.
Proof.
  intros RF. induction es as [|e es IH]; intros p p' H F; cbn [Parsing.handle_all] in H; [apply Ok_inj in H; subst; exact F|].
  destruct (Parsing.handle _ _ _ _ _ p e) as [p1| |] eqn:E; try discriminate. cbn [obind] in H. apply (IH p1 p' H). clear IH H.
  destruct e as [num s| |s|s code nB u uL|s|s|s]; cbn [Parsing.handle] in E.
  - apply Ok_inj in E. subst p1. destruct F as (A & B & C). unfold Parsing.start_page, all_known, Parsing.pages at 1. cbn [Parsing.pr_done Parsing.pr_page Parsing.pr_fonts Parsing.pr_font].
    split; [exact A|]. split; [exact B|]. intros q c Hq Hc. apply in_app_iff in Hq as [Hq|[<-|[]]]; [exact (C q c Hq Hc)|destruct Hc].
  - apply Ok_inj in E. subst p1. exact F.
  - destruct F as (A & B & C). unfold Parsing.update_font in E. destruct (Parsing.s_font s) as [f|]; [|apply Ok_inj in E; subst p1; split; [exact A|split; [discriminate|exact C]]].
    destruct (Parsing.find_font _ _) as [i|] eqn:EF.
    + apply Ok_inj in E. subst p1. split; [exact A|]. split; [|exact C]. cbn [Parsing.pr_font Parsing.pr_fonts]. intros f0 [= <-]. apply find_font_in in EF. rewrite (A _ _ EF). exact (in_map fst _ _ EF).
    + destruct (m_parseFont m (Parsing.pf_info f)) as [i| |] eqn:EP; try discriminate. cbn [obind] in E. apply Ok_inj in E. subst p1.
      destruct (RF _ _ EP) as (sd & w & fu & em & PF). destruct (PropsFonts.C50_names _ _ _ _ _ _ PF) as (NM & _). change (Fonts.f_name i = Parsing.font_key f) in NM.
      unfold all_known, Parsing.pages. cbn [Parsing.pr_done Parsing.pr_page Parsing.pr_fonts Parsing.pr_font]. rewrite map_app. cbn [map fst]. split; [|split].
      * intros n f0 Hn. apply in_app_iff in Hn as [Hn|[Hn|[]]]; [exact (A _ _ Hn)|]. apply pair_equal_spec in Hn as [<- <-]. exact NM.
      * intros f0 [= <-]. rewrite NM. apply in_or_app. right. left. reflexivity.
      * intros q c Hq Hc. apply in_or_app. left. exact (C q c Hq Hc).
  - unfold Parsing.draw_char in E. destruct (Parsing.pr_font p) as [i|] eqn:EI; [|apply Ok_inj in E; subst p1; exact F].
    destruct (Parsing.char_text _ _ _ _) as [[text us]| |]; try discriminate. cbn [obind] in E.
    destruct (Parsing.is_blank _ _ _) as [[]| |]; try discriminate; cbn [obind] in E; [apply Ok_inj in E; subst p1; exact F|].
    destruct (Parsing.s_font s) as [pf|]; [|discriminate].
    destruct (Parsing.char_width _ _ _) as [w| |]; try discriminate. cbn [obind] in E. apply (store_known _ _ _ _ E F).
    intros n r c. destruct (Parsing.char_position _ _ _ _ _ _) as [pos base]. intros [= <-]. cbn [c_fontName]. exact (proj1 (proj2 F) i EI).
  - unfold Parsing.stroke in E. destruct (fold_left _ _ _) as [[[l u] r] d]. apply (store_known _ _ _ _ E F). intros n k c. discriminate.
  - unfold Parsing.stroke in E. destruct (fold_left _ _ _) as [[[l u] r] d]. apply (store_known _ _ _ _ E F). intros n k c. discriminate.
  - unfold Parsing.draw_graphic in E. destruct (Parsing.outside _ _ _ _ _); [apply Ok_inj in E; subst p1; exact F|]. apply (store_known _ _ _ _ E F). intros n k c. discriminate.
Qed.
Lemma parsed_known m es r : reads_fonts m -> Parsing.parse_events (m_parseFont m) (m_mapUnicode m) (m_fromBytes m) (m_iswspace m) (m_charId m) es = Ok r ->
  forall q c, In q (Parsing.pages r) -> In c (Parsing.pp_chars q) -> In (c_fontName c) (map fst (Parsing.pr_fonts r)).
Proof.
  intros RF H. apply (parse_known m es RF _ _ H). split; [intros n f []|]. split; [discriminate|]. intros q c [].
Qed.
Definition legible_in (m : machine) (fonts : list str) (k : nat) (q : Parsing.ppage) : Prop :=
  let n := N.of_nat (length (Parsing.pp_chars q)) in
  (n * (n + 1) * (N.of_nat k + 2) < 2 ^ 32 - 1)%N /\
  forall c, In c (Parsing.pp_chars q) ->
    readable (m_fromBytes m) k (c_text c) /\ In (c_fontName c) fonts /\ is_nan_d (c_base c) = false /\
    forall mk u, In mk (Parsing.pp_chars q) -> DiacriticsSpec.is_mark mk u -> readable (m_fromBytes m) k (m_compose m (c_unicodes c ++ [u])).
Lemma legible_known m es r k : reads_fonts m -> Parsing.parse_events (m_parseFont m) (m_mapUnicode m) (m_fromBytes m) (m_iswspace m) (m_charId m) es = Ok r ->
  (forall q, In q (Parsing.pages r) -> legible m k q) -> forall q, In q (Parsing.pages r) -> legible_in m (map fst (Parsing.pr_fonts r)) k q.
Proof.
  intros RF EP LG q Hq. destruct (LG q Hq) as [A B]. split; [exact A|]. intros c Hc. destruct (B c Hc) as (B1 & B2 & B3). split; [exact B1|]. split; [exact (parsed_known m es r RF EP q c Hq Hc)|]. split; assumption.
Qed.

(** ** The characters of the result *)
Lemma chars_legible m cfg c es code d r fonts k : sane m -> text_enabled c -> process_pdf m cfg c es = Ok (code, d) ->
  Parsing.parse_events (m_parseFont m) (m_mapUnicode m) (m_fromBytes m) (m_iswspace m) (m_charId m) es = Ok r ->
  (forall q, In q (Parsing.pages r) -> legible_in m fonts k q) ->
  forall p, In p (gd_pages d) -> exists q, In q (Parsing.pages r) /\ length (g_chars p) = length (Parsing.pp_chars q) /\
    forall ch, In ch (visible_chars p) -> readable (m_fromBytes m) k (WordsSpec.shown_text ch) /\ In (c_fontName ch) fonts /\ is_nan_d (c_base ch) = false.
Proof.
  intros SA TE H EP LG p Hp. destruct (PipelineAccents.chars_final m cfg c es code d SA TE H) as (r' & EP' & F). assert (ER : Parsing.pages r' = Parsing.pages r) by congruence.
  rewrite ER in F. destruct (TotalWhole.F2_in_r _ _ _ _ F Hp) as (q & Hq & U & ME & MD). exists q. split; [exact Hq|]. destruct (LG q Hq) as [_ LC].
  destruct (Cli.disabled c Cli.MDiacritics).
  - rewrite (MD eq_refl). split; [reflexivity|]. intros ch Hch. unfold visible_chars in Hch. apply filter_In in Hch as [Hch _]. rewrite (MD eq_refl) in Hch.
    destruct (LC ch Hch) as (A & B & C & _). split; [|split; assumption]. unfold WordsSpec.shown_text. rewrite (proj2 (U ch Hch)). exact A.
  - specialize (ME eq_refl). destruct (PropsWords.C21_frame _ _ _ U ME) as [L K]. split; [exact L|]. intros ch Hch. unfold visible_chars in Hch. apply filter_In in Hch as [Hch NM].
    destruct (In_nth_error _ _ Hch) as [i Ei]. destruct (nth_error (Parsing.pp_chars q) i) as [ch0|] eqn:E0; [|apply nth_error_None in E0; assert (i < length (g_chars p)) by (apply nth_error_Some; congruence); lia].
    destruct (K i ch0 ch E0 Ei) as (SG & _ & HM & HN). destruct (LC ch0 (nth_error_In _ _ E0)) as (A & B & C & D).
    destruct SG as (_ & _ & _ & ET & _ & _ & EF & _ & _ & _ & EB & _). rewrite EF, EB. split; [|split; assumption]. unfold WordsSpec.shown_text.
    destruct (c_hasMark ch) as [j|] eqn:EM; [|rewrite ET; exact A].
    destruct (HM j eq_refl) as (mk & mk' & u & X1 & X2 & X3 & X4 & X5). rewrite X5. apply (D mk u); [exact (nth_error_In _ _ X1)|exact X3].
Qed.

(** ** The blocks of the result *)
Lemma plain_in i p d : In i (g_words p) -> map PipelineSpec.plain (flat_map (fun i => w_chars (the_word d i)) (g_words p)) = map PipelineSpec.plain (visible_chars p) ->
  forall ch, In ch (w_chars (the_word d i)) -> exists ch', In ch' (visible_chars p) /\ PipelineSpec.plain ch' = PipelineSpec.plain ch.
Proof.
  intros Hi E ch Hch. assert (X : In (PipelineSpec.plain ch) (map PipelineSpec.plain (visible_chars p))) by (rewrite <- E; apply in_map, in_flat_map; exists i; split; assumption).
  apply in_map_iff in X as (ch' & E' & X). exists ch'. split; assumption.
Qed.
Definition block_seen (m : machine) (d : gdoc) (fonts : list str) (b : block) : Prop :=
  (exists t, m_fromBytes m (b_text b) = Some t /\ (N.of_nat (length t) < 2 ^ 32 - 1)%N) /\ In (b_fontName b) fonts /\
  forall i, In i (concat (b_lines b)) -> exists t, m_fromBytes m (w_text (the_word d i)) = Some t /\ match t with c :: _ => (c < 256)%N | [] => True end.
Lemma blocks_legible m cfg c es code d r fonts k : sane m -> text_enabled c -> process_pdf m cfg c es = Ok (code, d) ->
  Parsing.parse_events (m_parseFont m) (m_mapUnicode m) (m_fromBytes m) (m_iswspace m) (m_charId m) es = Ok r ->
  piecewise (m_fromBytes m) -> (forall q, In q (Parsing.pages r) -> legible_in m fonts k q) ->
  forall p b, In p (gd_pages d) -> In b (g_blocks p) -> (forall ch, In ch (visible_chars p) -> finite_box (c_pos ch) /\ is_nan_d (c_fontSize ch) = false) ->
  block_seen m d fonts b.
Proof.
  intros SA TE H EP PW LG p b Hp Hb FC.
  destruct (chars_legible m cfg c es code d r fonts k SA TE H EP LG p Hp) as (q & Hq & LQ & RC). destruct (LG q Hq) as [NQ _]. rewrite <- LQ in NQ. clear LQ Hq q.
  destruct (PropsPipeline.C52_words m cfg c es code d SA TE H p Hp) as [PB PC].
  destruct (PropsContent.C73_words m cfg c es code d SA TE H) as (ND & WN & WF).
  destruct (PropsContent.C73_blocks m cfg c es code d SA TE H p b Hp Hb) as (NB & TB & IB & FB). specialize (FB (fun ch Hch => proj1 (FC ch Hch))). destruct FB as (LB & _).
  pose proof (PropsContent.C73_fonts m cfg c es code d SA TE H p b Hp Hb (fun ch Hch => proj1 (FC ch Hch))) as FO.
  set (h := the_word d) in *. set (f := fun i => length (w_chars (h i))). set (n := length (g_chars p)) in *.
  (* characters of the words of the page *)
  assert (CW : forall i ch, In i (g_words p) -> In ch (w_chars (h i)) -> readable (m_fromBytes m) k (WordsSpec.shown_text ch) /\ In (c_fontName ch) fonts /\ is_nan_d (c_base ch) = false /\ is_nan_d (c_fontSize ch) = false).
  { intros i ch Hi Hch. destruct (plain_in i p d Hi PC ch Hch) as (ch' & V & E). destruct (RC ch' V) as (A & B & C). destruct (FC ch' V) as [_ D].
    assert (E1 : WordsSpec.shown_text ch' = WordsSpec.shown_text ch).
    { pose proof (f_equal WordsSpec.shown_text E) as X. exact X. }
    assert (E2 : c_fontName ch' = c_fontName ch) by exact (f_equal c_fontName E). assert (E3 : c_base ch' = c_base ch) by exact (f_equal c_base E).
    assert (E4 : c_fontSize ch' = c_fontSize ch) by exact (f_equal c_fontSize E). rewrite E1 in A. rewrite E2 in B. rewrite E3 in C. rewrite E4 in D. tauto. }
  (* the words *)
  assert (WR : forall i, In i (g_words p) -> readable (m_fromBytes m) (k * f i) (w_text (h i))).
  { intros i Hi. destruct (WF p i Hp Hi) as ((ET & _) & _). unfold f. fold h in ET. rewrite ET, <- (map_length WordsSpec.shown_text). apply (readable_concat _ PW).
    intros s Hs. apply in_map_iff in Hs as (ch & <- & Hch). exact (proj1 (CW i ch Hi Hch)). }
  assert (F1 : forall i, In i (g_words p) -> 1 <= f i).
  { intros i Hi. destruct (WF p i Hp Hi) as ((_ & (ch & t & EC & _) & _) & _). unfold f. fold h in EC. rewrite EC. cbn [length]. lia. }
  (* all words of the page together *)
  assert (TN : list_sum (map f (g_words p)) <= n).
  { unfold f. rewrite (sum_length (fun i => w_chars (h i))). apply (f_equal (@length _)) in PC. rewrite !map_length in PC. fold h in PC. rewrite PC.
    unfold visible_chars, n. clear. induction (g_chars p) as [|ch l IH]; cbn [filter length]; [lia|]. destruct (c_markOf ch); cbn [length]; lia. }
  assert (WL : length (g_words p) <= n) by (pose proof (sum_ones f _ F1); lia).
  pose proof (final_distinct m cfg c es code d SA H) as DP. unfold distinct_parts in DP. rewrite Forall_forall in DP.
  assert (IW : forall i, In i (g_words p) -> In (h i) (gd_words d)) by (intros i Hi; unfold h, the_word; apply nth_In, WN; exists p; split; assumption).
  assert (TB2 : list_sum (map f (concat (b_lines b))) <= n * (n + 1)).
  { set (g := fun i => match w_partOf (h i) with Some _ => [] | None => i :: w_parts (h i) end).
    assert (PI : forall j, In j (flat_map g (g_words p)) -> In j (g_words p)).
    { intros j Hj. apply (Permutation_in _ (Permutation_sym PB)) in Hj. apply in_concat in Hj as (l & Hl & Hj). apply in_concat in Hl as (ls & Hls & Hl). apply in_map_iff in Hls as (b' & <- & Hb').
      destruct (PropsContent.C73_blocks m cfg c es code d SA TE H p b' Hp Hb') as (_ & _ & IB' & _). apply IB'. apply in_concat. exists l. split; assumption. }
    assert (X : list_sum (map f (concat (b_lines b))) <= list_sum (map f (flat_map g (g_words p)))).
    { unfold g. rewrite <- (sum_perm _ _ (Permutation_map f PB)). apply in_split in Hb as (b1 & b2 & Eb). rewrite Eb, map_app, concat_app. cbn [map concat]. rewrite !concat_app, !map_app, !sum_app. lia. }
    assert (Y : list_sum (map f (flat_map g (g_words p))) <= list_sum (map f (g_words p)) + length (g_words p) * n); [|nia].
    apply sum_mult. intros x Hx.
    assert (GI : forall j, In j (g x) -> In j (g_words p)) by (intros j Hj; apply PI, in_flat_map; exists x; split; assumption).
    unfold g in *. destruct (w_partOf (h x)); [unfold list_sum; cbn; lia|]. cbn [map]. change (list_sum (f x :: map f (w_parts (h x)))) with (f x + list_sum (map f (w_parts (h x)))).
    pose proof (sum_incl f (w_parts (h x)) (g_words p) (DP _ (IW x Hx)) (fun j Hj => GI j (or_intror Hj))). lia. }
  (* the text *)
  assert (SZ : size_le (m_fromBytes m) (n * (n + 1) * (k + 2)) (b_text b)).
  { unfold text_from_words in TB. fold h in TB. rewrite TB.
    apply (size_mono _ (list_sum (map (fun l => list_sum (map (fun i => k * f i + 1) l) + 1) (b_lines b)))).
    - assert (X : list_sum (map (fun l => list_sum (map (fun i => k * f i + 1) l) + 1) (b_lines b)) <= list_sum (map (fun l => list_sum (map (fun i => (k + 2) * f i) l)) (b_lines b))).
      { apply sum_le. intros l Hl. destruct (LB l Hl) as (NL & _).
        assert (Z : forall l', incl l' l -> list_sum (map (fun i => k * f i + 1) l') + length l' <= list_sum (map (fun i => (k + 2) * f i) l')).
        { induction l' as [|i l' IH]; intros IN; [cbn; lia|]. specialize (IH (fun y Hy => IN y (or_intror Hy))).
          assert (1 <= f i) by (apply F1, IB, in_concat; exists l; split; [exact Hl|apply IN; left; reflexivity]).
          cbn [map length]. unfold list_sum in *. cbn [fold_right]. lia. }
        specialize (Z l (fun y Hy => Hy)). destruct l as [|i l]; [congruence|]. cbn [length] in Z. lia. }
      rewrite (sum_concat (fun i => (k + 2) * f i)) in X.
      assert (Z : forall l, list_sum (map (fun i => (k + 2) * f i) l) = (k + 2) * list_sum (map f l)) by (clear; intros l; unfold list_sum; induction l as [|i l IH]; cbn [map fold_right]; lia).
      rewrite Z in X. nia.
    - apply (size_blank _ PW (fun l => list_sum (map (fun i => k * f i + 1) l)) (fun l => blank_separated (map (fun i => w_text (h i)) l))). intros l Hl.
      apply (size_blank _ PW (fun i => k * f i) (fun i => w_text (h i))). intros i Hi. destruct (WR i) as (t & E & L & _); [apply IB, in_concat; exists l; split; assumption|]. exists t. split; assumption. }
  split; [|split].
  - destruct SZ as (t & E & L). exists t. split; [exact E|]. apply (N.le_lt_trans _ (N.of_nat n * (N.of_nat n + 1) * (N.of_nat k + 2))); [|exact NQ].
    clear -L. nia.
  - assert (CN : forall ch, In ch (chars_of h (concat (b_lines b))) -> exists i, In i (g_words p) /\ In ch (w_chars (h i))).
    { intros ch Hch. unfold chars_of in Hch. apply in_flat_map in Hch as (i & Hi & Hch). exists i. split; [apply IB, Hi|exact Hch]. }
    destruct FO as (fs & F & MN & _).
    + unfold chars_of. rewrite <- (sum_length (fun i => w_chars (h i))). fold f. change (2 ^ 32 - 1)%N with 4294967295%N in NQ. change (2 ^ 32)%N with 4294967296%N.
      assert ((N.of_nat (n * (n + 1)) <= N.of_nat n * (N.of_nat n + 1) * (N.of_nat k + 2))%N) by nia. lia.
    + intros ch Hch. destruct (CN ch Hch) as (i & Hi & HC). destruct (CW i ch Hi HC) as (_ & _ & A & B). split; assumption.
    + destruct MN as [MN _]. apply in_map_iff in MN as (fo & <- & Hfo).
      destruct (TotalWhole.F2_in_r _ _ _ _ F Hfo) as (l & Hl & (ML & _) & _). apply in_map_iff in ML as (ch & <- & Hch).
      destruct (CN ch) as (i & Hi & HC).
      { unfold chars_of in *. apply in_flat_map in Hch as (i & Hi & HC). apply in_flat_map. exists i. split; [apply in_concat; exists l; split; assumption|exact HC]. }
      exact (proj1 (proj2 (CW i ch Hi HC))).
  - intros i Hi. destruct (WR i (IB i Hi)) as (t & E & _ & L). exists t. split; assumption.
Qed.
