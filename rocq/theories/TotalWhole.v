(** TotalWhole.v - the modules succeed on ordinary documents. *)
From Coq Require Import ZArith NArith.
From Verif Require Import Base Double DoubleFacts MathUtils Elements Sort XYCut GeometrySpec Document Pipeline PipelineSpec PipelineLines PipelineProofs PipelineWords PipelineWhole TotalSpec TotalPos TotalLines.
From Verif Require Fonts Parsing Statistics StatisticsSpec Diacritics DiacriticsSpec Words WordsSpec PageSegmentation Lines LinesSpec LinesProofs LinesDefined Scripts ScriptsSpec ScriptsProofs Blocks BlocksSpec
  Roles ReadingOrder Dehyphenation Cli PropsWords PropsSegmentation PropsBlocks PropsLines PropsStatistics ElementsProofs MathUtilsProofs ParsingBoxes DiacriticsProofs GridProofs.
Local Opaque TOL dadd dsub ddiv dmul dec DBL_MAX DBL_MIN.

Lemma omap_total {A B} (f : A -> outcome B) (R : A -> B -> Prop) l : (forall x, In x l -> exists y, f x = Ok y /\ R x y) -> exists r, omap f l = Ok r /\ Forall2 R l r.
Proof.
  induction l as [|x l IH]; intros H; cbn [omap]; [exists []; split; [reflexivity|constructor]|].
  destruct (H x (or_introl eq_refl)) as (y & E & Ry). rewrite E. cbn [obind]. destruct IH as (r & Er & F); [intros z Hz; apply H; right; exact Hz|].
  rewrite Er. cbn [obind]. exists (y :: r). split; [reflexivity|constructor; assumption].
Qed.
Lemma F2_in_r {A B} (R : A -> B -> Prop) l l' y : Forall2 R l l' -> In y l' -> exists x, In x l /\ R x y.
Proof. induction 1 as [|a b l l' H _ IH]; intros I; [destruct I|]. destruct I as [<-|I]; [exists a; split; [left; reflexivity|exact H]|]. destruct (IH I) as (x & Hx & R0). exists x. split; [right; exact Hx|exact R0]. Qed.
Lemma F2_len {A B} (R : A -> B -> Prop) l l' : Forall2 R l l' -> length l = length l'.
Proof. induction 1; cbn [length]; congruence. Qed.

Section T.
  Context (m : machine) (wcfg : Words.words_config) (SANE : sane m) (n : nat).
  Let nz := Z.of_nat n.

  (** ** What holds all the time *)
  Definition geo (p : gpage) : Prop :=
    (forall c, In c (g_chars p) -> ordinary_char nz c) /\
    (forall f, In f (g_figures p) -> stored_coordinates (Parsing.fg_pos f)) /\
    (forall e, In e (g_shapes p ++ g_graphics p) -> stored_coordinates (e_pos e)).
  Definition G (d : gdoc) : Prop := length (gd_pages d) = n /\ forall p, In p (gd_pages d) -> geo p.
  Definition few (d : gdoc) : Prop := (Z.of_nat (length (flat_map g_chars (gd_pages d))) < 2 ^ 31)%Z.
  Definition S0 (d : gdoc) : Prop :=
    G d /\ few d /\ Forall blank (gd_pages d) /\ gd_words d = [] /\ gd_lines d = [] /\ Statistics.st_lineDistPer (gd_stats d) = [].
  Lemma geo_keeps p p' : keeps p p' -> geo p -> geo p'.
  Proof. unfold geo. intros (_ & _ & -> & -> & -> & -> & _). auto. Qed.
  Lemma G_keeps d d' : Forall2 keeps (gd_pages d) (gd_pages d') -> G d -> G d'.
  Proof.
    intros K [L H]. split; [rewrite <- (F2_len _ _ _ K); exact L|]. intros p Hp. destruct (F2_in_r _ _ _ _ K Hp) as (p0 & H0 & K0). exact (geo_keeps _ _ K0 (H p0 H0)).
  Qed.

  Lemma glyphs_total d : S0 d -> exists d', run_glyphStats m d = Ok d' /\ S0 d' /\ gd_pages d' = gd_pages d.
  Proof.
    intros (H1 & H2 & H3 & H4 & H5 & H6). destruct SANE as (_ & _ & _ & _ & _ & _ & HS & HD & _).
    unfold run_glyphStats. destruct (PropsStatistics.C51_glyphs _ _ HS HD (map g_chars (gd_pages d)) (gd_stats d)) as (st & E & _ & _ & _ & _ & _ & LP & _).
    { rewrite <- flat_map_concat_map. exact H2. }
    rewrite E. cbn [obind]. eexists. split; [reflexivity|]. split; [|reflexivity]. unfold S0, G, few, set_stats in *. cbn [gd_pages gd_words gd_lines gd_stats].
    repeat (split; [assumption|]). rewrite LP. exact H6.
  Qed.

  Lemma diacritics_total d : S0 d -> fresh_chars d -> exists d', run_diacritics m d = Ok d' /\ S0 d'.
  Proof.
    intros ((L & HG) & H2 & H3 & H4 & H5 & H6) F. unfold fresh_chars in F. rewrite Forall_forall in F, H3.
    destruct (omap_total (fun p => do cs <- Diacritics.merge_marks (m_compose m) (g_chars p); Ok (set_chars cs p))
                (fun p p' => exists cs, p' = set_chars cs p /\ length cs = length (g_chars p) /\ forall c, In c cs -> ordinary_char nz c) (gd_pages d)) as (ps & E & R).
    { intros p Hp. destruct (HG p Hp) as (GC & _). destruct (PropsWords.C21_defined (m_compose m) (g_chars p)) as (cs & E & PC); [intros c Hc; apply (GC c Hc)|].
      rewrite E. cbn [obind]. eexists. split; [reflexivity|]. exists cs. split; [reflexivity|].
      pose proof (merge_glyphs m _ _ (F p Hp) E) as SG. split; [symmetry; exact (F2_len _ _ _ SG)|]. intros c Hc.
      apply In_nth_error in Hc as [i Hi]. destruct (nth_error (g_chars p) i) as [c0|] eqn:E0.
      2:{ exfalso. apply nth_error_None in E0. assert (i < length cs) by (apply nth_error_Some; congruence). rewrite (F2_len _ _ _ SG) in E0. lia. }
      destruct (PropsWords.C21_frame (m_compose m) _ _ (F p Hp) E) as [_ FR]. destruct (FR i c0 c E0 Hi) as [SGc _].
      assert (NNP : forall x, In x (g_chars p) -> nn_pos (c_pos x)).
      { intros x Hx. destruct (on_page_fin _ (proj1 (GC x Hx))) as (A1 & A2 & A3 & A4). repeat split; apply fin_nn; assumption. }
      destruct (PropsWords.C21_boxes (m_compose m) (g_chars p) cs (F p Hp) NNP E i c0 c E0 Hi) as [CO _].
      destruct (GC c0 (nth_error_In _ _ E0)) as (O1 & O2 & O3). destruct SGc as (_ & _ & _ & _ & _ & _ & _ & SZ & _ & _ & _ & _ & _ & _ & _ & PN).
      split; [|rewrite SZ, PN; split; assumption]. apply (covers_on_page _ (c_pos c0)); [apply PC, (nth_error_In _ _ Hi)|exact CO|exact O1]. }
    unfold run_diacritics. rewrite E. cbn [obind]. eexists. split; [reflexivity|]. unfold S0, G, few, set_pages. cbn [gd_pages gd_words gd_lines gd_stats].
    split; [split|split; [|split; [|split; [exact H4|split; [exact H5|exact H6]]]]].
    - rewrite <- (F2_len _ _ _ R). exact L.
    - intros p Hp. destruct (F2_in_r _ _ _ _ R Hp) as (p0 & Hp0 & cs & -> & _ & OC). destruct (HG p0 Hp0) as (_ & G2 & G3). split; [exact OC|]. split; assumption.
    - unfold few in H2. replace (length (flat_map g_chars ps)) with (length (flat_map g_chars (gd_pages d))); [exact H2|].
      clear -R. induction R as [|p p' l l' (cs & -> & LC & _) _ IH]; [reflexivity|]. cbn [flat_map set_chars g_chars]. rewrite !app_length. lia.
    - apply Forall_forall. intros p Hp. destruct (F2_in_r _ _ _ _ R Hp) as (p0 & Hp0 & cs & -> & _). exact (H3 p0 Hp0).
  Qed.

  (** ** Words *)
  Definition okw (w : word) : Prop :=
    on_page (w_pos w) /\ (forall c, In c (w_chars w) -> on_page (c_pos c) /\ dle (dec 1 1) (c_fontSize c) = true) /\ (1 <= pageNum (w_pos w) <= nz)%Z.
  Definition wordsok (d : gdoc) : Prop :=
    Forall okw (gd_words d) /\ forall w q, In w (gd_words d) -> In q (w_parts w) -> q < length (gd_words d).
  Definition S1 (d : gdoc) : Prop :=
    G d /\ wordsok d /\ (forall p i, In p (gd_pages d) -> In i (g_words p) -> i < length (gd_words d)) /\
    (Z.of_nat (length (flat_map g_words (gd_pages d))) < 2 ^ 31)%Z /\
    Forall no_text (gd_pages d) /\ gd_lines d = [] /\ Statistics.st_lineDistPer (gd_stats d) = [].
  Lemma S0_S1 d : S0 d -> S1 d.
  Proof.
    intros (H1 & H2 & H3 & H4 & H5 & H6). rewrite Forall_forall in H3. split; [exact H1|]. unfold wordsok. rewrite H4. split; [split; [constructor|intros w q []]|]. split.
    - intros p i Hp Hi. destruct (H3 p Hp) as (W & _). rewrite W in Hi. destruct Hi.
    - split; [|split; [|split; assumption]].
      + replace (flat_map g_words (gd_pages d)) with (@nil nat); [cbn; lia|]. clear -H3. induction (gd_pages d) as [|p l IH]; [reflexivity|]. cbn [flat_map].
        destruct (H3 p (or_introl eq_refl)) as (-> & _). cbn [app]. apply IH. intros x Hx. apply H3. right. exact Hx.
      + apply Forall_forall. intros p Hp. destruct (H3 p Hp) as (_ & A & _ & B). split; assumption.
  Qed.
  Lemma place_total ps : forall k wss ps' ws, place_words k ps wss = (ps', ws) -> length ps = length wss ->
    Forall (fun l => Forall okw l /\ forall w q, In w l -> In q (w_parts w) -> q < length l) wss ->
    Forall2 (fun p p' => exists l, p' = set_words l p) ps ps' /\ (forall p i, In p ps' -> In i (g_words p) -> i < k + length ws) /\
    Forall okw ws /\ (forall w q, In w ws -> In q (w_parts w) -> q < k + length ws) /\
    length (flat_map g_words ps') = length (concat wss).
  Proof.
    induction ps as [|p ps IH]; intros k wss ps' ws H L F; destruct wss as [|l wss]; try discriminate L; cbn [place_words] in H.
    - apply pair_equal_spec in H as [<- <-]. split; [constructor|]. split; [intros p i []|]. split; [constructor|]. split; [intros w q []|reflexivity].
    - destruct (place_words _ ps wss) as [ps1 rest] eqn:E. apply pair_equal_spec in H as [<- <-]. inversion F as [|? ? (F1 & F2) F3]; subst.
      destruct (IH _ _ _ _ E (f_equal pred L) F3) as (A & B & C & D & EL). rewrite app_length, map_length.
      split; [constructor; [eauto|exact A]|]. split; [|split; [|split]].
      + intros q i [<-|Hq] Hi; [cbn [set_words g_words] in Hi; apply in_seq in Hi; lia|]. specialize (B q i Hq Hi). lia.
      + apply Forall_app. split; [|exact C]. apply Forall_forall. intros w Hw. apply in_map_iff in Hw as (w0 & <- & H0). rewrite Forall_forall in F1. exact (F1 w0 H0).
      + intros w q Hw Hq. apply in_app_or in Hw as [Hw|Hw]; [|specialize (D w q Hw Hq); lia]. apply in_map_iff in Hw as (w0 & <- & H0). cbn [shift_word w_parts] in Hq.
        apply in_map_iff in Hq as (q0 & <- & Hq0). specialize (F2 w0 q0 H0 Hq0). lia.
      + cbn [flat_map set_words g_words concat]. rewrite !app_length, seq_length, EL. reflexivity.
  Qed.
  Lemma words_of_chars ws cs : (forall w, In w ws -> w_chars w <> []) -> concat (map w_chars ws) = filter (fun c => match c_markOf c with None => true | Some _ => false end) cs ->
    length ws <= length cs.
  Proof.
    intros NE E. apply (f_equal (@length _)) in E.
    assert (A : length ws <= length (concat (map w_chars ws))).
    { clear E. induction ws as [|w ws IH]; cbn [length map concat]; [lia|]. rewrite app_length. specialize (IH (fun x Hx => NE x (or_intror Hx))).
      specialize (NE w (or_introl eq_refl)). destruct (w_chars w); [congruence|]. cbn [length]. lia. }
    rewrite E in A. clear -A. assert (X : forall f : character -> bool, length (filter f cs) <= length cs) by (clear; intros f; induction cs as [|c l IH]; cbn [filter length]; [lia|]; destruct (f c); cbn [length]; lia).
    specialize (X (fun c => match c_markOf c with None => true | Some _ => false end)). lia.
  Qed.
  Lemma words_total d : S0 d -> exists d', run_words m wcfg d = Ok d' /\ S1 d'.
  Proof.
    intros ((L & HG) & H2 & H3 & H4 & H5 & H6). rewrite Forall_forall in H3. destruct SANE as (_ & _ & _ & _ & _ & _ & HS & HD & _).
    destruct (omap_total (fun p => Words.detectWords (m_ordS m) (m_ordD m) (m_wordId m (g_num p)) wcfg (g_num p) [] (g_chars p))
      (fun p ws => Forall okw ws /\ (forall w, In w ws -> w_parts w = [] /\ w_partOf w = None) /\ length ws <= length (g_chars p)) (gd_pages d)) as (wss & E & R).
    { intros p Hp. destruct (PropsWords.C22_words_partition (m_ordS m) (m_ordD m) (m_wordId m (g_num p)) wcfg (g_num p) [] (g_chars p) HS HD) as (ws & E & C & W & _).
      cbn [app] in E. exists ws. split; [exact E|]. assert (IC : forall w c, In w ws -> In c (w_chars w) -> In c (g_chars p)).
      { intros w c Hw Hc. assert (X : In c (concat (map w_chars ws))) by (apply in_concat; exists (w_chars w); split; [apply in_map, Hw|exact Hc]). rewrite C in X. apply filter_In in X. apply X. }
      destruct (HG p Hp) as (GC & _). split; [|split].
      - apply Forall_forall. intros w Hw. destruct (W w Hw) as (NE & WO). unfold WordsSpec.word_of in WO. destruct WO as (_ & _ & (c & t & EC & PN & _) & B1 & B2 & B3 & B4 & _).
        split; [|split].
        + apply (on_page_ext _ (bbox (map c_pos (w_chars w))) B1 B2 B3 B4). apply bbox_on_page; [intros X; apply map_eq_nil in X; congruence|].
          intros q Hq. apply in_map_iff in Hq as (x & <- & Hx). apply (GC x (IC w x Hw Hx)).
        + intros x Hx. destruct (GC x (IC w x Hw Hx)) as (O1 & O2 & _). split; assumption.
        + rewrite PN. apply (GC c), (IC w c Hw). rewrite EC. left. reflexivity.
      - intros w Hw. destruct (W w Hw) as (_ & WO). unfold WordsSpec.word_of in WO. split; apply WO.
      - apply words_of_chars; [intros w Hw; apply (W w Hw)|exact C]. }
    unfold run_words. rewrite E. cbn [obind]. destruct (place_words 0 _ _) as [ps ws] eqn:EP.
    assert (MS : forall l, (forall w, In w l -> w_parts w = [] /\ w_partOf w = None) -> Forall okw l ->
      Forall okw (Words.mergeStackedMathSymbols wcfg l) /\ length (Words.mergeStackedMathSymbols wcfg l) = length l /\
      forall w q, In w (Words.mergeStackedMathSymbols wcfg l) -> In q (w_parts w) -> q < length (Words.mergeStackedMathSymbols wcfg l)).
    { intros l E0 OK. destruct (PropsWords.C24_relation wcfg l E0) as [LL RR]. rewrite Forall_forall in OK.
      assert (X : forall w', In w' (Words.mergeStackedMathSymbols wcfg l) -> exists i w, nth_error l i = Some w /\ WordsSpec.same_word w w' /\ forall j, In j (w_parts w') -> WordsSpec.belongs wcfg l i j).
      { intros w' Hw'. apply In_nth_error in Hw' as [i Hi]. assert (Li : i < length l) by (rewrite <- LL; apply nth_error_Some; congruence).
        destruct (nth_error l i) as [w|] eqn:Ew; [|apply nth_error_None in Ew; lia]. destruct (RR i w Ew) as (w1 & E1 & SW & P & _). assert (w1 = w') by congruence. subst w1.
        exists i, w. split; [exact Ew|]. split; [exact SW|]. intros j. apply P. }
      split; [|split; [exact LL|]].
      - apply Forall_forall. intros w' Hw'. destruct (X w' Hw') as (i & w & Ew & (_ & _ & S3 & _ & _ & _ & S7 & _) & _). unfold okw. rewrite S3, S7. apply OK, (nth_error_In _ _ Ew).
      - intros w' q Hw' Hq. destruct (X w' Hw') as (i & w & _ & _ & P). destruct (P q Hq) as (b & _ & _ & _ & Lq & _). lia. }
    destruct (place_total _ _ _ _ _ EP) as (A & B & C & D & EL).
    { rewrite map_length. exact (F2_len _ _ _ R). }
    { apply Forall_forall. intros l Hl. apply in_map_iff in Hl as (l0 & <- & Hl0). destruct (F2_in_r _ _ _ _ R Hl0) as (p & _ & O1 & O2 & _).
      destruct (MS l0 O2 O1) as (M1 & M2 & M3). split; assumption. }
    cbn [Nat.add] in B, D. eexists. split; [reflexivity|]. unfold S1, wordsok, G. cbn [gd_pages gd_words gd_lines gd_stats].
    split; [split|split; [split; assumption|split; [exact B|split; [|split; [|split; assumption]]]]].
    - rewrite <- (F2_len _ _ _ A). exact L.
    - intros p Hp. destruct (F2_in_r _ _ _ _ A Hp) as (p0 & Hp0 & l & ->). exact (HG p0 Hp0).
    - rewrite EL. assert (LC : length (concat (map (Words.mergeStackedMathSymbols wcfg) wss)) <= length (flat_map g_chars (gd_pages d))).
      { clear -R MS. induction R as [|p w l l' (O1 & O2 & O3) _ IH]; cbn [map concat flat_map]; [apply le_n|]. rewrite !app_length. destruct (MS w O2 O1) as (_ & M2 & _). lia. }
      unfold few in H2. lia.
    - apply Forall_forall. intros p Hp. destruct (F2_in_r _ _ _ _ A Hp) as (p0 & Hp0 & l & ->). destruct (H3 p0 Hp0) as (_ & X1 & _ & X2). split; assumption.
  Qed.
  Lemma wordStats_total d : S1 d -> exists d', run_wordStats m d = Ok d' /\ S1 d'.
  Proof.
    intros (H1 & H2 & H3 & H4 & H5 & H6 & H7). destruct SANE as (_ & _ & _ & _ & _ & _ & _ & HD & _).
    unfold run_wordStats. destruct (PropsStatistics.C51_words _ HD (map (fun p => map (word_heap (gd_words d)) (g_words p)) (gd_pages d)) (gd_stats d)) as (st & E & _ & _ & _ & _ & _ & _ & _ & _ & LP).
    rewrite E. cbn [obind]. eexists. split; [reflexivity|]. unfold S1, G, wordsok, set_stats in *. cbn [gd_pages gd_words gd_lines gd_stats].
    repeat (split; [assumption|]). rewrite LP. exact H7.
  Qed.

  (** ** Segments *)
  Definition S2 (d : gdoc) : Prop :=
    G d /\ wordsok d /\ (forall p s i, In p (gd_pages d) -> In s (g_segs p) -> In i (sg_words s) -> i < length (gd_words d)) /\
    (Z.of_nat (length (flat_map (fun p => flat_map sg_words (g_segs p)) (gd_pages d))) < 2 ^ 31)%Z /\
    (forall p, In p (gd_pages d) -> Forall (fun s => sg_lines s = []) (g_segs p) /\ g_blocks p = []) /\
    gd_lines d = [] /\ Statistics.st_lineDistPer (gd_stats d) = [].
  Lemma S1_S2 d : S1 d -> S2 d.
  Proof.
    intros (H1 & H2 & H3 & H4 & H5 & H6 & H7). rewrite Forall_forall in H5. split; [exact H1|]. split; [exact H2|]. split; [|split; [|split; [|split; assumption]]].
    - intros p s i Hp Hs. destruct (H5 p Hp) as [E _]. rewrite E in Hs. destruct Hs.
    - replace (flat_map (fun p => flat_map sg_words (g_segs p)) (gd_pages d)) with (@nil nat); [cbn; lia|]. clear -H5. induction (gd_pages d) as [|p l IH]; [reflexivity|]. cbn [flat_map].
      destruct (H5 p (or_introl eq_refl)) as (-> & _). cbn [flat_map app]. apply IH. intros x Hx. apply H5. right. exact Hx.
    - intros p Hp. destruct (H5 p Hp) as (-> & B). split; [constructor|exact B].
  Qed.
  Lemma nth_okw d i : wordsok d -> i < length (gd_words d) -> okw (word_heap (gd_words d) i).
  Proof. intros [F _] H. rewrite Forall_forall in F. apply F. apply nth_In, H. Qed.
  Lemma segmentation_total d : S1 d -> exists d', run_segmentation m d = Ok d' /\ S2 d'.
  Proof.
    intros (H1 & H2 & H3 & H4 & H5 & H6 & H7). destruct SANE as (HP & HT & _). rewrite Forall_forall in H5. unfold run_segmentation. cbv zeta.
    set (cfg := PageSegmentation.default_config _).
    destruct (omap_total (fun p => do r <- from_run (PageSegmentation.processPage (m_sortP m) (m_topP m) cfg (page_elems (gd_words d) p));
        Ok (set_segs (g_segs p ++ map new_seg (fst r)) p)) (fun p p' => keeps p p' /\ segmented p') (gd_pages d)) as (ps & E & R).
    { intros p Hp. destruct (PropsSegmentation.C30_defined (m_sortP m) (m_topP m) cfg HP HT) with (p := page_elems (gd_words d) p) as (segs & cuts & EP).
      { unfold cfg. cbn. lia. }
      { intros e He. destruct H1 as [_ HG]. destruct (HG p Hp) as (_ & GF & GS). unfold PageSegmentation.page_elements, page_elems in He.
        cbn [PageSegmentation.pp_words PageSegmentation.pp_figures PageSegmentation.pp_graphics PageSegmentation.pp_shapes] in He.
        repeat (apply in_app_or in He as [He|He]); apply in_map_iff in He as (x & <- & Hx); cbn [PageSegmentation.pe_pos].
        - apply GridProofs.parsed_stored, (nth_okw d x H2 (H3 p x Hp Hx)).
        - apply GF, Hx.
        - apply GS, in_or_app. right. exact Hx.
        - apply GS, in_or_app. left. exact Hx. }
      assert (ES : (do r <- from_run (PageSegmentation.processPage (m_sortP m) (m_topP m) cfg (page_elems (gd_words d) p));
        Ok (set_segs (g_segs p ++ map new_seg (fst r)) p)) = Ok (set_segs (g_segs p ++ map new_seg segs) p)) by (rewrite EP; reflexivity).
      eexists. split; [exact ES|]. split; [unfold keeps, set_segs; cbn; repeat split|]. destruct (H5 p Hp) as [N1 N2].
      destruct (PropsSegmentation.C30_partition _ _ _ HP HT _ _ _ EP) as [PE _]. unfold page_elems in PE.
      cbn [PageSegmentation.pp_words PageSegmentation.pp_figures PageSegmentation.pp_graphics PageSegmentation.pp_shapes] in PE.
      unfold segmented, set_segs. cbn [g_words g_segs g_blocks]. rewrite N1, N2. cbn [app]. split; [|split; [|reflexivity]].
      - set (isw := fun e => is_some (PageSegmentation.pe_word e)).
        assert (Q := Permutation_map PageSegmentation.pe_uid (filter_perm isw _ _ PE)). rewrite !filter_app in Q.
        rewrite (filter_map_all isw (fun i => PageSegmentation.mkPE i _ _) _ true) in Q by (intros x; reflexivity).
        rewrite (filter_map_all isw (fun f => PageSegmentation.mkPE 0 (Parsing.fg_pos f) None) _ false) in Q by (intros x; reflexivity).
        rewrite !(filter_map_all isw (fun e => PageSegmentation.mkPE 0 (e_pos e) None) _ false) in Q by (intros x; reflexivity).
        rewrite !app_nil_r, map_map in Q. cbn [PageSegmentation.pe_uid] in Q. rewrite map_id in Q. rewrite Q, flat_filter.
        clear. induction segs as [|s segs IH]; cbn [map concat flat_map]; [constructor|]. rewrite map_app. apply Permutation_app; [|exact IH]. reflexivity.
      - apply Forall_forall. intros s Hs. apply in_map_iff in Hs as (s0 & <- & _). reflexivity. }
    rewrite E. cbn [obind]. eexists. split; [reflexivity|]. unfold set_pages.
    assert (RK : Forall2 keeps (gd_pages d) ps) by exact (F2_imp _ _ _ _ (fun x y H => proj1 H) R).
    split; [apply (G_keeps d); [exact RK|exact H1]|]. cbn [gd_pages gd_words gd_lines gd_stats]. split; [exact H2|]. split; [|split; [|split; [|split; assumption]]].
    - intros p' s i Hp' Hs Hi. destruct (F2_in_r _ _ _ _ R Hp') as (p & Hp & K & (PM & _)). apply (H3 p i Hp). destruct K as (_ & _ & _ & _ & _ & _ & W). rewrite <- W.
      apply (Permutation_in _ (Permutation_sym PM)). apply in_flat_map. exists s. split; assumption.
    - replace (length (flat_map (fun p => flat_map sg_words (g_segs p)) ps)) with (length (flat_map g_words (gd_pages d))); [exact H4|].
      clear -R. induction R as [|p p' l l' (K & PM & _) _ IH]; [reflexivity|]. cbn [flat_map]. rewrite !app_length, IH. f_equal. rewrite <- (Permutation_length PM).
      destruct K as (_ & _ & _ & _ & _ & _ & W). rewrite W. reflexivity.
    - intros p' Hp'. destruct (F2_in_r _ _ _ _ R Hp') as (p & _ & _ & (_ & A & B)). split; assumption.
  Qed.

  (** ** Lines *)
  Definition lineok (nw : nat) (i : nat) (l : gline) : Prop :=
    good_line nz (fun w => w < nw) (gl_line l) /\ is_fin (Scripts.bx_upper (gl_box l)) = true /\ is_fin (Scripts.bx_lower (gl_box l)) = true /\
    forall a, gl_parent l = Some a -> a < i.
  Definition linesok (nw : nat) (ls : list gline) : Prop := forall i l, nth_error ls i = Some l -> lineok nw i l.
  Definition S3 (d : gdoc) : Prop :=
    G d /\ wordsok d /\ numbered d /\ linesok (length (gd_words d)) (gd_lines d) /\ (Z.of_nat (length (gd_lines d)) < 2 ^ 31)%Z /\
    (forall p, In p (gd_pages d) -> g_blocks p = []) /\ Statistics.st_lineDistPer (gd_stats d) = [].
  Lemma S2_S3 d : S2 d -> S3 d.
  Proof.
    intros (H1 & H2 & H3 & H4 & H5 & H6 & H7). split; [exact H1|]. split; [exact H2|]. unfold numbered, segment_line_ids, linesok. rewrite H6. cbn [length seq].
    split; [|split; [intros [|i] l X; discriminate X|split; [cbn; lia|split; [|exact H7]]]].
    - clear -H5. induction (gd_pages d) as [|p l IH]; [reflexivity|]. cbn [flat_map]. rewrite IH by (intros x Hx; apply H5; right; exact Hx). rewrite app_nil_r.
      destruct (H5 p (or_introl eq_refl)) as [F _]. clear -F. induction F as [|s t H _ IH]; [reflexivity|]. cbn [flat_map]. rewrite H, IH. reflexivity.
    - intros p Hp. apply (H5 p Hp).
  Qed.
  Lemma page_glines_nth k hs ls i g : nth_error (page_glines k hs ls) i = Some g ->
    exists l s, nth_error ls i = Some (l, s) /\ gl_line g = l /\ gl_box g = Scripts.bbox_default /\ gl_parent g = option_map (Nat.add k) (Lines.parent hs i).
  Proof.
    unfold page_glines. rewrite nth_error_map. assert (X : forall a j, nth_error (combine (seq a (length ls)) ls) j = option_map (fun x => (a + j, x)) (nth_error ls j)).
    { clear. induction ls as [|l ls IH]; intros a j; [destruct j; reflexivity|]. cbn [length seq combine]. destruct j as [|j]; cbn [nth_error option_map]; [rewrite Nat.add_0_r; reflexivity|].
      rewrite IH. destruct (nth_error ls j); cbn [option_map]; [|reflexivity]. do 2 f_equal. lia. }
    rewrite X. cbn [Nat.add]. destruct (nth_error ls i) as [[l s]|]; cbn [option_map]; [|discriminate]. intros H. injection H as <-. exists l, s. repeat split.
  Qed.
  Lemma place_pages_total W ps : forall a k r ps' ls,
    Forall2 (fun p rp => Forall (good_line nz W) (LinesSpec.page_lines (fst rp)) /\ length (LinesSpec.page_lines (fst rp)) <= length (flat_map sg_words (g_segs p)) /\
        length (fst rp) = length (g_segs p) /\ forall x y, Lines.parent (snd rp) y = Some x -> x < y) ps r ->
    (forall p, In p ps -> Forall (fun s => sg_lines s = []) (g_segs p)) -> place_pages a k ps r = (ps', ls) ->
    Forall2 (fun p p' => exists segs, p' = set_segs segs p) ps ps' /\
    flat_map (fun p => flat_map sg_lines (g_segs p)) ps' = seq a (length ls) /\
    (forall i l, nth_error ls i = Some l -> good_line nz W (gl_line l) /\ gl_box l = Scripts.bbox_default /\ forall x, gl_parent l = Some x -> x < a + i) /\
    length ls <= length (flat_map (fun p => flat_map sg_words (g_segs p)) ps).
  Proof.
    induction ps as [|p ps IH]; intros a k r ps' ls D F H; destruct r as [|[rp hs] r]; inversion D as [|? ? ? ? D1 D2]; subst; cbn [place_pages] in H.
    - apply pair_equal_spec in H as [<- <-]. split; [constructor|]. split; [reflexivity|]. split; [intros [|i] l X; discriminate X|cbn; lia].
    - cbn [fst snd] in D1. destruct D1 as (GL & LE & LR & PA). destruct (place_lines a k (g_segs p) rp) as [segs l1] eqn:EL. destruct (place_pages _ _ ps r) as [ps1 rest] eqn:ER in H.
      apply pair_equal_spec in H as [<- <-]. destruct (place_lines_spec _ _ _ _ _ _ LR (F p (or_introl eq_refl)) EL) as [SI SL].
      pose proof (page_glines_spec a hs l1) as GE.
      assert (LG : length (page_glines a hs l1) = length l1) by (rewrite <- (map_length gl_line), GE, map_length; reflexivity).
      destruct (IH _ _ _ _ _ D2 (fun q Hq => F q (or_intror Hq)) ER) as (A & B & C & E).
      split; [constructor; [eauto|exact A]|]. split; [|split].
      + cbn [flat_map set_segs g_segs]. rewrite SI, B, app_length, LG, seq_app. reflexivity.
      + intros i l Hi. destruct (Nat.lt_ge_cases i (length l1)) as [Li|Li].
        * rewrite nth_error_app1 in Hi by lia. apply page_glines_nth in Hi as (t & s & E1 & E2 & E3 & E4). split; [|split; [exact E3|]].
          -- rewrite E2. rewrite Forall_forall in GL. apply GL. rewrite <- SL. apply in_map_iff. exists (t, s). split; [reflexivity|exact (nth_error_In _ _ E1)].
          -- intros x. rewrite E4. destruct (Lines.parent hs i) as [y|] eqn:EY; [|discriminate]. cbn [option_map]. intros X. injection X as <-. specialize (PA _ _ EY). lia.
        * rewrite nth_error_app2 in Hi by lia. destruct (C _ _ Hi) as (C1 & C2 & C3). split; [exact C1|]. split; [exact C2|]. intros x Hx. specialize (C3 x Hx). lia.
      + cbn [flat_map]. rewrite !app_length, LG. assert (length l1 <= length (flat_map sg_words (g_segs p))) by (rewrite <- (map_length fst), SL; exact LE). lia.
  Qed.
  Lemma okw_reg w : okw w -> LinesSpec.regular_word w /\ on_page (w_pos w) /\ (1 <= pageNum (w_pos w) <= nz)%Z.
  Proof. intros (A & B & C). split; [split; [apply A|intros c Hc; apply B, Hc]|split; assumption]. Qed.
  Lemma lines_total d : S2 d -> exists d', run_lines m d = Ok d' /\ S3 d'.
  Proof.
    intros (H1 & H2 & H3 & H4 & H5 & H6 & H7). destruct SANE as (_ & _ & HW & HL & _ & _ & HS & HD & _ & HR & HY).
    set (W := fun w => w < length (gd_words d)). set (h := word_heap (gd_words d)).
    set (pages := map (fun p => map (fun s => (sg_pos s, sg_words s)) (g_segs p)) (gd_pages d)).
    assert (HWD : forall w, W w -> LinesSpec.regular_word (h w) /\ on_page (w_pos (h w)) /\ (1 <= pageNum (w_pos (h w)) <= nz)%Z).
    { intros w Hw. apply okw_reg, nth_okw; assumption. }
    assert (IN : forall segs b ws w, In segs pages -> In (b, ws) segs -> In w (ws ++ flat_map (LinesSpec.with_parts h) ws) -> W w).
    { intros segs b ws w Hs Hb Hw. apply in_map_iff in Hs as (p & <- & Hp). apply in_map_iff in Hb as (s & Es & Hs). apply pair_equal_spec in Es as [_ <-].
      apply in_app_or in Hw as [Hw|Hw]; [exact (H3 p s w Hp Hs Hw)|]. apply in_flat_map in Hw as (x & Hx & Hw). specialize (H3 p s x Hp Hs Hx).
      unfold LinesSpec.with_parts in Hw. destruct (w_partOf (h x)); [destruct Hw|]. destruct Hw as [<-|Hw]; [exact H3|].
      destruct H2 as [_ PQ]. apply (PQ (h x) w); [apply nth_In, H3|exact Hw]. }
    destruct (PropsLines.C25_defined (m_sortW m) (m_sortL m) (m_ordS m) (m_ordD m) (m_ordR m) (m_ordY m) (Statistics.st_charWidth (gd_stats d)) (m_absd m) h 0 pages HW HL HS HD HR HY) as (r & E).
    { intros segs b ws w Hs Hb Hw. apply HWD, (IN segs b ws w Hs Hb Hw). }
    pose proof (detect_Q (m_sortW m) (m_sortL m) (m_ordS m) (m_ordD m) (m_ordR m) (m_ordY m) (Statistics.st_charWidth (gd_stats d)) h HW HL HS HD HR HY nz W HWD (m_absd m) pages 0%Z r IN E) as D.
    unfold run_lines. fold h pages. rewrite E. cbn [obind]. destruct (place_pages 0 0 (gd_pages d) r) as [ps ls] eqn:EP.
    eexists. split; [reflexivity|]. apply F2_map_l in D.
    destruct (place_pages_total W (gd_pages d) 0 0 r ps ls) as (A & B & C & EL).
    { refine (F2_imp _ _ _ _ _ D). intros p rp (X1 & X2 & X3 & X4). split; [exact X1|]. split; [|split; [rewrite X3; apply map_length|exact X4]].
      replace (flat_map sg_words (g_segs p)) with (flat_map snd (map (fun s => (sg_pos s, sg_words s)) (g_segs p))); [exact X2|].
      rewrite !flat_map_concat_map, map_map. reflexivity. }
    { intros p Hp. apply (H5 p Hp). }
    { exact EP. }
    assert (RK : Forall2 keeps (gd_pages d) ps). { refine (F2_imp _ _ _ _ _ A). intros p p' (segs & ->). unfold keeps, set_segs. cbn. repeat split. }
    split; [exact (G_keeps d (mkGDoc ps (gd_fonts d) (gd_stats d) (gd_words d) ls) RK H1)|]. split; [exact H2|]. split; [exact B|]. cbn [gd_pages gd_words gd_lines gd_stats]. split; [|split; [|split; [|exact H7]]].
    - intros i l Hi. destruct (C i l Hi) as (C1 & C2 & C3). split; [exact C1|]. rewrite C2. split; [|split; [|exact C3]]; vm_compute; reflexivity.
    - lia.
    - intros p' Hp'. destruct (F2_in_r _ _ _ _ A Hp') as (p & Hp & segs & ->). apply (H5 p Hp).
  Qed.
  Lemma lines1_total d : S3 d -> S3 (fill_lines1 d).
  Proof.
    intros (H1 & H2 & H3 & H4 & H5 & H6 & H7). split; [|split; [exact H2|split; [|split; [exact H4|split; [exact H5|split; [|exact H7]]]]]].
    - apply (G_keeps d); [|exact H1]. cbn [fill_lines1 set_pages gd_pages]. apply F2_map_r. intros p. unfold keeps, set_textLines. cbn. repeat split.
    - unfold numbered, segment_line_ids in *. cbn [fill_lines1 set_pages gd_pages gd_lines]. rewrite flat_map_concat_map, map_map, <- flat_map_concat_map. exact H3.
    - intros p Hp. cbn [fill_lines1 set_pages gd_pages] in Hp. apply in_map_iff in Hp as (p0 & <- & Hp0). exact (H6 p0 Hp0).
  Qed.
  Lemma set_box_ok nw ibs : forall ls, linesok nw ls -> Forall (fun b => is_fin (Scripts.bx_upper b) = true /\ is_fin (Scripts.bx_lower b) = true) (map snd ibs) ->
    linesok nw (fold_left set_box ibs ls) /\ length (fold_left set_box ibs ls) = length ls.
  Proof.
    induction ibs as [|[k b] t IH]; intros ls H F; cbn [fold_left]; [split; [exact H|reflexivity]|]. inversion F as [|? ? [F1 F2] F3]; subst. cbn [snd] in F1, F2.
    assert (X : linesok nw (set_box ls (k, b)) /\ length (set_box ls (k, b)) = length ls).
    { unfold set_box. cbn [fst snd]. destruct (nth_error ls k) as [l|] eqn:E; [|split; [exact H|reflexivity]]. split; [|apply update_length].
      intros i l' Hi. destruct (Nat.eq_dec i k) as [->|N].
      - rewrite DiacriticsProofs.update_same in Hi by (apply nth_error_Some; congruence). injection Hi as <-. destruct (H k l E) as (A & _ & _ & D). split; [exact A|]. split; [exact F1|]. split; [exact F2|exact D].
      - rewrite DiacriticsProofs.update_other in Hi by exact N. exact (H i l' Hi). }
    destruct X as [X1 X2]. destruct (IH _ X1 F3) as [A B]. split; [exact A|lia].
  Qed.
  Lemma grow_fin ps : forall b, (forall p, In p ps -> on_page p) -> is_fin (Scripts.bx_upper b) = true -> is_fin (Scripts.bx_lower b) = true ->
    is_fin (Scripts.bx_upper (fold_left Scripts.box_grow ps b)) = true /\ is_fin (Scripts.bx_lower (fold_left Scripts.box_grow ps b)) = true.
  Proof.
    induction ps as [|p ps IH]; intros b H U L; cbn [fold_left]; [split; assumption|]. destruct (on_page_fin _ (H p (or_introl eq_refl))) as (A1 & A2 & A3 & A4).
    apply IH; [intros q Hq; apply H; right; exact Hq| |]; unfold Scripts.box_grow; cbn [Scripts.bx_upper Scripts.bx_lower]; [apply ElementsProofs.min_fin|apply ElementsProofs.max_fin]; assumption.
  Qed.
  Lemma scripts_total d : S3 d -> exists d', run_scripts d = Ok d' /\ S3 d'.
  Proof.
    intros (H1 & H2 & H3 & H4 & H5 & H6 & H7). unfold run_scripts. destruct (Scripts.detectScripts _ _ _) as [h sl] eqn:E.
    destruct (ScriptsProofs.detect_spec _ _ _ _ _ E) as [HW HB]. eexists. split; [reflexivity|].
    assert (WK : forall i, w_pos (h i) = w_pos (word_heap (gd_words d) i) /\ w_parts (h i) = w_parts (word_heap (gd_words d) i) /\
              forall c, In c (w_chars (h i)) -> exists c0, In c0 (w_chars (word_heap (gd_words d) i)) /\ c_pos c = c_pos c0 /\ c_fontSize c = c_fontSize c0).
    { intros i. rewrite HW. unfold ScriptsProofs.mark_all_word, Scripts.set_chars. cbn [w_pos w_parts w_chars]. split; [reflexivity|]. split; [reflexivity|].
      intros c Hc. apply in_map_iff in Hc as (c0 & <- & Hc0). exists c0. split; [exact Hc0|]. split; reflexivity. }
    set (ids := segment_line_ids d) in *.
    destruct (set_box_ok (length (gd_words d)) (combine ids (map Scripts.sl_box sl)) (gd_lines d) H4) as [LK LL].
    { apply Forall_forall. intros b Hb. apply in_map_iff in Hb as ([i b0] & <- & Hb). cbn [snd]. apply in_combine_r in Hb. apply in_map_iff in Hb as (s & <- & Hs).
      destruct (F2_in_r _ _ _ _ HB Hs) as (l & Hl & _ & _ & ->). apply in_map_iff in Hl as (j & <- & Hj). cbn [Scripts.sl_base Scripts.sl_words Scripts.sl_box].
      unfold numbered in H3. fold ids in H3. rewrite H3 in Hj. apply in_seq in Hj. destruct (nth_error (gd_lines d) j) as [g|] eqn:Eg; [|apply nth_error_None in Eg; lia].
      rewrite (nth_error_nth _ _ no_line Eg). destruct (H4 j g Eg) as ((_ & GW & _) & U & L & _). apply grow_fin; [|exact U|exact L].
      intros p Hp. apply in_flat_map in Hp as (w & Hw & Hp). unfold ScriptsProofs.plain in Hp. apply in_map_iff in Hp as (c & <- & Hc). apply filter_In in Hc as [Hc _].
      apply (nth_okw d w H2 (GW w Hw)), Hc. }
    assert (LW : length (map h (seq 0 (length (gd_words d)))) = length (gd_words d)) by (rewrite map_length, seq_length; reflexivity).
    unfold S3. split; [exact H1|]. split; [|split; [|split; [|split; [|split; [exact H6|exact H7]]]]].
    - unfold wordsok. cbn [gd_words]. rewrite LW. split.
      + apply Forall_forall. intros w Hw. apply in_map_iff in Hw as (i & <- & Hi). apply in_seq in Hi. destruct (WK i) as (P1 & _ & P3). destruct (nth_okw d i H2) as (O1 & O2 & O3); [lia|].
        split; [rewrite P1; exact O1|]. split; [|rewrite P1; exact O3]. intros c Hc. destruct (P3 c Hc) as (c0 & Hc0 & -> & ->). exact (O2 c0 Hc0).
      + intros w q Hw Hq. apply in_map_iff in Hw as (i & <- & Hi). apply in_seq in Hi. destruct (WK i) as (_ & P2 & _). rewrite P2 in Hq. destruct H2 as [_ PQ].
        apply (PQ (word_heap (gd_words d) i) q); [apply nth_In; lia|exact Hq].
    - unfold numbered, segment_line_ids in *. cbn [gd_pages gd_lines]. rewrite LL. exact H3.
    - cbn [gd_words gd_lines]. rewrite LW. exact LK.
    - cbn [gd_lines]. rewrite LL. exact H5.
  Qed.
  Lemma in_neighbours {A} (ls : list (list A)) e : In e (StatisticsSpec.neighbours ls) -> exists l, In l ls /\ In (fst e) l /\ In (snd e) l.
  Proof.
    intros H. apply in_flat_map in H as (l & Hl & He). exists l. destruct e as [a b]. split; [exact Hl|]. cbn [fst snd]. split; [exact (in_combine_l _ _ _ _ He)|].
    apply in_combine_r in He. destruct l; [destruct He|right; exact He].
  Qed.
  Lemma neighbours_length {A} (ls : list (list A)) : length (StatisticsSpec.neighbours ls) <= length (concat ls).
  Proof.
    induction ls as [|l ls IH]; [cbn; lia|]. unfold StatisticsSpec.neighbours in *. cbn [flat_map concat]. rewrite !app_length, combine_length. lia.
  Qed.
  Definition S3b (d : gdoc) : Prop :=
    G d /\ wordsok d /\ numbered d /\ linesok (length (gd_words d)) (gd_lines d) /\ (forall p, In p (gd_pages d) -> g_blocks p = []).
  Lemma S3_S3b d : S3 d -> S3b d.
  Proof. intros (H1 & H2 & H3 & H4 & H5 & H6 & H7). repeat (split; [assumption|]). assumption. Qed.
  Lemma stat_line_nth d i : numbered d -> linesok (length (gd_words d)) (gd_lines d) -> In i (segment_line_ids d) ->
    is_nan_d (Statistics.sn_fontSize (stat_line d i)) = false /\ is_fin (Statistics.sn_baseUpper (stat_line d i)) = true /\ is_fin (Statistics.sn_baseLower (stat_line d i)) = true.
  Proof.
    intros N L Hi. unfold numbered in N. rewrite N in Hi. apply in_seq in Hi. destruct (nth_error (gd_lines d) i) as [g|] eqn:Eg; [|apply nth_error_None in Eg; lia].
    unfold stat_line. cbv zeta. rewrite (nth_error_nth _ _ no_line Eg). destruct (L i g Eg) as ((_ & _ & _ & _ & NF) & U & B & _). cbn [Statistics.sn_fontSize Statistics.sn_baseUpper Statistics.sn_baseLower].
    split; [exact NF|]. split; assumption.
  Qed.
  Lemma lineStats_total d : S3 d -> exists d', run_lineStats m d = Ok d' /\ S3b d'.
  Proof.
    intros H. pose proof (S3_S3b d H) as HB. destruct H as (H1 & H2 & H3 & H4 & H5 & H6 & H7). destruct SANE as (_ & _ & _ & _ & _ & _ & _ & HD & HF & _).
    set (pages := map (fun p => map (fun s => map (stat_line d) (sg_lines s)) (g_segs p)) (gd_pages d)).
    assert (X : forall s x, In s (concat pages) -> In x s -> is_nan_d (Statistics.sn_fontSize x) = false /\ is_fin (Statistics.sn_baseUpper x) = true /\ is_fin (Statistics.sn_baseLower x) = true).
    { intros s x Hs Hx. apply in_concat in Hs as (pg & Hp & Hs). apply in_map_iff in Hp as (p & <- & Hp). apply in_map_iff in Hs as (s0 & <- & Hs). apply in_map_iff in Hx as (i & <- & Hi).
      apply stat_line_nth; [exact H3|exact H4|]. unfold segment_line_ids. apply in_flat_map. exists p. split; [exact Hp|]. apply in_flat_map. exists s0. split; assumption. }
    unfold run_lineStats. fold pages. destruct (PropsStatistics.C51_lines (m_ordD m) HD (m_ordF m) HF pages (gd_stats d)) as (st & E & _).
    - intros e He. apply in_neighbours in He as (l & Hl & _ & He). apply (X l _ Hl He).
    - pose proof (neighbours_length (concat pages)) as LN. assert (LC : length (concat (concat pages)) = length (gd_lines d)).
      { apply (f_equal (@length _)) in H3. rewrite seq_length in H3. rewrite <- H3. unfold segment_line_ids, pages. clear. induction (gd_pages d) as [|p l IH]; [reflexivity|].
        cbn [map concat flat_map]. rewrite concat_app, !app_length, IH. f_equal. clear. induction (g_segs p) as [|s t IH]; [reflexivity|]. cbn [map concat flat_map]. rewrite !app_length, map_length, IH. reflexivity. }
      lia.
    - intros x Hx. unfold StatisticsSpec.line_distances in Hx. apply in_map_iff in Hx as (e & <- & He). apply filter_In in He as [He _].
      apply in_neighbours in He as (l & Hl & Ha & Hb). destruct (X l _ Hl Ha) as (_ & _ & A2). destruct (X l _ Hl Hb) as (_ & B1 & _).
      unfold StatisticsSpec.distance. apply (MathUtilsProofs.maximum_nn dzero); [reflexivity|]. apply ParsingBoxes.round_nn, MathUtilsProofs.fin_dsub_nn; assumption.
    - exact H7.
    - rewrite E. cbn [obind]. eexists. split; [reflexivity|]. exact HB.
  Qed.

  (** ** Blocks *)
  Definition S4 (d : gdoc) : Prop := G d /\ forall p b, In p (gd_pages d) -> In b (g_blocks p) -> on_page (b_pos b).
  Lemma S3b_S4 d : S3b d -> S4 d.
  Proof. intros (H1 & _ & _ & _ & H5). split; [exact H1|]. intros p b Hp Hb. rewrite (H5 p Hp) in Hb. destruct Hb. Qed.
  Lemma in_combine2 {A B} (l : list A) : forall (l' : list B) x y, In (x, y) (combine l l') -> In x l /\ In y l'.
  Proof. intros l' x y H. split; [exact (in_combine_l _ _ _ _ H)|exact (in_combine_r _ _ _ _ H)]. Qed.
  Lemma blocks_total d : S3b d -> exists d', run_blocks m d = Ok d' /\ S4 d'.
  Proof.
    intros (H1 & H2 & H3 & H4 & H6). destruct SANE as (_ & _ & _ & _ & _ & _ & HS & HD & _).
    set (pages := map (fun p => map sg_lines (g_segs p)) (gd_pages d)). set (lh := fun i => block_line (nth i (gd_lines d) no_line)).
    assert (EA : concat (map (@concat nat) pages) = seq 0 (length (gd_lines d))).
    { unfold numbered, segment_line_ids in H3. rewrite <- H3. unfold pages. rewrite map_map, flat_map_concat_map. f_equal. apply map_ext. intros p. symmetry. apply flat_map_concat_map. }
    assert (ND : NoDup (concat (map (@concat nat) pages))) by (rewrite EA; apply seq_NoDup).
    assert (LK : forall l, In l (concat (map (@concat nat) pages)) -> exists g, nth_error (gd_lines d) l = Some g /\ lineok (length (gd_words d)) l g /\ lh l = block_line g).
    { intros l Hl. rewrite EA in Hl. apply in_seq in Hl. destruct (nth_error (gd_lines d) l) as [g|] eqn:Eg; [|apply nth_error_None in Eg; lia].
      exists g. split; [reflexivity|]. split; [exact (H4 l g Eg)|]. unfold lh. rewrite (nth_error_nth _ _ no_line Eg). reflexivity. }
    destruct (PropsBlocks.C33_defined (m_ordS m) (m_ordD m) (m_absd m) (m_labelRegex m) (word_heap (gd_words d)) (block_doc d) pages lh
      (fun l => if l <? length (gd_lines d) then l else 0) (S (length (gd_lines d))) HS HD ND) as (r & E).
    { intros l p Hp. destruct (nth_error (gd_lines d) l) as [g|] eqn:Eg.
      - unfold lh in Hp. rewrite (nth_error_nth _ _ no_line Eg) in Hp. cbn [block_line Blocks.bl_parent] in Hp. destruct (H4 l g Eg) as (_ & _ & _ & PA). specialize (PA p Hp).
        assert (l < length (gd_lines d)) by (apply nth_error_Some; congruence). destruct (Nat.ltb_spec l (length (gd_lines d))); [|lia]. destruct (Nat.ltb_spec p (length (gd_lines d))); lia.
      - exfalso. unfold lh in Hp. apply nth_error_None in Eg. rewrite nth_overflow in Hp by exact Eg. discriminate Hp. }
    { intros l. destruct (Nat.ltb_spec l (length (gd_lines d))); lia. }
    { intros l Hl. destruct (LK l Hl) as (g & _ & ((NE & _ & _ & PN & _) & _) & ->). cbn [block_line Blocks.bl_pos Blocks.bl_words]. split; [|intros _; exact NE].
      unfold block_doc. cbn [Blocks.bd_figures]. rewrite map_length. destruct H1 as [-> _]. exact PN. }
    specialize (E _ (le_n _)). unfold run_blocks. fold pages lh. rewrite E. cbn [obind]. destruct r as [[pre fin] lh']. eexists. split; [reflexivity|].
    destruct (PropsBlocks.C33_partition _ _ _ _ _ _ _ _ _ _ _ _ HS HD ND E) as (_ & PT & _).
    destruct (PropsBlocks.C33_blocks _ _ _ _ _ _ _ _ _ _ _ _ HS HD ND E) as (_ & GB).
    assert (LF : length fin = length (gd_pages d)) by (rewrite <- (F2_len _ _ _ PT); unfold pages; apply map_length).
    split.
    - destruct H1 as [L HG]. split; cbn [gd_pages].
      + rewrite map_length, combine_length. lia.
      + intros p Hp. apply in_map_iff in Hp as ([p0 bs] & <- & Hp). apply in_combine_l in Hp. exact (HG p0 Hp).
    - cbn [gd_pages]. intros p b Hp Hb. apply in_map_iff in Hp as ([p0 bs] & <- & Hp). cbn [set_blocks g_blocks] in Hb. destruct (in_combine2 _ _ _ _ Hp) as [Hp0 Hbs].
      rewrite (H6 p0 Hp0) in Hb. cbn [app] in Hb. apply in_map_iff in Hb as (tb & <- & Htb). cbn [new_block b_pos].
      apply In_nth_error in Htb as [i Hi]. destruct (GB bs Hbs i tb Hi) as (_ & _ & _ & (l0 & rest & EL & _ & _ & _ & _ & _ & SB & _)).
      assert (IL : forall l, In l (Blocks.tb_lines tb) -> on_page (Blocks.bl_pos (lh l))).
      { intros l Hl. destruct (F2_in_r _ _ _ _ PT Hbs) as (ls & Hls & PK).
        assert (Il : In l (concat ls)). { rewrite <- PK. apply in_concat. exists (Blocks.tb_lines tb). split; [apply in_map, (nth_error_In _ _ Hi)|exact Hl]. }
        destruct (LK l) as (g & _ & ((_ & _ & OP & _) & _) & ->); [|exact OP]. apply in_concat. exists (concat ls). split; [apply in_map, Hls|exact Il]. }
      apply (smallest_on_page _ (map (fun l => Blocks.bl_pos (lh l)) (Blocks.tb_lines tb))).
      + rewrite EL. discriminate.
      + apply SB. intros l Hl. destruct (on_page_fin _ (IL l Hl)) as (A1 & A2 & A3 & A4). repeat split; assumption.
      + intros q Hq. apply in_map_iff in Hq as (l & <- & Hl). exact (IL l Hl).
  Qed.

  (** ** The reading order *)
  Lemma set_roles_keep ps : forall rs p', In p' (set_roles rs ps) -> exists p, In p ps /\ g_figures p' = g_figures p /\ g_shapes p' = g_shapes p /\
    forall b', In b' (g_blocks p') -> exists b, In b (g_blocks p) /\ b_pos b' = b_pos b.
  Proof.
    induction ps as [|p ps IH]; intros rs p' H; cbn [set_roles] in H; [destruct H|]. destruct H as [<-|H].
    - exists p. split; [left; reflexivity|]. split; [reflexivity|]. split; [reflexivity|]. intros b' Hb. cbn [set_blocks g_blocks] in Hb. apply in_map_iff in Hb as ([b r] & <- & Hb).
      exists b. split; [exact (in_combine_l _ _ _ _ Hb)|reflexivity].
    - destruct (IH _ _ H) as (q & Hq & X). exists q. split; [right; exact Hq|exact X].
  Qed.
  Definition prediction (d : gdoc) : outcome (list nat) :=
    from_run (option_map fst (Roles.predict (m_fromBytes m) (fun n => option_map (fun f => (Fonts.f_weight f, Fonts.f_italic f)) (Parsing.find_font n (gd_fonts d)))
      (m_network m) (m_fuel m) (m_bpe m) (m_roles m) Roles.new_predictor (map (role_page (word_heap (gd_words d))) (gd_pages d)))).
  Lemma readingOrder_total d roles : S4 d -> prediction d = Ok roles -> exists d', run_readingOrder m d = Ok d'.
  Proof.
    intros ([_ HG] & HB) E. unfold run_readingOrder. cbv zeta. unfold prediction in E. rewrite E. cbn [obind]. destruct SANE as (_ & _ & _ & _ & HS & HT & _).
    destruct (PropsSegmentation.C32_defined (m_sortR m) (m_topR m) (Statistics.st_charWidth (gd_stats d)) (Statistics.st_charHeight (gd_stats d)) HS HT (map (doc_page m) (set_roles roles (gd_pages d)))) as (qs & EQ).
    { intros p e Hp He. apply in_map_iff in Hp as (p' & <- & Hp). destruct (set_roles_keep _ _ _ Hp) as (q & Hq & F1 & F2 & F3). destruct (HG q Hq) as (_ & GF & GS).
      unfold ReadingOrder.ro_elements, doc_page in He. cbn [p_blocks p_figures p_shapes] in He. apply in_app_or in He as [He|He]; [|apply in_app_or in He as [He|He]].
      - apply in_map_iff in He as (b & <- & Hb). cbn [ReadingOrder.re_pos]. destruct (F3 b Hb) as (b0 & Hb0 & ->). apply GridProofs.parsed_stored, (HB q b0 Hq Hb0).
      - apply in_map_iff in He as (f & <- & Hf). cbn [ReadingOrder.re_pos]. unfold figure_elem in Hf. apply in_map_iff in Hf as ([i g] & <- & Hf). apply in_combine_r in Hf. rewrite F1 in Hf. cbn [e_pos]. exact (GF g Hf).
      - apply in_map_iff in He as (s & <- & Hs). cbn [ReadingOrder.re_pos]. rewrite F2 in Hs. apply GS, in_or_app. left. exact Hs. }
    rewrite EQ. cbn [from_run obind]. eexists. reflexivity.
  Qed.
End T.
