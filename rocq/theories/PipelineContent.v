(** PipelineContent.v - the words, the lines and the blocks of the result are made from each other. *)
From Coq Require Import ZArith NArith Lra.
From Verif Require Import Base Double DoubleFacts MathUtils Elements ElementsProofs Sort XYCut Document Pipeline PipelineSpec PipelineLines PipelineProofs PipelineWords PipelineWhole
  LinesSpec ContentSpec.
From Verif Require Fonts Parsing Statistics Diacritics DiacriticsSpec Words WordsSpec PageSegmentation Lines LinesProofs LineMergeProofs LinesDefined Scripts ScriptsProofs
  Blocks BlocksSpec Roles ReadingOrder ReadingOrderProofs Dehyphenation SerializationSpec DehyphenationProofs Cli PropsWords PropsLines PropsSegmentation PropsBlocks TotalWhole TotalPos.
Local Opaque TOL dZ dadd dsub ddiv dmul dec DBL_MAX DBL_MIN.

(** ** The page numbers of the characters *)
Definition on_its_page (q : Parsing.ppage) : Prop := forall c, In c (Parsing.pp_chars q) -> pageNum (c_pos c) = Parsing.pp_num q.
Section Parse.
  Context (m : machine).
  Lemma place_num k i q : (forall c, i = Parsing.IChar c -> pageNum (c_pos c) = Parsing.pp_num q) -> on_its_page q -> on_its_page (Parsing.place k i q).
  Proof.
    intros Hi H. unfold Parsing.place. destruct (Parsing.same_clip k (Parsing.pp_clip q)).
    - intros c Hc. unfold Parsing.add_page in *. cbn [Parsing.pp_chars Parsing.pp_num] in *. apply in_app_or in Hc as [Hc|Hc]; [exact (H c Hc)|].
      destruct i as [c'|e|e]; cbn [Parsing.opt_char] in Hc; [|destruct Hc|destruct Hc]. destruct Hc as [<-|[]]. apply Hi. reflexivity.
    - destruct (Parsing.add_figures k i (Parsing.pp_figures q)) as [fs|]; exact H.
  Qed.
  Lemma store_num k mk p p' : (forall n r c, mk n r = Parsing.IChar c -> pageNum (c_pos c) = n) ->
    Parsing.store k mk p = Ok p' -> Forall on_its_page (Parsing.pages p) -> Forall on_its_page (Parsing.pages p').
  Proof.
    intros Hm H F. unfold Parsing.store in H. destruct (Parsing.pr_page p) as [q|] eqn:E; [|discriminate].
    destruct (_ =? _)%Z; [discriminate|]. apply Ok_inj in H. subst p'. unfold Parsing.pages in *. cbn [Parsing.pr_done Parsing.pr_page].
    rewrite E in F. apply Forall_app in F as [F1 F2]. apply Forall_app. split; [exact F1|]. constructor; [|constructor].
    inversion F2 as [|? ? F3 _]. subst. apply place_num; [intros c; apply Hm|exact F3].
  Qed.
  Lemma parse_num es : forall p p',
    Parsing.handle_all (m_parseFont m) (m_mapUnicode m) (m_fromBytes m) (m_iswspace m) (m_charId m) es p = Ok p' ->
    Forall on_its_page (Parsing.pages p) -> Forall on_its_page (Parsing.pages p').
  Proof.
    induction es as [|e es IH]; intros p p' H F; cbn [Parsing.handle_all] in H; [apply Ok_inj in H; subst; exact F|].
    destruct (Parsing.handle _ _ _ _ _ p e) as [p1| |] eqn:E; try discriminate. cbn [obind] in H. apply (IH p1 p' H). clear IH H.
    destruct e as [num s| |s|s code nB u uL|s|s|s]; cbn [Parsing.handle] in E.
    - apply Ok_inj in E. subst p1. unfold Parsing.start_page, Parsing.pages at 1. cbn [Parsing.pr_done Parsing.pr_page]. apply Forall_app. split; [exact F|].
      constructor; [intros c []|constructor].
    - apply Ok_inj in E. subst p1. exact F.
    - unfold Parsing.update_font in E. destruct (Parsing.s_font s) as [f|]; [|apply Ok_inj in E; subst p1; exact F].
      destruct (Parsing.find_font _ _) as [i|]; [apply Ok_inj in E; subst p1; exact F|].
      destruct (m_parseFont m (Parsing.pf_info f)) as [i| |]; try discriminate. cbn [obind] in E. apply Ok_inj in E. subst p1. exact F.
    - unfold Parsing.draw_char in E. destruct (Parsing.pr_font p) as [i|]; [|apply Ok_inj in E; subst p1; exact F].
      destruct (Parsing.char_text _ _ _ _) as [[text us]| |]; try discriminate. cbn [obind] in E.
      destruct (Parsing.is_blank _ _ _) as [[]| |]; try discriminate; cbn [obind] in E; [apply Ok_inj in E; subst p1; exact F|].
      destruct (Parsing.s_font s) as [pf|]; [|discriminate].
      destruct (Parsing.char_width _ _ _) as [w| |]; try discriminate. cbn [obind] in E. revert E F. apply store_num.
      intros n r c. destruct (Parsing.char_position _ _ _ _ _ _) as [pos base] eqn:EP. intros [= <-]. cbn [c_pos].
      unfold Parsing.char_position in EP. cbv zeta in EP. revert EP.
      match goal with |- (let '(_, _) := ?x in _) = _ -> _ => destruct x | |- _ => idtac end.
      intros EP. apply pair_equal_spec in EP as [<- _]. reflexivity.
    - unfold Parsing.stroke in E. destruct (fold_left _ _ _) as [[[l u] r] d]. revert E F. apply store_num. intros n k c. discriminate.
    - unfold Parsing.stroke in E. destruct (fold_left _ _ _) as [[[l u] r] d]. revert E F. apply store_num. intros n k c. discriminate.
    - unfold Parsing.draw_graphic in E. destruct (Parsing.outside _ _ _ _ _); [apply Ok_inj in E; subst p1; exact F|]. revert E F. apply store_num. intros n k c. discriminate.
  Qed.
End Parse.

(** ** The words *)
Definition made (w : word) : Prop :=
  w_text w = concat (map WordsSpec.shown_text (w_chars w)) /\
  (exists c t, w_chars w = c :: t /\ pageNum (w_pos w) = pageNum (c_pos c) /\ rotation (w_pos w) = rotation (c_pos c) /\ wMode (w_pos w) = wMode (c_pos c)) /\
  leftX (w_pos w) = leftX (bbox (map c_pos (w_chars w))) /\ upperY (w_pos w) = upperY (bbox (map c_pos (w_chars w))) /\
  rightX (w_pos w) = rightX (bbox (map c_pos (w_chars w))) /\ lowerY (w_pos w) = lowerY (bbox (map c_pos (w_chars w))).
Definition made_page (ws : list word) (p : gpage) : Prop := forall i, In i (g_words p) ->
  i < length ws /\ made (at_words ws i) /\ forall j, In j (w_parts (at_words ws i)) -> In j (g_words p).

Lemma made_core_l w : made (core w) -> made w.
Proof.
  intros (A & (c & t & B & C & D & E) & F). unfold made. cbn [core w_text w_chars w_pos] in *. rewrite !map_map in *.
  split; [exact A|]. split; [|exact F]. destruct (w_chars w) as [|c0 t0]; [discriminate|]. injection B as B1 B2. exists c0, t0. split; [reflexivity|]. subst c. exact (conj C (conj D E)).
Qed.
Lemma made_core_r w : made w -> made (core w).
Proof.
  intros (A & (c & t & B & C & D & E) & F). unfold made. cbn [core w_text w_chars w_pos] in *. rewrite !map_map in *.
  split; [exact A|]. split; [|exact F]. exists (plain c), (map plain t). rewrite B. split; [reflexivity|exact (conj C (conj D E))].
Qed.
Lemma made_core ws ws' p : map core ws = map core ws' -> made_page ws p -> made_page ws' p.
Proof.
  intros E H i Hi. destruct (H i Hi) as (A & B & C). split; [|split].
  - apply (f_equal (@length _)) in E. rewrite !map_length in E. lia.
  - apply made_core_l. rewrite <- (at_core _ _ i E). apply made_core_r, B.
  - intros j Hj. apply C. pose proof (at_core _ _ i E) as EC. unfold core in EC. assert (EP : w_parts (at_words ws i) = w_parts (at_words ws' i)) by congruence. rewrite EP. exact Hj.
Qed.
Lemma made_keeps ws p p' : keeps p p' -> made_page ws p -> made_page ws p'.
Proof. intros (_ & _ & _ & _ & _ & _ & W). unfold made_page. rewrite W. auto. Qed.
Lemma made_step d d' : Forall2 keeps (gd_pages d) (gd_pages d') -> map core (gd_words d) = map core (gd_words d') ->
  Forall (made_page (gd_words d)) (gd_pages d) -> Forall (made_page (gd_words d')) (gd_pages d').
Proof. intros K E F. apply (F2_Forall _ _ _ _ _ K F). intros p p' KP G. apply (made_core _ _ _ E). exact (made_keeps _ _ _ KP G). Qed.

Definition fresh (w : word) : Prop := w_parts w = [] /\ w_partOf w = None /\ made w.
Lemma page_made cfg pre ws0 post p : (forall w, In w ws0 -> fresh w) ->
  let ws := Words.mergeStackedMathSymbols cfg ws0 in
  made_page (pre ++ map (shift_word (length pre)) ws ++ post) (set_words (seq (length pre) (length ws)) p).
Proof.
  intros E0 ws. destruct (PropsWords.C24_relation cfg ws0 (fun w Hw => conj (proj1 (E0 w Hw)) (proj1 (proj2 (E0 w Hw))))) as [L R]. fold ws in L, R. set (n := length pre).
  intros i Hi. cbn [set_words g_words] in *. apply in_seq in Hi. set (k := i - n).
  destruct (nth_error ws k) as [w|] eqn:E; [|apply nth_error_None in E; unfold k in E; lia].
  assert (AT : at_words (pre ++ map (shift_word n) ws ++ post) i = shift_word n w).
  { unfold at_words. rewrite app_nth2 by (fold n; lia). fold n. fold k. rewrite app_nth1 by (rewrite map_length; apply nth_error_Some; congruence).
    apply nth_error_nth. apply map_nth_error, E. }
  split; [rewrite !app_length, map_length; fold n; lia|]. rewrite AT.
  destruct (nth_error ws0 k) as [w0|] eqn:E1; [|apply nth_error_None in E1; assert (k < length ws) by (apply nth_error_Some; congruence); lia].
  destruct (R _ _ E1) as (w' & E' & A1 & A2 & _). assert (w' = w) by congruence. subst w'. split.
  - destruct (E0 w0 (nth_error_In _ _ E1)) as (_ & _ & M). unfold WordsSpec.same_word in A1. destruct A1 as (_ & _ & P1 & P2 & _ & _ & P3 & _).
    unfold made in *. cbn [shift_word w_text w_chars w_pos]. rewrite P1, P2, P3. exact M.
  - intros j Hj. cbn [shift_word w_parts] in Hj. apply in_map_iff in Hj as (j0 & <- & Hj). apply A2 in Hj. destruct Hj as (b & _ & _ & _ & Lj & _). apply in_seq. lia.
Qed.
Lemma place_made cfg ps : forall wss0 pre post ps' ws,
  Forall2 (fun (p : gpage) ws0 => forall w, In w ws0 -> fresh w) ps wss0 ->
  place_words (length pre) ps (map (Words.mergeStackedMathSymbols cfg) wss0) = (ps', ws) -> Forall (made_page (pre ++ ws ++ post)) ps'.
Proof.
  induction ps as [|p ps IH]; intros wss0 pre post ps' ws F H; inversion F as [|? ws0 ? wss1 E F1]; subst; cbn [place_words map] in H.
  - apply pair_equal_spec in H as [<- <-]. constructor.
  - destruct (place_words _ ps _) as [ps1 rest] eqn:ER in H. apply pair_equal_spec in H as [<- <-].
    set (w1 := Words.mergeStackedMathSymbols cfg ws0) in *.
    specialize (IH wss1 (pre ++ map (shift_word (length pre)) w1) post ps1 rest F1). rewrite app_length, map_length in IH. specialize (IH ER). constructor.
    + rewrite <- app_assoc. exact (page_made cfg pre ws0 (rest ++ post) p E).
    + rewrite <- !app_assoc in *. exact IH.
Qed.
Lemma words_made m cfg d d' : sane m -> run_words m cfg d = Ok d' -> Forall (made_page (gd_words d')) (gd_pages d').
Proof.
  intros (_ & _ & _ & _ & _ & _ & HS & HD & _) H. unfold run_words in H. destruct (omap _ (gd_pages d)) as [wss| |] eqn:E; try discriminate. cbn [obind] in H.
  destruct (place_words 0 _ _) as [ps ws] eqn:EP. apply Ok_inj in H. subst d'. cbn [gd_pages gd_words].
  apply omap_F2 in E. assert (F : Forall2 (fun (p : gpage) ws0 => forall w, In w ws0 -> fresh w) (gd_pages d) wss).
  { refine (F2_imp _ _ _ _ _ E). intros p ws0 HW.
    destruct (PropsWords.C22_words_partition (m_ordS m) (m_ordD m) (m_wordId m (g_num p)) cfg (g_num p) [] (g_chars p) HS HD) as (ws1 & E1 & C1 & W1 & _).
    rewrite E1 in HW. apply Ok_inj in HW. cbn [app] in HW. subst ws0. intros w Hw. destruct (W1 w Hw) as [_ WO].
    destruct WO as (_ & B1 & B2 & B3 & B4 & B5 & B6 & _ & B7 & B8 & _). unfold fresh, made. repeat (split; [assumption|]). assumption. }
  pose proof (place_made cfg (gd_pages d) wss [] [] ps ws F EP) as P. cbn [app] in P. rewrite app_nil_r in P. exact P.
Qed.

(** the boxes of words *)
Lemma deq_fin x v : deq x v = true -> is_fin v = true -> is_fin x = true.
Proof.
  intros D F. destruct (deq_nn _ _ D) as [N1 N2]. apply deq_E in D; [|exact N1|exact N2]. apply E_fin_iff; [exact N1|]. rewrite D. apply E_fin_iff; [exact N2|exact F].
Qed.
Lemma deq_refl' x : is_fin x = true -> deq x x = true.
Proof. intros F. apply deq_refl, fin_nn, F. Qed.
Lemma min_run_least (f : position -> double) l : l <> [] -> (forall p, In p l -> is_fin (f p) = true) ->
  is_least (fold_left (fun x p => minimum x (f p)) l DBL_MAX) (map f l).
Proof.
  intros NE F. assert (HN : forall p, In p l -> nn (f p)) by (intros p Hp; apply fin_nn, F, Hp).
  destruct (nn_min_run f l DBL_MAX (eq_refl _) HN) as (_ & _ & R3 & _). split.
  - intros v Hv. apply in_map_iff in Hv as (p & <- & Hp). exact (R3 p Hp).
  - destruct l as [|p0 t] eqn:EL; [congruence|]. rewrite <- EL in *.
    destruct (min_run_tight f l DBL_MAX (eq_refl _) HN) as (p & Hp & D).
    + exists p0. assert (I0 : In p0 l) by (rewrite EL; left; reflexivity). split; [exact I0|]. apply fin_le_max, F, I0.
    + exists (f p). split; [apply in_map, Hp|exact D].
Qed.
Lemma max_run_greatest (f : position -> double) l : (forall p, In p l -> is_fin (f p) = true) ->
  is_greatest (fold_left (fun x p => maximum x (f p)) l DBL_MIN) (DBL_MIN :: map f l).
Proof.
  intros F. assert (HN : forall p, In p l -> nn (f p)) by (intros p Hp; apply fin_nn, F, Hp).
  destruct (nn_max_run f l DBL_MIN (eq_refl _) HN) as (R1 & R2 & R3 & R4). split.
  - intros v [<-|Hv]; [exact R2|]. apply in_map_iff in Hv as (p & <- & Hp). exact (R3 p Hp).
  - destruct R4 as [R4|(q & Hq & R4)].
    + exists DBL_MIN. split; [left; reflexivity|]. rewrite R4. apply deq_refl. reflexivity.
    + exists (f q). split; [right; apply in_map, Hq|]. rewrite R4. apply deq_refl, HN, Hq.
Qed.
Lemma made_around w : made w -> (forall c, In c (w_chars w) -> finite_box (c_pos c)) -> around (w_pos w) (map c_pos (w_chars w)).
Proof.
  intros (_ & (c & t & B & _) & P1 & P2 & P3 & P4) F. set (ps := map c_pos (w_chars w)) in *.
  assert (NE : ps <> []) by (unfold ps; rewrite B; discriminate).
  assert (FP : forall p, In p ps -> finite_box p) by (intros p Hp; apply in_map_iff in Hp as (x & <- & Hx); exact (F x Hx)).
  destruct (bbox_fields ps pos_default) as (A1 & A2 & A3 & A4). unfold bbox in P1, P2, P3, P4. rewrite A1 in P1. rewrite A2 in P2. rewrite A3 in P3. rewrite A4 in P4.
  unfold around. rewrite P1, P2, P3, P4. unfold pos_default. cbn [leftX upperY rightX lowerY].
  split; [|split; [|split]].
  - apply min_run_least; [exact NE|]. intros p Hp. apply (FP p Hp).
  - apply min_run_least; [exact NE|]. intros p Hp. apply (FP p Hp).
  - apply max_run_greatest. intros p Hp. apply (FP p Hp).
  - apply max_run_greatest. intros p Hp. apply (FP p Hp).
Qed.
Lemma least_fin x l : is_least x l -> (forall v, In v l -> is_fin v = true) -> is_fin x = true.
Proof. intros (_ & v & Hv & D) F. exact (deq_fin _ _ D (F v Hv)). Qed.
Lemma greatest_fin x l : is_greatest x l -> (forall v, In v l -> is_fin v = true) -> is_fin x = true.
Proof. intros (_ & v & Hv & D) F. exact (deq_fin _ _ D (F v Hv)). Qed.
Lemma min_fin_b : is_fin DBL_MIN = true. Proof. vm_compute. reflexivity. Qed.
Lemma around_finite b ps : around b ps -> (forall p, In p ps -> finite_box p) -> finite_box b.
Proof.
  intros (A & B & C & D) F. split; [|split; [|split]].
  - apply (least_fin _ _ A). intros v Hv. apply in_map_iff in Hv as (p & <- & Hp). apply (F p Hp).
  - apply (least_fin _ _ B). intros v Hv. apply in_map_iff in Hv as (p & <- & Hp). apply (F p Hp).
  - apply (greatest_fin _ _ C). intros v [<-|Hv]; [exact min_fin_b|]. apply in_map_iff in Hv as (p & <- & Hp). apply (F p Hp).
  - apply (greatest_fin _ _ D). intros v [<-|Hv]; [exact min_fin_b|]. apply in_map_iff in Hv as (p & <- & Hp). apply (F p Hp).
Qed.

(** ** Boxes around boxes *)
Lemma dle_antisym' x y : dle x y = true -> dle y x = true -> deq x y = true.
Proof. intros H1 H2. destruct (dle_nn _ _ H1). apply dle_E in H1; [|assumption..]. apply dle_E in H2; [|assumption..]. apply deq_E; [assumption..|lra]. Qed.
Lemma deq_trans' x y z : deq x y = true -> deq y z = true -> deq x z = true.
Proof. intros H1 H2. destruct (deq_nn _ _ H1), (deq_nn _ _ H2). apply deq_E in H1; [|assumption..]. apply deq_E in H2; [|assumption..]. apply deq_E; [assumption..|lra]. Qed.
Lemma deq_le x y : deq x y = true -> dle x y = true.
Proof. apply deq_dle. Qed.
(** [lo]/[hi]: the lower/upper side of the inner boxes; [vs]: their coordinates *)
Lemma compose_least {A} (x : double) (lo hi : A -> double) (vs : A -> list double) (l : list A) :
  is_least x (flat_map (fun a => [lo a; hi a]) l) -> (forall a, In a l -> is_least (lo a) (vs a) /\ is_greatest (hi a) (DBL_MIN :: vs a)) ->
  is_least x (flat_map vs l).
Proof.
  intros [L (v & Hv & D)] H.
  assert (LE : forall a, In a l -> dle x (lo a) = true) by (intros a Ha; apply L, in_flat_map; exists a; split; [exact Ha|left; reflexivity]).
  split.
  - intros u Hu. apply in_flat_map in Hu as (a & Ha & Hu). destruct (H a Ha) as [[A1 _] _]. apply (dle_trans _ _ _ (LE a Ha) (A1 u Hu)).
  - apply in_flat_map in Hv as (a & Ha & Hv). destruct (H a Ha) as [[A1 (u & Hu & Du)] [B1 (w & Hw & Dw)]].
    exists u. split; [apply in_flat_map; exists a; split; assumption|].
    destruct Hv as [<-|[<-|[]]]; [exact (deq_trans' _ _ _ D Du)|].
    apply dle_antisym'; [apply (dle_trans _ _ _ (LE a Ha)), deq_le, Du|].
    apply (dle_trans _ (hi a)); [apply B1; right; exact Hu|]. apply deq_le. rewrite deq_sym. exact D.
Qed.
Lemma compose_greatest {A} (x : double) (lo hi : A -> double) (vs : A -> list double) (l : list A) :
  is_greatest x (DBL_MIN :: flat_map (fun a => [lo a; hi a]) l) -> (forall a, In a l -> is_least (lo a) (vs a) /\ is_greatest (hi a) (DBL_MIN :: vs a)) ->
  is_greatest x (DBL_MIN :: flat_map vs l).
Proof.
  intros [L (v & Hv & D)] H.
  assert (LE : forall a, In a l -> dle (hi a) x = true) by (intros a Ha; apply L; right; apply in_flat_map; exists a; split; [exact Ha|right; left; reflexivity]).
  split.
  - intros u [<-|Hu]; [apply L; left; reflexivity|]. apply in_flat_map in Hu as (a & Ha & Hu). destruct (H a Ha) as [_ [A1 _]]. apply (dle_trans _ (hi a)); [apply A1; right; exact Hu|exact (LE a Ha)].
  - destruct Hv as [<-|Hv]; [exists DBL_MIN; split; [left; reflexivity|exact D]|].
    apply in_flat_map in Hv as (a & Ha & Hv). destruct (H a Ha) as [[A1 (u & Hu & Du)] [B1 (w & Hw & Dw)]].
    destruct Hv as [<-|[<-|[]]].
    + exists u. split; [right; apply in_flat_map; exists a; split; assumption|]. exact (deq_trans' _ _ _ D Du).
    + exists w. split; [|exact (deq_trans' _ _ _ D Dw)]. destruct Hw as [<-|Hw]; [left; reflexivity|right; apply in_flat_map; exists a; split; assumption].
Qed.
Lemma xs_map {A} (f : A -> position) l : xs (map f l) = flat_map (fun a => [leftX (f a); rightX (f a)]) l.
Proof. unfold xs. induction l as [|a l IH]; cbn [map flat_map]; [reflexivity|]. rewrite IH. reflexivity. Qed.
Lemma ys_map {A} (f : A -> position) l : ys (map f l) = flat_map (fun a => [upperY (f a); lowerY (f a)]) l.
Proof. unfold ys. induction l as [|a l IH]; cbn [map flat_map]; [reflexivity|]. rewrite IH. reflexivity. Qed.
Lemma xs_flat {A} (f : A -> list position) l : xs (flat_map f l) = flat_map (fun a => xs (f a)) l.
Proof. induction l as [|a l IH]; cbn [flat_map]; [reflexivity|]. rewrite <- IH. unfold xs. apply flat_map_app. Qed.
Lemma ys_flat {A} (f : A -> list position) l : ys (flat_map f l) = flat_map (fun a => ys (f a)) l.
Proof. induction l as [|a l IH]; cbn [flat_map]; [reflexivity|]. rewrite <- IH. unfold ys. apply flat_map_app. Qed.
Lemma compose_box {A} b (f : A -> position) (g : A -> list position) l : smallest_box b (map f l) ->
  (forall a, In a l -> smallest_box (f a) (g a)) -> smallest_box b (flat_map g l).
Proof.
  intros (H1 & H2 & H3 & H4) H. rewrite xs_map in H1, H3. rewrite ys_map in H2, H4. unfold smallest_box. rewrite xs_flat, ys_flat.
  split; [|split; [|split]].
  - apply (compose_least _ (fun a => leftX (f a)) (fun a => rightX (f a)) _ _ H1). intros a Ha. destruct (H a Ha) as (B1 & _ & B3 & _). split; assumption.
  - apply (compose_least _ (fun a => upperY (f a)) (fun a => lowerY (f a)) _ _ H2). intros a Ha. destruct (H a Ha) as (_ & B2 & _ & B4). split; assumption.
  - apply (compose_greatest _ (fun a => leftX (f a)) (fun a => rightX (f a)) _ _ H3). intros a Ha. destruct (H a Ha) as (B1 & _ & B3 & _). split; assumption.
  - apply (compose_greatest _ (fun a => upperY (f a)) (fun a => lowerY (f a)) _ _ H4). intros a Ha. destruct (H a Ha) as (_ & B2 & _ & B4). split; assumption.
Qed.
Lemma smallest_finite b ps : smallest_box b ps -> (forall p, In p ps -> finite_box p) -> finite_box b.
Proof.
  intros (A & B & C & D) F.
  assert (FX : forall v, In v (xs ps) -> is_fin v = true) by (intros v Hv; apply in_flat_map in Hv as (p & Hp & [<-|[<-|[]]]); apply (F p Hp)).
  assert (FY : forall v, In v (ys ps) -> is_fin v = true) by (intros v Hv; apply in_flat_map in Hv as (p & Hp & [<-|[<-|[]]]); apply (F p Hp)).
  split; [|split; [|split]].
  - apply (least_fin _ _ A FX).
  - apply (least_fin _ _ B FY).
  - apply (greatest_fin _ _ C). intros v [<-|Hv]; [exact min_fin_b|exact (FX v Hv)].
  - apply (greatest_fin _ _ D). intros v [<-|Hv]; [exact min_fin_b|exact (FY v Hv)].
Qed.

(** ** The lines *)
Definition line_fonts (h : heap) (ws : list nat) (fn : str) (fs : double) : Prop :=
  chars_of h ws <> [] -> (N.of_nat (length (chars_of h ws)) < 2 ^ 32)%N ->
  (forall c, In c (chars_of h ws) -> is_nan_d (c_fontSize c) = false /\ is_nan_d (c_base c) = false) ->
  most_frequent str_eqb fn (map c_fontName (chars_of h ws)) /\ most_frequent deq fs (map c_fontSize (chars_of h ws)).
Lemma line_fonts_perm h ws ws' fn fs : Permutation ws ws' -> line_fonts h ws fn fs -> line_fonts h ws' fn fs.
Proof.
  intros P H N1 N2 N3. assert (PC : Permutation (chars_of h ws) (chars_of h ws')) by (apply Permutation_flat_map, P). destruct H as [H1 H2].
  - intros E. rewrite E in PC. apply Permutation_nil in PC. congruence.
  - rewrite (Permutation_length PC). exact N2.
  - intros c Hc. apply N3, (Permutation_in _ PC), Hc.
  - split; (eapply LinesProofs.most_frequent_perm; [apply Permutation_map, PC|]); assumption.
Qed.
Lemma map_plain {B} (f : character -> B) (F : forall c, f (plain c) = f c) cs cs' : map plain cs = map plain cs' -> map f cs = map f cs'.
Proof. intros E. rewrite <- (map_ext _ _ F cs), <- (map_ext _ _ F cs'), <- !(map_map plain f), E. reflexivity. Qed.
Lemma chars_plain (h h' : heap) ws : (forall i, map plain (w_chars (h i)) = map plain (w_chars (h' i))) -> map plain (chars_of h ws) = map plain (chars_of h' ws).
Proof. intros E. unfold chars_of. induction ws as [|w ws IH]; cbn [flat_map]; [reflexivity|]. rewrite !map_app, E, IH. reflexivity. Qed.
Lemma numbers_plain cs cs' : map plain cs = map plain cs' -> (forall c, In c cs' -> is_nan_d (c_fontSize c) = false /\ is_nan_d (c_base c) = false) ->
  forall c, In c cs -> is_nan_d (c_fontSize c) = false /\ is_nan_d (c_base c) = false.
Proof.
  intros E H c Hc. apply (in_map plain) in Hc. rewrite E in Hc. apply in_map_iff in Hc as (c' & EC & Hc'). pose proof (H c' Hc') as [A B].
  pose proof (f_equal c_fontSize EC) as E1. pose proof (f_equal c_base EC) as E2. cbn [plain c_fontSize c_base] in E1, E2. rewrite <- E1, <- E2. split; assumption.
Qed.
Lemma line_fonts_ext (h h' : heap) ws fn fs : (forall i, map plain (w_chars (h i)) = map plain (w_chars (h' i))) -> line_fonts h ws fn fs -> line_fonts h' ws fn fs.
Proof.
  intros E H N1 N2 N3. pose proof (chars_plain h h' ws E) as EC. rewrite <- (map_plain c_fontName (fun c => eq_refl) _ _ EC), <- (map_plain c_fontSize (fun c => eq_refl) _ _ EC). apply H.
  - intros Q. rewrite Q in EC. destruct (chars_of h' ws); [congruence|discriminate].
  - apply (f_equal (@length _)) in EC. rewrite !map_length in EC. rewrite EC. exact N2.
  - exact (numbers_plain _ _ EC N3).
Qed.
Definition line_base (h : heap) (ws : list nat) (b : double) : Prop :=
  chars_of h ws <> [] -> (N.of_nat (length (chars_of h ws)) < 2 ^ 32)%N ->
  (forall c, In c (chars_of h ws) -> is_nan_d (c_fontSize c) = false /\ is_nan_d (c_base c) = false) -> most_frequent deq b (map c_base (chars_of h ws)).
Lemma line_base_perm h ws ws' b : Permutation ws ws' -> line_base h ws b -> line_base h ws' b.
Proof.
  intros P H N1 N2 N3. assert (PC : Permutation (chars_of h ws) (chars_of h ws')) by (apply Permutation_flat_map, P).
  eapply LinesProofs.most_frequent_perm; [apply Permutation_map, PC|]. apply H.
  - intros E. rewrite E in PC. apply Permutation_nil in PC. congruence.
  - rewrite (Permutation_length PC). exact N2.
  - intros c Hc. apply N3, (Permutation_in _ PC), Hc.
Qed.
Lemma line_base_ext (h h' : heap) ws b : (forall i, map plain (w_chars (h i)) = map plain (w_chars (h' i))) -> line_base h ws b -> line_base h' ws b.
Proof.
  intros E H N1 N2 N3. pose proof (chars_plain h h' ws E) as EC. rewrite <- (map_plain c_base (fun c => eq_refl) _ _ EC). apply H.
  - intros Q. rewrite Q in EC. destruct (chars_of h' ws); [congruence|discriminate].
  - apply (f_equal (@length _)) in EC. rewrite !map_length in EC. rewrite EC. exact N2.
  - exact (numbers_plain _ _ EC N3).
Qed.
Definition line_made (h : heap) (l : Lines.tline) : Prop :=
  Lines.l_words l <> [] /\
  (exists i, In i (Lines.l_words l) /\ pageNum (Lines.l_pos l) = pageNum (w_pos (h i)) /\ 
     forall l1 x l2 y l3, Lines.l_words l = l1 ++ x :: l2 ++ y :: l3 -> read_before (rotation (w_pos (h i))) (w_pos (h y)) (w_pos (h x)) = false) /\
  smallest_box (Lines.l_pos l) (map (fun i => w_pos (h i)) (Lines.l_words l)) /\
  line_fonts h (Lines.l_words l) (Lines.l_fontName l) (Lines.l_fontSize l) /\ line_base h (Lines.l_words l) (Lines.l_base l).
Lemma line_of_made h ws l : line_of h ws l -> line_made h l.
Proof.
  intros (NE & P & OR & _ & (w & t & EW & PN & RO & _) & SB & _ & FN). split; [|split; [|split; [|split]]].
  - intros E. rewrite E in P. apply Permutation_sym, Permutation_nil in P. congruence.
  - exists w. split; [apply (Permutation_in _ P); rewrite EW; left; reflexivity|]. split; [exact PN|]. rewrite RO in OR. exact OR.
  - apply (LinesProofs.smallest_box_perm _ _ _ (Permutation_map (pos_of h) P) SB).
  - apply (line_fonts_perm h ws); [exact P|]. intros N1 N2 N3. destruct (FN N1 N2 N3) as (A & B & _). exact (conj A B).
  - apply (line_base_perm h ws); [exact P|]. intros N1 N2 N3. destruct (FN N1 N2 N3) as (_ & _ & A & _). exact A.
Qed.
Lemma merged_made h acw a b : merged_from h acw a b -> Forall (line_made h) a -> Forall (line_made h) b.
Proof.
  induction 1 as [|l1 p q l2 pq ls' _ LO _ IH]; intros F; [exact F|]. apply IH. apply Forall_app in F as [F1 F2]. apply Forall_app. split; [exact F1|].
  inversion F2 as [|? ? _ F3]; subst. inversion F3 as [|? ? _ F4]; subst. constructor; [exact (line_of_made _ _ _ LO)|exact F4].
Qed.
Lemma grouped_made h acw ws n rs gs : grouped_lines h acw ws n rs gs -> Forall (line_made h) (concat gs).
Proof.
  induction 1 as [|n r rs g gs (bs & start & _ & _ & _ & LS & _ & MF & _) _ _ IH]; cbn [concat]; [constructor|]. apply Forall_app. split; [|exact IH].
  assert (F : Forall (line_made h) (map content g)).
  { apply (merged_made _ _ _ _ MF). clear -LS. induction LS as [|y l bs start H _ IH]; constructor; [exact (line_of_made _ _ _ H)|exact IH]. }
  apply Forall_forall. intros l Hl. rewrite Forall_forall in F. exact (F (content l) (in_map content g l Hl)).
Qed.
Section Lns.
  Context (implW : (nat -> nat -> bool) -> list nat -> list nat) (implL : (Lines.tline -> Lines.tline -> bool) -> list Lines.tline -> list Lines.tline).
  Context (ordS : list (str * N) -> list (str * N)) (ordD : list (double * N) -> list (double * N)).
  Context (ordR : list (Z * list (double * list nat)) -> list (Z * list (double * list nat))) (ordY : list (double * list nat) -> list (double * list nat)).
  Context (acw : double) (h : heap) (HW : sort_ok implW) (HL : sort_ok implL).
  Context (HS : forall m, Permutation m (ordS m)) (HD : forall m, Permutation m (ordD m)).
  Context (HR : forall m, Permutation m (ordR m)) (HY : forall m, Permutation m (ordY m)).
  Definition finite_segs (segs : list (position * list nat)) : Prop :=
    forall s, In s segs -> finite_words h (snd s) /\ finite_words h (flat_map (with_parts h) (snd s)).
  Lemma segments_made segs : forall n r, finite_segs segs -> Lines.segments_lines implW implL ordS ordD ordR ordY acw h n segs = Ok r -> Forall (line_made h) (page_lines r).
  Proof.
    induction segs as [|[box ws] t IH]; intros n r F H; cbn [Lines.segments_lines] in H; [apply Ok_inj in H; subst; constructor|].
    destruct (Lines.segment_lines _ _ _ _ _ _ _ _ n ws) as [gs| |] eqn:EG; try discriminate. cbn [obind] in H.
    destruct (match ws with [] => _ | _ :: _ => _ end) as [tb| |]; try discriminate. cbn [obind] in H.
    destruct (Lines.segments_lines _ _ _ _ _ _ _ _ _ t) as [rest| |] eqn:ER; try discriminate. cbn [obind] in H. apply Ok_inj in H. subst r.
    unfold page_lines. cbn [flat_map fst]. apply Forall_app. split.
    - destruct (F (box, ws) (or_introl eq_refl)) as [F1 F2].
      destruct (PropsLines.C25_lines _ _ _ _ _ _ _ _ _ _ _ HW HL HS HD HR HY F1 F2 EG) as (rs & _ & _ & GL). exact (grouped_made _ _ _ _ _ _ GL).
    - apply (IH _ _ (fun s Hs => F s (or_intror Hs)) ER).
  Qed.
  Lemma detect_made absd pages : forall n r, Lines.detectTextLines implW implL ordS ordD ordR ordY acw absd h n pages = Ok r ->
    Forall2 (fun segs rp => length (fst rp) = length segs /\ (finite_segs segs -> Forall (line_made h) (page_lines (fst rp)))) pages r.
  Proof.
    intros n r H. pose proof (detect_words _ _ _ _ _ _ _ _ HW HL HR HY _ _ _ _ H) as DW. revert n r H DW.
    induction pages as [|segs t IH]; intros n r H DW; cbn [Lines.detectTextLines] in H; [apply Ok_inj in H; subst; constructor|].
    destruct (Lines.segments_lines _ _ _ _ _ _ _ _ n segs) as [rp| |] eqn:ES; try discriminate. cbn [obind] in H.
    destruct (Lines.detectTextLines _ _ _ _ _ _ _ _ _ _ t) as [rest| |] eqn:ER; try discriminate. cbn [obind] in H. apply Ok_inj in H. subst r.
    inversion DW as [|? ? ? ? [_ LN] DW']; subst. constructor; [split; [exact LN|intros F; exact (segments_made _ _ _ F ES)]|exact (IH _ _ ER DW')].
  Qed.
End Lns.
Lemma place_pages_all (Q : gpage -> Lines.tline -> Prop) ps : forall k r pre post ps' ls,
  Forall (fun p => Forall (fun s => sg_lines s = []) (g_segs p)) ps ->
  Forall2 (fun p rp => length (fst rp) = length (g_segs p) /\ Forall (Q p) (page_lines (fst rp))) ps r ->
  place_pages (length pre) k ps r = (ps', ls) ->
  Forall2 (fun p p' => forall i, In i (flat_map sg_lines (g_segs p')) -> Q p (gl_line (nth i (pre ++ ls ++ post) no_line))) ps ps'.
Proof.
  induction ps as [|p ps IH]; intros k r pre post ps' ls F D H; inversion D as [|? rp ? r' [L P] D2]; subst; cbn [place_pages] in H.
  - apply pair_equal_spec in H as [<- <-]. constructor.
  - destruct rp as [rp hs]. cbn [fst] in *. destruct (place_lines _ _ (g_segs p) rp) as [segs l1] eqn:EL. destruct (place_pages _ _ ps r') as [ps1 rest] eqn:ER in H.
    inversion F as [|? ? NL F2]; subst.
    apply pair_equal_spec in H as [<- <-]. destruct (place_lines_spec _ _ _ _ _ _ L NL EL) as [SI SL].
    pose proof (page_glines_spec (length pre) hs l1) as GL. set (g := page_glines (length pre) hs l1) in *.
    assert (LG : length g = length l1) by (rewrite <- (map_length gl_line g), GL, map_length; reflexivity).
    specialize (IH (k + length segs) r' (pre ++ g) post ps1 rest F2 D2). rewrite app_length, LG in IH. specialize (IH ER).
    constructor; [|rewrite <- !app_assoc in *; exact IH]. cbn [set_segs g_segs]. rewrite SI. intros i Hi. apply in_seq in Hi.
    rewrite Forall_forall in P. apply P. rewrite <- SL, <- GL. rewrite app_nth2 by lia. rewrite <- app_assoc. rewrite app_nth1 by lia. apply in_map, nth_In. lia.
Qed.

Definition finite_page (ws : list word) (p : gpage) : Prop := forall i, In i (g_words p) -> finite_box (w_pos (at_words ws i)).
Lemma finite_core ws ws' p : map core ws = map core ws' -> finite_page ws' p -> finite_page ws p.
Proof. intros E H i Hi. pose proof (at_core _ _ i E) as C. unfold core in C. assert (P : w_pos (at_words ws i) = w_pos (at_words ws' i)) by congruence. rewrite P. exact (H i Hi). Qed.
Definition lined (ws : list word) (ls : list gline) (p : gpage) : Prop :=
  finite_page ws p -> forall i, In i (flat_map sg_lines (g_segs p)) -> line_made (word_heap ws) (gl_line (nth i ls no_line)).
Lemma line_made_ext (h h' : heap) l : (forall i, w_pos (h i) = w_pos (h' i)) -> (forall i, map plain (w_chars (h i)) = map plain (w_chars (h' i))) -> line_made h l -> line_made h' l.
Proof.
  intros E EP (A & (i & B1 & B2 & B3) & C & D). split; [exact A|]. split; [|split; [|destruct D as [D1 D2]; split; [exact (line_fonts_ext _ _ _ _ _ EP D1)|exact (line_base_ext _ _ _ _ EP D2)]]].
  - exists i. split; [exact B1|]. rewrite <- (E i). split; [exact B2|]. intros l1 x l2 y l3 EL. rewrite <- (E x), <- (E y). exact (B3 l1 x l2 y l3 EL).
  - rewrite <- (map_ext _ _ E). exact C.
Qed.
Lemma core_pos ws ws' : map core ws = map core ws' -> forall i, w_pos (word_heap ws i) = w_pos (word_heap ws' i).
Proof. intros E i. pose proof (core_nth _ _ i E) as C. unfold core in C. unfold word_heap. congruence. Qed.
Lemma core_chars ws ws' : map core ws = map core ws' -> forall i, map plain (w_chars (word_heap ws i)) = map plain (w_chars (word_heap ws' i)).
Proof. intros E i. pose proof (f_equal w_chars (core_nth _ _ i E)) as C. exact C. Qed.
Lemma core_text ws ws' : map core ws = map core ws' -> forall i, w_text (word_heap ws i) = w_text (word_heap ws' i).
Proof. intros E i. pose proof (core_nth _ _ i E) as C. unfold core in C. unfold word_heap. congruence. Qed.
Lemma gl_ext ls ls' i : map gl_line ls = map gl_line ls' -> gl_line (nth i ls no_line) = gl_line (nth i ls' no_line).
Proof. intros E. rewrite <- !(map_nth gl_line). rewrite E. reflexivity. Qed.
Lemma lined_ext ws ws' ls ls' p : map core ws = map core ws' -> map gl_line ls = map gl_line ls' -> lined ws ls p -> lined ws' ls' p.
Proof.
  intros E1 E2 H F i Hi. rewrite <- (gl_ext _ _ i E2). apply (line_made_ext (word_heap ws)); [apply core_pos, E1|apply core_chars, E1|]. apply H; [|exact Hi]. exact (finite_core _ _ _ E1 F).
Qed.
Lemma place_pages_keeps_words ps : forall n k r ps' ls, length r = length ps -> place_pages n k ps r = (ps', ls) -> Forall2 (fun p p' => g_words p' = g_words p) ps ps'.
Proof.
  induction ps as [|p ps IH]; intros n k r ps' ls L H; destruct r as [|[rp hs] r]; try discriminate; cbn [place_pages] in H.
  - apply pair_equal_spec in H as [<- _]. constructor.
  - destruct (place_lines _ _ _ _) as [segs l1]. destruct (place_pages _ _ ps r) as [ps1 rest] eqn:E. apply pair_equal_spec in H as [<- _].
    constructor; [reflexivity|exact (IH _ _ _ _ _ (f_equal pred L) E)].
Qed.
Lemma lines_made m d d' : sane m -> Forall (made_page (gd_words d)) (gd_pages d) -> Forall segmented (gd_pages d) -> run_lines m d = Ok d' ->
  Forall (lined (gd_words d') (gd_lines d')) (gd_pages d').
Proof.
  intros SA MP SG H. unfold run_lines in H. destruct (Lines.detectTextLines _ _ _ _ _ _ _ _ _ _ _) as [r| |] eqn:E; try discriminate. cbn [obind] in H.
  destruct (place_pages 0 0 (gd_pages d) r) as [ps ls] eqn:EP. apply Ok_inj in H. subst d'. cbn [gd_words gd_lines gd_pages].
  destruct SA as (_ & _ & HW & HL & _ & _ & HS & HD & _ & HR & HY).
  apply (detect_made _ _ _ _ _ _ _ _ HW HL HS HD HR HY) in E. apply F2_map_l in E.
  set (Q := fun (p : gpage) (l : Lines.tline) => finite_page (gd_words d) p -> line_made (word_heap (gd_words d)) l).
  assert (F1 : Forall (fun p => Forall (fun s => sg_lines s = []) (g_segs p)) (gd_pages d)) by (apply Forall_forall; intros p Hp; rewrite Forall_forall in SG; apply (SG p Hp)).
  assert (F2 : Forall2 (fun p rp => length (fst rp) = length (g_segs p) /\ Forall (Q p) (page_lines (fst rp))) (gd_pages d) r).
  { clear -E MP SG. induction E as [|p rp pl rl [L H] _ IH]; [constructor|]. inversion MP as [|? ? M1 M2]; subst. inversion SG as [|? ? S1 S2]; subst.
    constructor; [|exact (IH M2 S2)]. rewrite map_length in L. split; [exact L|]. apply Forall_forall. intros l Hl FP.
    assert (FS : finite_segs (word_heap (gd_words d)) (map (fun s => (sg_pos s, sg_words s)) (g_segs p))).
    { intros s Hs. apply in_map_iff in Hs as (s0 & <- & Hs). cbn [snd]. destruct S1 as [SP _].
      assert (SUB : forall w, In w (sg_words s0) -> In w (g_words p)) by (intros w Hw; apply (Permutation_in w (Permutation_sym SP)), in_flat_map; exists s0; split; assumption).
      split.
      - intros w Hw. exact (FP w (SUB w Hw)).
      - intros w Hw. apply in_flat_map in Hw as (b & Hb & Hw). unfold with_parts in Hw. destruct (w_partOf (word_heap (gd_words d) b)); [destruct Hw|].
        destruct Hw as [<-|Hw]; [exact (FP b (SUB b Hb))|]. destruct (M1 b (SUB b Hb)) as (_ & _ & M3). exact (FP w (M3 w Hw)). }
    specialize (H FS). rewrite Forall_forall in H. exact (H l Hl). }
  pose proof (place_pages_all Q (gd_pages d) 0 r [] [] ps ls F1 F2 EP) as PA. rewrite app_nil_r in PA. cbn [app] in PA.
  assert (LR : length r = length (gd_pages d)) by (clear -E; induction E; cbn [length]; [reflexivity|congruence]).
  pose proof (place_pages_keeps_words (gd_pages d) 0 0 r ps ls LR EP) as K.
  clear -PA K. revert K. induction PA as [|p p' pl pl' H _ IH]; intros K; [constructor|]. inversion K as [|? ? ? ? K1 K2]; subst. constructor; [|exact (IH K2)].
  intros FP i Hi. apply (H i Hi). intros j Hj. apply FP. rewrite K1. exact Hj.
Qed.

(** ** The blocks *)
Definition block_text (h : heap) (b : block) : Prop :=
  b_text b = blank_separated (map (fun l => blank_separated (map (fun i => w_text (h i)) l)) (b_lines b)).
Definition block_made (h : heap) (b : block) : Prop :=
  (forall l, In l (b_lines b) -> l <> [] /\ exists i, In i l /\ forall l1 x l2 y l3, l = l1 ++ x :: l2 ++ y :: l3 ->
     read_before (rotation (w_pos (h i))) (w_pos (h y)) (w_pos (h x)) = false) /\
  (exists i, In i (concat (b_lines b)) /\ pageNum (b_pos b) = pageNum (w_pos (h i))) /\
  smallest_box (b_pos b) (map (fun i => w_pos (h i)) (concat (b_lines b))) /\ block_fonts h b.
Lemma block_fonts_ext (h h' : heap) b : (forall i, map plain (w_chars (h i)) = map plain (w_chars (h' i))) -> block_fonts h b -> block_fonts h' b.
Proof.
  intros E H N2 N3. pose proof (chars_plain h h' (concat (b_lines b)) E) as EC. destruct H as (fonts & F & A & B).
  - apply (f_equal (@length _)) in EC. rewrite !map_length in EC. rewrite EC. exact N2.
  - exact (numbers_plain _ _ EC N3).
  - exists fonts. split; [|exact (conj A B)]. refine (F2_imp _ _ _ _ _ F). intros l f [X Y].
    pose proof (chars_plain h h' l E) as EL. rewrite <- (map_plain c_fontName (fun c => eq_refl) _ _ EL), <- (map_plain c_fontSize (fun c => eq_refl) _ _ EL). exact (conj X Y).
Qed.
Definition blocked (ws : list word) (p : gpage) : Prop := forall b, In b (g_blocks p) ->
  b_lines b <> [] /\ block_text (word_heap ws) b /\ (finite_page ws p -> block_made (word_heap ws) b).
Lemma blocked_core ws ws' p : map core ws = map core ws' -> blocked ws p -> blocked ws' p.
Proof.
  intros E H b Hb. destruct (H b Hb) as (A & B & C). split; [exact A|]. split.
  - unfold block_text in *. rewrite B. f_equal. apply map_ext. intros l. f_equal. apply map_ext. intros i. apply core_text, E.
  - intros F. destruct (C (finite_core _ _ _ E F)) as (C1 & (i & C2 & C3) & C4 & C5). pose proof (core_pos _ _ E) as EP. split; [|split; [|split; [|exact (block_fonts_ext _ _ _ (core_chars _ _ E) C5)]]].
    + intros l Hl. destruct (C1 l Hl) as (D1 & j & D2 & D3). split; [exact D1|]. exists j. split; [exact D2|]. intros l1 x l2 y l3 EL. rewrite <- (EP x), <- (EP y), <- (EP j). exact (D3 l1 x l2 y l3 EL).
    + exists i. split; [exact C2|]. rewrite <- EP. exact C3.
    + rewrite <- (map_ext _ _ EP). exact C4.
Qed.
Lemma concat_flat {A B} (f : A -> list B) l : concat (map f l) = flat_map f l.
Proof. symmetry. apply flat_map_concat_map. Qed.
Lemma chars_app (h : heap) l l' : chars_of h (l ++ l') = chars_of h l ++ chars_of h l'.
Proof. apply flat_map_app. Qed.
Lemma chars_nonempty (h : heap) l : l <> [] -> (forall w, In w l -> w_chars (h w) <> []) -> chars_of h l <> [].
Proof.
  destruct l as [|w l]; [congruence|]. intros _ H E. cbn [chars_of flat_map] in E. apply app_eq_nil in E as [E _]. exact (H w (or_introl eq_refl) E).
Qed.
Lemma fonts_from m ls (h : heap) lh num b :
  b_lines (new_block m lh num b) = map (words_of ls) (Blocks.tb_lines b) ->
  (forall i, In i (Blocks.tb_lines b) -> words_of ls i <> [] /\
     line_fonts h (words_of ls i) (Lines.l_fontName (gl_line (nth i ls no_line))) (Lines.l_fontSize (gl_line (nth i ls no_line))) /\ (forall w, In w (words_of ls i) -> w_chars (h w) <> [])) ->
  ((N.of_nat (length (Blocks.tb_lines b)) < 2 ^ 32)%N ->
     most_frequent str_eqb (Blocks.tb_fontName b) (map (fun l => Lines.l_fontName (gl_line (nth l ls no_line))) (Blocks.tb_lines b)) /\
     ((forall l, In l (Blocks.tb_lines b) -> is_nan_d (Lines.l_fontSize (gl_line (nth l ls no_line))) = false) ->
      most_frequent deq (Blocks.tb_fontSize b) (map (fun l => Lines.l_fontSize (gl_line (nth l ls no_line))) (Blocks.tb_lines b)))) ->
  block_fonts h (new_block m lh num b).
Proof.
  intros BL HL FN. unfold block_fonts. rewrite BL. cbn [new_block b_fontName b_fontSize]. intros N2 N3.
  assert (LEN : forall t, (forall i, In i t -> In i (Blocks.tb_lines b)) -> length t <= length (chars_of h (concat (map (words_of ls) t)))).
  { induction t as [|i t IH]; intros S0; cbn [map concat length]; [lia|]. rewrite chars_app, app_length. specialize (IH (fun j J => S0 j (or_intror J))).
    destruct (HL i (S0 i (or_introl eq_refl))) as (A & _ & B). pose proof (chars_nonempty h _ A B) as C. destruct (chars_of h (words_of ls i)); [congruence|]. cbn [length]. lia. }
  pose proof (LEN _ (fun i I => I)) as LB.
  assert (SUB : forall i, In i (Blocks.tb_lines b) -> forall c, In c (chars_of h (words_of ls i)) -> In c (chars_of h (concat (map (words_of ls) (Blocks.tb_lines b))))).
  { intros i Hi c Hc. unfold chars_of in *. apply in_flat_map in Hc as (w & Hw & Hc). apply in_flat_map. exists w. split; [|exact Hc]. apply in_concat. exists (words_of ls i). split; [apply in_map, Hi|exact Hw]. }
  assert (SL : forall t i, In i t -> length (chars_of h (words_of ls i)) <= length (chars_of h (concat (map (words_of ls) t)))).
  { induction t as [|x t IH]; intros i Hi; [destruct Hi|]. destruct Hi as [<-|Hi]; cbn [map concat]; rewrite chars_app, app_length; [lia|]. specialize (IH i Hi). lia. }
  assert (EACH : forall i, In i (Blocks.tb_lines b) ->
    most_frequent str_eqb (Lines.l_fontName (gl_line (nth i ls no_line))) (map c_fontName (chars_of h (words_of ls i))) /\
    most_frequent deq (Lines.l_fontSize (gl_line (nth i ls no_line))) (map c_fontSize (chars_of h (words_of ls i)))).
  { intros i Hi. destruct (HL i Hi) as (A & LF & B). apply LF; [exact (chars_nonempty h _ A B)| |intros c Hc; apply N3, (SUB i Hi c Hc)].
    pose proof (SL _ i Hi). lia. }
  destruct FN as [F1 F2]; [lia|].
  exists (map (fun i => (Lines.l_fontName (gl_line (nth i ls no_line)), Lines.l_fontSize (gl_line (nth i ls no_line)))) (Blocks.tb_lines b)).
  split; [|split].
  - clear -EACH. induction (Blocks.tb_lines b) as [|i t IH]; cbn [map]; constructor; [exact (EACH i (or_introl eq_refl))|exact (IH (fun j J => EACH j (or_intror J)))].
  - rewrite map_map. exact F1.
  - rewrite map_map. apply F2. intros i Hi. destruct (EACH i Hi) as [_ [I _]]. apply in_map_iff in I as (c & EC & Hc). rewrite <- EC. apply N3, (SUB i Hi c Hc).
Qed.
Lemma block_from m ls h0 h lh num b doc absd :
  (forall l, BlocksSpec.same_content (block_line (nth l ls no_line)) (lh l)) -> h0 = h ->
  BlocksSpec.block_of absd h0 doc (fun i => block_line (nth i ls no_line)) b ->
  b_lines (new_block m lh num b) <> [] /\ block_text h (new_block m lh num b) /\
  ((forall i, In i (Blocks.tb_lines b) -> line_made h (gl_line (nth i ls no_line)) /\ finite_box (Lines.l_pos (gl_line (nth i ls no_line))) /\
      (forall w, In w (words_of ls i) -> w_chars (h w) <> [])) -> block_made h (new_block m lh num b)).
Proof.
  intros SC -> (l0 & rest & EL & _ & PN & _ & _ & TX & BX & _ & FN & _).
  assert (WD : forall l, Blocks.bl_words (lh l) = words_of ls l) by (intros l; destruct (SC l) as (_ & _ & _ & _ & _ & W & _); rewrite W; reflexivity).
  assert (BL : b_lines (new_block m lh num b) = map (words_of ls) (Blocks.tb_lines b)) by (cbn [new_block b_lines]; apply map_ext; exact WD).
  split; [rewrite BL, EL; discriminate|]. split.
  - unfold block_text. rewrite BL. cbn [new_block b_text]. rewrite TX, map_map. reflexivity.
  - intros LM. unfold block_made. rewrite BL. cbn [new_block b_pos].
    assert (BX1 : smallest_box (Blocks.tb_pos b) (map (fun l => Lines.l_pos (gl_line (nth l ls no_line))) (Blocks.tb_lines b))).
    { apply BX. intros l Hl. apply (LM l Hl). }
    split; [|split; [|split]].
    + intros l Hl. apply in_map_iff in Hl as (i & <- & Hi). destruct (LM i Hi) as [(A & (j & B1 & _ & B3) & _) _]. split; [exact A|]. exists j. split; [exact B1|exact B3].
    + assert (I0 : In l0 (Blocks.tb_lines b)) by (rewrite EL; left; reflexivity). destruct (LM l0 I0) as [(_ & (j & B1 & B2 & _) & _) _]. exists j. split.
      * rewrite concat_flat. apply in_flat_map. exists l0. split; [exact I0|exact B1].
      * rewrite PN. exact B2.
    + rewrite concat_flat, map_flat_map. apply (compose_box _ (fun l => Lines.l_pos (gl_line (nth l ls no_line))) _ _ BX1). intros i Hi. apply (LM i Hi).
    + apply (fonts_from m ls h lh num b BL). { intros i Hi. destruct (LM i Hi) as ((NE & _ & _ & LF & _) & _ & NC). exact (conj NE (conj LF NC)). } exact FN.
Qed.
Lemma blocks_made m cfg qs d d' : sane m -> Forall (made_page (gd_words d)) (gd_pages d) -> Forall (lined (gd_words d) (gd_lines d)) (gd_pages d) -> inv2 cfg qs d ->
  run_blocks m d = Ok d' -> Forall (blocked (gd_words d')) (gd_pages d').
Proof.
  intros SA MP LM (_ & IL & N) H. unfold run_blocks in H.
  destruct (Blocks.detectTextBlocks _ _ _ _ _ _ _ _ _) as [[[pre fin] lh]| |] eqn:E; try discriminate. cbn [obind] in H. apply Ok_inj in H. subst d'. cbn [gd_words gd_pages].
  destruct SA as (_ & _ & _ & _ & _ & _ & HS & HD & _).
  assert (ND : NoDup (concat (map (@concat nat) (map (fun p => map sg_lines (g_segs p)) (gd_pages d))))).
  { unfold PipelineWhole.numbered, segment_line_ids in N. rewrite map_map. replace (concat _) with (flat_map (fun p => flat_map sg_lines (g_segs p)) (gd_pages d)); [rewrite N; apply seq_NoDup|].
    rewrite flat_map_concat_map. f_equal. apply map_ext. intros p. apply flat_map_concat_map. }
  destruct (PropsBlocks.C33_partition _ _ _ _ _ _ _ _ _ _ _ _ HS HD ND E) as (_ & PT & _).
  destruct (PropsBlocks.C33_lines _ _ _ _ _ _ _ _ _ _ _ _ HS HD ND E) as (SC & _).
  destruct (PropsBlocks.C33_blocks _ _ _ _ _ _ _ _ _ _ _ _ HS HD ND E) as (_ & GB). clear E ND N.
  apply F2_map_l in PT. revert MP LM IL GB. induction PT as [|p bs pl bl H _ IH]; intros MP LM IL GB; cbn [combine map]; [constructor|].
  inversion MP as [|? ? M1 M2]; subst. inversion LM as [|? ? L1 L2]; subst. inversion IL as [|? ? I1 I2]; subst.
  constructor; [|exact (IH M2 L2 I2 (fun b Hb => GB b (or_intror Hb)))]. clear IH.
  intros b Hb. cbn [set_blocks g_blocks] in Hb. destruct I1 as [PW NB]. rewrite NB in Hb. cbn [app] in Hb. apply in_map_iff in Hb as (b0 & <- & Hb0).
  destruct (In_nth_error _ _ Hb0) as [i Ei]. destruct (GB bs (or_introl eq_refl) i b0 Ei) as (_ & _ & _ & BO).
  destruct (block_from m (gd_lines d) (word_heap (gd_words d)) (word_heap (gd_words d)) lh (g_num p) b0 _ _ SC eq_refl BO) as (A & B & C).
  split; [exact A|]. split; [exact B|]. intros FP. apply C. intros l Hl.
  assert (FP' : finite_page (gd_words d) p) by exact FP.
  assert (IL1 : In l (flat_map sg_lines (g_segs p))).
  { rewrite flat_map_concat_map, <- H. apply in_concat. exists (Blocks.tb_lines b0). split; [apply in_map, Hb0|exact Hl]. }
  pose proof (L1 FP' l IL1) as LMl. split; [exact LMl|].
  assert (INP : forall w, In w (words_of (gd_lines d) l) -> In w (g_words p)).
  { intros w Hw. assert (IW : In w (flat_map (with_parts (word_heap (gd_words d))) (g_words p))).
    { apply (Permutation_in w (Permutation_sym PW)), in_flat_map. exists l. split; [exact IL1|exact Hw]. }
    apply in_flat_map in IW as (x & Hx & Hw'). unfold with_parts in Hw'. destruct (w_partOf (word_heap (gd_words d) x)); [destruct Hw'|].
    destruct Hw' as [<-|Hw']; [exact Hx|]. destruct (M1 x Hx) as (_ & _ & M3). exact (M3 w Hw'). }
  split.
  - destruct LMl as (_ & _ & SB & _). apply (smallest_finite _ _ SB). intros q Hq. apply in_map_iff in Hq as (w & <- & Hw). exact (FP' w (INP w Hw)).
  - intros w Hw. destruct (M1 w (INP w Hw)) as (_ & (_ & (ch & t & EC & _) & _) & _). unfold at_words in EC. unfold word_heap. rewrite EC. discriminate.
Qed.
Lemma blocked_ext ws p p' : g_words p' = g_words p ->
  (forall b', In b' (g_blocks p') -> exists b, In b (g_blocks p) /\ b_pos b' = b_pos b /\ b_text b' = b_text b /\ b_lines b' = b_lines b /\ b_fontName b' = b_fontName b /\ b_fontSize b' = b_fontSize b) ->
  blocked ws p -> blocked ws p'.
Proof.
  intros W H B b' Hb'. destruct (H b' Hb') as (b & Hb & E1 & E2 & E3 & E4 & E5). destruct (B b Hb) as (A1 & A2 & A3). unfold block_text, block_made, block_fonts, finite_page in *. rewrite W, E1, E2, E3, E4, E5.
  split; [exact A1|]. split; [exact A2|exact A3].
Qed.

(** ** The numbers of the words *)
Definition word_numbers (d : gdoc) : Prop := flat_map g_words (gd_pages d) = seq 0 (length (gd_words d)).
Lemma place_numbers ps : forall n wss ps' ws, length wss = length ps -> place_words n ps wss = (ps', ws) -> flat_map g_words ps' = seq n (length ws).
Proof.
  induction ps as [|p ps IH]; intros n [|w1 wss] ps' ws L H; try discriminate; cbn [place_words] in H; [apply pair_equal_spec in H as [<- <-]; reflexivity|].
  destruct (place_words _ ps wss) as [ps1 rest] eqn:E. apply pair_equal_spec in H as [<- <-]. cbn [flat_map set_words g_words].
  rewrite (IH _ _ _ _ (f_equal pred L) E), app_length, map_length, seq_app. reflexivity.
Qed.
Lemma words_numbers m cfg d d' : run_words m cfg d = Ok d' -> word_numbers d'.
Proof.
  intros H. unfold run_words in H. destruct (omap _ (gd_pages d)) as [wss| |] eqn:E; try discriminate. cbn [obind] in H.
  destruct (place_words 0 _ _) as [ps ws] eqn:EP. apply Ok_inj in H. subst d'. unfold word_numbers. cbn [gd_pages gd_words].
  apply (place_numbers _ _ _ _ _) in EP; [exact EP|]. rewrite map_length. apply omap_F2 in E. symmetry. exact (TotalWhole.F2_len _ _ _ E).
Qed.
Lemma numbers_step d d' : Forall2 (fun p p' => g_words p' = g_words p) (gd_pages d) (gd_pages d') -> length (gd_words d') = length (gd_words d) -> word_numbers d -> word_numbers d'.
Proof.
  intros K L N. unfold word_numbers in *. rewrite L, <- N. clear -K. induction K as [|p p' l l' E _ IH]; cbn [flat_map]; [reflexivity|]. rewrite E, IH. reflexivity.
Qed.
Lemma keeps_words l l' : Forall2 keeps l l' -> Forall2 (fun p p' => g_words p' = g_words p) l l'.
Proof. apply F2_imp. intros p p' (_ & _ & _ & _ & _ & _ & W). exact W. Qed.

(** ** The modules behind the detection of blocks *)
Lemma omap_pages_F2 impl topi cw ch ps qs : ReadingOrder.order_pages impl topi cw ch ps = Some (Ok qs) ->
  Forall2 (fun p q => ReadingOrder.order_page impl topi cw ch p = Some (Ok q)) ps qs.
Proof.
  revert qs. induction ps as [|p t IH]; intros qs H; cbn [ReadingOrder.order_pages] in H; [injection H as <-; constructor|].
  destruct (ReadingOrder.order_page _ _ _ _ p) as [[q|w|w]|] eqn:E; cbn [rbind] in H; try discriminate.
  destruct (ReadingOrder.order_pages _ _ _ _ t) as [[t'|w|w]|] eqn:Et; cbn [rbind] in H; try discriminate. injection H as <-. constructor; [exact E|apply IH; reflexivity].
Qed.
(** [part]: the roles of the blocks of the page [p] *)
Definition reordered (m : machine) (d : gdoc) (pr : gpage * list nat) (p' : gpage) : Prop :=
  let '(p, part) := pr in
  let bs := map (fun '(b, r) => with_role r b) (combine (g_blocks p) part) in
  length part = length (g_blocks p) /\ keeps p p' /\ g_segs p' = g_segs p /\ g_textLines p' = g_textLines p /\
  exists q, ReadingOrder.order_page (m_sortR m) (m_topR m) (Statistics.st_charWidth (gd_stats d)) (Statistics.st_charHeight (gd_stats d)) (doc_page m (set_blocks bs p)) = Some (Ok q) /\
    g_blocks p' = p_blocks q.
Lemma set_roles_parts ps : forall rs, length rs = length (concat (map g_blocks ps)) ->
  exists parts, rs = concat parts /\ length parts = length ps /\
    Forall2 (fun pr p' => length (snd pr) = length (g_blocks (fst pr)) /\ p' = set_blocks (map (fun '(b, r) => with_role r b) (combine (g_blocks (fst pr)) (snd pr))) (fst pr))
      (combine ps parts) (set_roles rs ps).
Proof.
  induction ps as [|p ps IH]; intros rs L; cbn [set_roles].
  - exists []. destruct rs; [|discriminate]. split; [reflexivity|]. split; [reflexivity|constructor].
  - cbn [map concat] in L. rewrite app_length in L. set (n := length (g_blocks p)) in *.
    destruct (IH (skipn n rs)) as (parts & E & LP & F); [rewrite skipn_length; lia|]. exists (firstn n rs :: parts). cbn [concat combine].
    split; [rewrite <- E, firstn_skipn; reflexivity|]. split; [cbn [length]; congruence|]. constructor; [|exact F]. cbn [fst snd].
    split; [rewrite firstn_length; lia|]. f_equal. assert (LE : length (g_blocks p) <= length rs) by (fold n; lia). clear -LE. unfold n. revert rs LE.
    induction (g_blocks p) as [|b bs IHb]; intros [|r rs] LE; cbn [length] in LE; try lia; cbn [combine map firstn length]; try reflexivity. f_equal. apply IHb. lia.
Qed.
Lemma readingOrder_parts m d d' : run_readingOrder m d = Ok d' ->
  exists roles parts, TotalWhole.prediction m d = Ok roles /\ roles = concat parts /\ length parts = length (gd_pages d) /\
    Forall2 (reordered m d) (combine (gd_pages d) parts) (gd_pages d') /\
    gd_words d' = gd_words d /\ gd_fonts d' = gd_fonts d /\ gd_stats d' = gd_stats d /\ gd_lines d' = gd_lines d.
Proof.
  intros H. unfold run_readingOrder in H. cbv zeta in H.
  match type of H with obind ?x _ = _ => destruct x as [rs| |] eqn:ER; try discriminate end. cbn [obind] in H.
  match type of H with obind ?x _ = _ => destruct x as [os| |] eqn:EO; try discriminate end. cbn [obind] in H. apply Ok_inj in H. subst d'.
  assert (LR : length rs = length (concat (map g_blocks (gd_pages d)))).
  { pose proof ER as ER'. apply predict_length in ER'. rewrite ER', map_map. unfold role_page. cbn [Roles.rp_blocks]. clear. induction (gd_pages d) as [|p ps IH]; cbn [map concat]; [reflexivity|]. rewrite !app_length, map_length, IH. reflexivity. }
  destruct (set_roles_parts (gd_pages d) rs LR) as (parts & E1 & E2 & F). exists rs, parts. split; [exact ER|]. split; [exact E1|]. split; [exact E2|].
  cbn [set_pages gd_words gd_fonts gd_stats gd_lines gd_pages]. split; [|repeat split].
  destruct (ReadingOrder.order_pages _ _ _ _ _) as [[os1| |]|] eqn:EO1; cbn [from_run] in EO; try discriminate. apply Ok_inj in EO. subst os1.
  apply omap_pages_F2 in EO1. apply F2_map_l in EO1. clear -F EO1. revert os EO1. induction F as [|[p part] p1 l l1 [L E] _ IH]; intros os EO1; inversion EO1 as [|? o ? os1 O1 O2]; subst; cbn [combine map]; constructor; [|exact (IH _ O2)].
  cbn [fst snd] in *. unfold reordered. split; [exact L|]. split; [unfold keeps, set_blocks; cbn; repeat split|]. split; [reflexivity|]. split; [reflexivity|]. exists o. split; [exact O1|reflexivity].
Qed.
Lemma dehyph_core m d d' : run_dehyphenation m d = Ok d' -> map core (gd_words d) = map core (gd_words d') /\ gd_pages d' = gd_pages d /\ gd_fonts d' = gd_fonts d.
Proof.
  intros H. unfold run_dehyphenation in H. apply Ok_inj in H. subst d'. set (h := Dehyphenation.dehyphenate _ _). cbn [gd_words gd_pages gd_fonts]. split; [|split; reflexivity].
  symmetry. apply core_seq. intros i. unfold h. rewrite DehyphenationProofs.dehyph_pairs.
  pose proof (DehyphenationProofs.marks_same (DehyphenationProofs.pairs (word_heap (gd_words d)) (SerializationSpec.text_lines (the_document m d))) (word_heap (gd_words d)) i) as S0.
  apply (f_equal core) in S0. symmetry. exact S0.
Qed.
