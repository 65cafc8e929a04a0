(** PropsOwnership.v - C88: every object of a document is deleted exactly once. *)
From Coq Require Import ZArith NArith Permutation.
From Verif Require Import Base Double Elements Document Pipeline PipelineSpec ContentSpec PipelineLines Destruction OwnershipProofs.
From Verif Require Parsing Fonts Cli Lines LinesSpec Words DiacriticsSpec PropsWords PropsPipeline PropsContent PropsScripted PropsIds PipelineContent PipelineWhole PipelineStats PipelineProofs.
Local Open Scope list_scope.

Lemma in_kind d o : In o (delete_document d) <-> In o (filter (of_kind (kind o)) (delete_document d)).
Proof. rewrite filter_In. unfold of_kind. rewrite Nat.eqb_refl. tauto. Qed.
Lemma kind0 d : map the_rank (filter (of_kind 0) (delete_document d)) = flat_map gpage_ranks (gd_pages d).
Proof.
  rewrite document_kind. cbn [Nat.eqb]. rewrite app_nil_r. unfold indexed.
  rewrite (flat_ext (fun x => page_kind 0 (fst x) (snd x)) (fun x => page_kind 0 0 (snd x))) by reflexivity.
  rewrite (flat_indexed (page_kind 0 0)). rewrite flat_map_concat_map, concat_map, map_map, <- flat_map_concat_map. apply flat_ext. intros p _.
  cbn [page_kind]. unfold gpage_ranks, ranks. rewrite !map_app, !map_map. cbn [the_rank]. f_equal. f_equal.
  rewrite flat_map_concat_map, concat_map, map_map, <- flat_map_concat_map. apply flat_ext. intros f _. unfold figure_ranks. rewrite !map_app, !map_map. reflexivity.
Qed.
Lemma kind3 d : filter (of_kind 3) (delete_document d) = map OWord (flat_map g_words (gd_pages d)).
Proof.
  rewrite document_kind. cbn [Nat.eqb]. rewrite app_nil_r. unfold indexed. rewrite (flat_ext (fun x => page_kind 3 (fst x) (snd x)) (fun x => map OWord (g_words (snd x)))) by reflexivity.
  rewrite (flat_indexed (fun p => map OWord (g_words p))), flat_map_concat_map, (flat_map_concat_map g_words), concat_map, map_map. reflexivity.
Qed.
Lemma kind5 d : filter (of_kind 5) (delete_document d) = map OLine (flat_map (fun p => flat_map sg_lines (g_segs p)) (gd_pages d)).
Proof.
  rewrite document_kind. cbn [Nat.eqb]. rewrite app_nil_r. unfold indexed. rewrite (flat_ext (fun x => page_kind 5 (fst x) (snd x)) (fun x => map OLine (flat_map sg_lines (g_segs (snd x))))) by reflexivity.
  rewrite (flat_indexed (fun p => map OLine (flat_map sg_lines (g_segs p)))), flat_map_concat_map, (flat_map_concat_map (fun p => flat_map sg_lines (g_segs p))), concat_map, map_map. reflexivity.
Qed.
Lemma nodup_map {A B} (f : A -> B) l : (forall x y, f x = f y -> x = y) -> NoDup l -> NoDup (map f l).
Proof. intros H. apply FinFun.Injective_map_NoDup. exact H. Qed.
Lemma nodup_ints n : NoDup (map Z.of_nat (seq 0 n)).
Proof. apply nodup_map; [intros x y; lia|apply seq_NoDup]. Qed.
Lemma nodup_inner {A} (mk : nat -> object) (l : list A) : (forall x y, mk x = mk y -> x = y) -> NoDup (flat_map (fun x => [mk (fst x)]) (indexed l)).
Proof.
  intros I. assert (E : flat_map (fun x => [mk (fst x)]) (indexed l) = map mk (seq 0 (length l))).
  { unfold indexed. generalize 0. induction l as [|x l IH]; intros n; [reflexivity|]. cbn [length seq combine flat_map map fst app]. rewrite IH. reflexivity. }
  rewrite E. apply nodup_map; [exact I|apply seq_NoDup].
Qed.
Definition tag (o : object) : nat := match o with OPage k | OFigure k _ | OSegment k _ | OBlock k _ => k | _ => 0 end.

(** Destroying the document that a run returns deletes no object twice. *)
Theorem C88_once : forall m wcfg c es code d, sane m -> text_enabled c -> process_pdf m wcfg c es = Ok (code, d) -> NoDup (delete_document d).
Proof.
  intros m cfg c es code d SA TE H. destruct (document_ranks m cfg c es code d SA TE H) as (n & PR & NF). pose proof (document_lines m cfg c es code d SA TE H) as NL.
  pose proof (document_blocks m cfg c es code d SA TE H) as NB. destruct (PropsContent.C73_words m cfg c es code d SA TE H) as (NW & _).
  apply nodup_kinds. intros k. destruct (Nat.eq_dec k 0) as [->|]; [|destruct (Nat.eq_dec k 3) as [->|]; [|destruct (Nat.eq_dec k 5) as [->|]]].
  - apply (NoDup_map_inv the_rank). rewrite kind0. rewrite PR. apply nodup_ints.
  - rewrite kind3. apply nodup_map; [congruence|exact NW].
  - rewrite kind5, NL. apply nodup_map; [congruence|apply seq_NoDup].
  - rewrite document_kind. destruct k as [|[|[|[|[|[|[|[|k]]]]]]]]; try congruence; cbn [Nat.eqb]; rewrite ?app_nil_r.
    + apply (nodup_indexed (fun x => page_kind 1 (fst x) (snd x)) tag).
      * intros i x o [<-|[]]. reflexivity.
      * apply Forall_forall. intros p _ i. cbn. constructor; [intros []|constructor].
    + apply (nodup_indexed (fun x => page_kind 2 (fst x) (snd x)) tag).
      * intros i x o I. cbn [page_kind fst snd] in I. apply in_flat_map in I as (y & _ & [<-|[]]). reflexivity.
      * apply Forall_forall. intros p _ i. cbn [page_kind fst snd]. apply nodup_inner. congruence.
    + apply (nodup_indexed (fun x => page_kind 4 (fst x) (snd x)) tag).
      * intros i x o I. cbn [page_kind fst snd] in I. apply in_flat_map in I as (y & _ & [<-|[]]). reflexivity.
      * apply Forall_forall. intros p _ i. cbn [page_kind fst snd]. apply nodup_inner. congruence.
    + apply (nodup_indexed (fun x => page_kind 6 (fst x) (snd x)) tag).
      * intros i x o I. cbn [page_kind fst snd] in I. apply in_map_iff in I as (y & <- & _). reflexivity.
      * apply Forall_forall. intros p Hp i. rewrite Forall_forall in NB. specialize (NB p Hp). cbn [page_kind fst snd]. rewrite <- (map_map b_rank (OBlock i)).
        apply nodup_map; [congruence|]. unfold block_ranks in NB. rewrite NB. apply nodup_ints.
    + rewrite (flat_ext _ (fun _ => [])) by (intros [i p] _; reflexivity). rewrite flat_nil. cbn [app]. rewrite <- (map_map fst OFont). apply nodup_map; [congruence|exact NF].
    + rewrite (flat_ext _ (fun _ => [])) by (intros [i p] _; reflexivity). rewrite flat_nil. constructor.
Qed.
Print Assumptions C88_once.

(** Nothing is forgotten: all characters, shapes and graphics that parsing created, all words and all text lines are deleted. *)
Theorem C88_all : forall m wcfg c es code d, sane m -> text_enabled c -> process_pdf m wcfg c es = Ok (code, d) ->
  let deleted o := In o (delete_document d) in
  (exists r, Parsing.parse_events (m_parseFont m) (m_mapUnicode m) (m_fromBytes m) (m_iswspace m) (m_charId m) es = Ok r /\
     forall k, (0 <= k < Parsing.pr_num r)%Z <-> deleted (OChar k) \/ deleted (OShape k) \/ deleted (OGraphic k)) /\
  (forall i, i < length (gd_words d) <-> deleted (OWord i)) /\
  (forall i, i < length (gd_lines d) <-> deleted (OLine i)) /\
  (forall k, (exists f, In (k, f) (gd_fonts d)) <-> deleted (OFont k)) /\
  (forall k p, nth_error (gd_pages d) k = Some p ->
     deleted (OPage k) /\ (forall b, In b (g_blocks p) -> deleted (OBlock k (b_rank b))) /\
     (forall i, i < length (g_segs p) -> deleted (OSegment k i)) /\ (forall i, i < length (g_figures p) -> deleted (OFigure k i))).
Proof.
  intros m cfg c es code d SA TE H. cbv zeta. split; [|split; [|split; [|split]]].
  - destruct (PropsPipeline.C52_text m cfg c es code d SA TE H) as (r & EP & F & _). exists r. split; [exact EP|]. destruct (parsed_counted m es r EP) as [[P0 C] _].
    rewrite <- (pages_ranks _ _ F), <- kind0 in C. intros k. transitivity (In k (map the_rank (filter (of_kind 0) (delete_document d)))).
    + split; intros I.
      * apply (Permutation_in _ (Permutation_sym C)). apply in_map_iff. exists (Z.to_nat k). split; [lia|]. apply in_seq. lia.
      * apply (Permutation_in _ C) in I. apply in_map_iff in I as (x & <- & I). apply in_seq in I. lia.
    + rewrite (in_kind d (OChar k)), (in_kind d (OShape k)), (in_kind d (OGraphic k)). cbn [kind]. rewrite in_map_iff. split.
      * intros (o & <- & I). pose proof I as I'. apply filter_In in I' as [_ K]. destruct o; try discriminate K; cbn [the_rank]; tauto.
      * intros [I|[I|I]]; (eexists; split; [|exact I]); reflexivity.
  - destruct (PropsContent.C73_words m cfg c es code d SA TE H) as (_ & W & _). intros i. rewrite W, (in_kind d (OWord i)). cbn [kind]. rewrite kind3, in_map_iff. split.
    + intros (p & Hp & Hi). exists i. split; [reflexivity|]. apply in_flat_map. exists p. split; assumption.
    + intros (j & E & I). injection E as ->. apply in_flat_map in I. exact I.
  - pose proof (document_lines m cfg c es code d SA TE H) as NL. intros i. rewrite (in_kind d (OLine i)). cbn [kind]. rewrite kind5, NL, in_map_iff. split.
    + intros L. exists i. split; [reflexivity|]. apply in_seq. lia.
    + intros (j & E & I). injection E as ->. apply in_seq in I. lia.
  - intros k. unfold delete_document. rewrite in_app_iff, in_map_iff. split.
    + intros (f & I). right. exists (k, f). split; [reflexivity|exact I].
    + intros [I|((k', f) & E & I)].
      * exfalso. apply in_flat_map in I as ([n p] & _ & I). assert (I' : In (OFont k) (filter (of_kind 7) (delete_page n p))) by (apply filter_In; split; [exact I|reflexivity]). rewrite page_kind_ok in I'. exact I'.
      * cbn in E. injection E as <-. exists f. exact I.
  - intros k p Hp. assert (IP : In (k, p) (indexed (gd_pages d))).
    { unfold indexed. assert (G : forall (l : list gpage) n k, nth_error l k = Some p -> In (n + k, p) (combine (seq n (length l)) l)).
      { induction l as [|x l IH]; intros n j E; [destruct j; discriminate|]. destruct j as [|j]; cbn [length seq combine].
        - injection E as ->. left. f_equal. lia.
        - right. replace (n + S j) with (S n + j) by lia. apply IH. exact E. }
      exact (G _ 0 k Hp). }
    assert (IK : forall o, In o (page_kind (kind o) k p) -> In o (delete_document d)).
    { intros o I. rewrite <- page_kind_ok in I. apply filter_In in I as [I _]. unfold delete_document. apply in_or_app. left. apply in_flat_map. exists (k, p). split; [exact IP|exact I]. }
    assert (IX : forall A (l : list A) i, i < length l -> exists x, In (i, x) (indexed l)).
    { intros A l i L. destruct (nth_error l i) as [x|] eqn:E; [|apply nth_error_None in E; lia]. exists x. unfold indexed.
      assert (G : forall (l : list A) n k, nth_error l k = Some x -> In (n + k, x) (combine (seq n (length l)) l)).
      { clear. induction l as [|y l IH]; intros n j E; [destruct j; discriminate|]. destruct j as [|j]; cbn [length seq combine].
        - injection E as ->. left. f_equal. lia.
        - right. replace (n + S j) with (S n + j) by lia. apply IH. exact E. }
      exact (G _ 0 i E). }
    split; [apply IK; left; reflexivity|]. split; [|split].
    + intros b Hb. apply IK. cbn [kind page_kind]. apply (in_map (fun b => OBlock k (b_rank b))). exact Hb.
    + intros i L. apply IK. destruct (IX _ _ _ L) as (x & I). cbn [kind page_kind]. apply in_flat_map. exists (i, x). split; [exact I|left; reflexivity].
    + intros i L. apply IK. destruct (IX _ _ _ L) as (x & I). cbn [kind page_kind]. apply in_flat_map. exists (i, x). split; [exact I|left; reflexivity].
Qed.
Print Assumptions C88_all.

(** What the serialization follows from a page to the characters are objects that are deleted with the document, and only then: the words of the
    blocks and of the text lines, and their characters. *)
Theorem C88_references : forall m wcfg c es code d, sane m -> text_enabled c -> process_pdf m wcfg c es = Ok (code, d) ->
  forall p, In p (gd_pages d) ->
    (forall b i, In b (g_blocks p) -> In i (concat (b_lines b)) -> In (OWord i) (delete_document d)) /\
    (forall i, In i (concat (g_textLines p)) -> In (OWord i) (delete_document d)) /\
    (forall i ch, In i (g_words p) -> In ch (w_chars (the_word d i)) -> In (OChar (c_rank ch)) (delete_document d)).
Proof.
  intros m cfg c es code d SA TE H p Hp. destruct (C88_all m cfg c es code d SA TE H) as (_ & W & _). destruct (PropsContent.C73_words m cfg c es code d SA TE H) as (_ & WL & WC).
  assert (B : forall b i, In b (g_blocks p) -> In i (concat (b_lines b)) -> In (OWord i) (delete_document d)).
  { intros b i Hb Hi. destruct (PropsContent.C73_blocks m cfg c es code d SA TE H p b Hp Hb) as (_ & _ & X & _). apply W, WL. exists p. split; [exact Hp|exact (X i Hi)]. }
  split; [exact B|]. split.
  - intros i Hi. destruct (PropsPipeline.C52_text m cfg c es code d SA TE H) as (r & _ & _ & T). destruct (T p Hp) as [E _]. rewrite E in Hi.
    apply in_concat in Hi as (l & Hl & Hi). apply in_flat_map in Hl as (b & Hb & Hl). apply (B b i Hb). apply in_concat. exists l. split; assumption.
  - intros i ch Hi Hc. destruct (WC p i Hp Hi) as (_ & X). specialize (X ch Hc). apply in_map_iff in X as (ch' & E & I). apply (f_equal c_rank) in E. cbn [PipelineSpec.plain c_rank] in E. rewrite <- E.
    unfold visible_chars in I. apply filter_In in I as [I _]. unfold delete_document. apply in_or_app. left. apply In_nth_error in Hp as (k & Hk).
    apply in_flat_map. assert (G : forall (l : list gpage) n k, nth_error l k = Some p -> exists n', In (n', p) (combine (seq n (length l)) l)).
    { clear. induction l as [|x l IH]; intros n j E; [destruct j; discriminate|]. destruct j as [|j]; cbn [length seq combine].
      - injection E as ->. exists n. left. reflexivity.
      - destruct (IH (S n) j E) as (n' & I). exists n'. right. exact I. }
    destruct (G _ 0 k Hk) as (n & Hn). exists (n, p). split; [exact Hn|]. unfold delete_page. apply in_or_app. left. apply (in_map (fun c => OChar (c_rank c))). exact I.
Qed.
Print Assumptions C88_references.

(** ** Example *)
Import PropsPipeline.
Definition ex_deleted : option (list object) := match ex_run PropsContent.ex_hyph with Ok (_, d) => Some (delete_document d) | _ => None end.
(** A page of two lines, with a hyphenated word: the run satisfies the hypotheses, and the document frees six characters, two words, one text block
    holding two text lines, one segment, the page and one font. *)
Example C88_example : sane ex_machine /\ text_enabled ex_all /\
  ex_deleted = Some [OChar 0; OChar 1; OChar 2; OChar 3; OChar 4; OChar 5; OWord 0; OWord 1; OBlock 0 0; OLine 0; OLine 1; OSegment 0 0; OPage 0; OFont (S_ "F")].
Proof. split; [exact ex_sane|]. split; [repeat split; reflexivity|]. vm_compute. reflexivity. Qed.
