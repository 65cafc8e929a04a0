(** PropsAccents.v - C87: accents and other diacritical marks of the resulting document. *)
From Coq Require Import ZArith NArith Permutation.
From Verif Require Import Base Double Elements Document Pipeline PipelineSpec DiacriticsSpec PipelineAccents PipelineProofs.
From Verif Require DiacriticsProofs Sort XYCutProofs Float Words PropsParsing Cli Parsing Diacritics PropsWords PropsPipeline SerializationSpec GeometrySpec.
Local Open Scope list_scope.

Lemma F2_nth {A B} (R : A -> B -> Prop) l l' : Forall2 R l l' -> forall b, In b l' -> exists a, In a l /\ R a b.
Proof. intros F. induction F as [|a b l l' X F IH]; intros y Hy; [destruct Hy|]. destruct Hy as [<-|Hy]; [exists a; split; [left; reflexivity|exact X]|]. destruct (IH y Hy) as (a' & H1 & H2). exists a'. split; [right; exact H1|exact H2]. Qed.

(** With the merging of diacritical marks switched on, the characters of a page (of the result) are those that were parsed, one by one. Only marks
    are attached to another character, each to a neighbour; a character with a mark shows the text composed of its own code points and the
    mark's; all others keep their box and their text. *)
Theorem C87_characters : forall m wcfg c es code d, sane m -> text_enabled c -> Cli.disabled c Cli.MDiacritics = false -> process_pdf m wcfg c es = Ok (code, d) ->
  exists r, Parsing.parse_events (m_parseFont m) (m_mapUnicode m) (m_fromBytes m) (m_iswspace m) (m_charId m) es = Ok r /\
    Forall2 (fun q p => length (g_chars p) = length (Parsing.pp_chars q) /\
      forall i ch ch', nth_error (Parsing.pp_chars q) i = Some ch -> nth_error (g_chars p) i = Some ch' ->
        same_glyph ch ch' /\
        (forall j, c_markOf ch' = Some j -> (exists u, is_mark ch u) /\ (i = S j \/ j = S i) /\ exists b, nth_error (g_chars p) j = Some b /\ c_hasMark b <> None) /\
        (forall k, c_hasMark ch' = Some k -> exists mk mk' u, nth_error (Parsing.pp_chars q) k = Some mk /\ nth_error (g_chars p) k = Some mk' /\
           is_mark mk u /\ c_markOf mk' = Some i /\ SerializationSpec.char_text ch' = m_compose m (c_unicodes ch ++ [u])) /\
        (c_hasMark ch' = None -> c_pos ch' = c_pos ch /\ (c_markOf ch' = None -> SerializationSpec.char_text ch' = c_text ch))) (Parsing.pages r) (gd_pages d).
Proof.
  intros m cfg c es code d SA TE EN H. destruct (chars_final m cfg c es code d SA TE H) as (r & EP & F). exists r. split; [exact EP|].
  refine (F2_imp _ _ _ _ _ F). intros q p (U & M & _). specialize (M EN). destruct (PropsWords.C21_frame _ _ _ U M) as [L K]. split; [exact L|]. intros i ch ch' E E'.
  destruct (K i ch ch' E E') as (A & B & C & D). split; [exact A|]. split; [exact B|]. split.
  - intros k Hk. destruct (C k Hk) as (mk & mk' & u & X1 & X2 & X3 & X4 & X5). exists mk, mk', u. repeat (split; [assumption|]). unfold SerializationSpec.char_text. rewrite Hk. exact X5.
  - intros Hk. split; [exact (proj1 (D Hk))|]. intros N. unfold SerializationSpec.char_text. rewrite N, Hk. destruct A as (_ & _ & _ & A & _). exact A.
Qed.
Print Assumptions C87_characters.

(** The words of a page consist of its characters that are not attached to another one, in their order; a mark that is attached to a
    character is not printed by itself. *)
Theorem C87_words : forall m wcfg c es code d, sane m -> text_enabled c -> process_pdf m wcfg c es = Ok (code, d) ->
  forall p, In p (gd_pages d) ->
    let shown := filter (fun ch => match c_markOf ch with None => true | Some _ => false end) (g_chars p) in
    flat_map (fun i => map SerializationSpec.char_text (w_chars (the_word d i))) (g_words p) = map SerializationSpec.char_text shown /\
    forall i ch, In i (g_words p) -> In ch (w_chars (the_word d i)) -> c_markOf ch = None.
Proof.
  intros m cfg c es code d SA TE H p Hp. cbv zeta. destruct (PropsPipeline.C52_words m cfg c es code d SA TE H p Hp) as [_ E]. split.
  - apply (f_equal (map SerializationSpec.char_text)) in E. rewrite !map_map in E. change (fun x => SerializationSpec.char_text (PipelineSpec.plain x)) with SerializationSpec.char_text in E.
    unfold visible_chars in E. rewrite <- E. rewrite PipelineWords.map_flat_map. reflexivity.
  - intros i ch Hi Hc. assert (I : In (PipelineSpec.plain ch) (map PipelineSpec.plain (visible_chars p))).
    { rewrite <- E. apply in_map. apply in_flat_map. exists i. split; assumption. }
    apply in_map_iff in I as (ch' & E1 & I). unfold visible_chars in I. apply filter_In in I as [_ I]. apply (f_equal c_markOf) in E1. cbn [PipelineSpec.plain c_markOf] in E1. rewrite <- E1. destruct (c_markOf ch'); [discriminate|reflexivity].
Qed.
Print Assumptions C87_words.

(** Where no two marks of a page are within distance two, the outcome is determined by the positions that were parsed: exactly the marks that overlap a
    neighbour are attached to it (to the one that they overlap more); they vanish from the words, and the neighbour is printed as the composed
    character, with a box that includes the mark's. All other characters are as they were parsed. *)
Theorem C87_isolated : forall m wcfg c es code d, sane m -> text_enabled c -> Cli.disabled c Cli.MDiacritics = false -> process_pdf m wcfg c es = Ok (code, d) ->
  exists r, Parsing.parse_events (m_parseFont m) (m_mapUnicode m) (m_fromBytes m) (m_iswspace m) (m_charId m) es = Ok r /\
    Forall2 (fun q p => isolated_marks (Parsing.pp_chars q) ->
      length (g_chars p) = length (Parsing.pp_chars q) /\
      (forall i u j mk b, attaches (Parsing.pp_chars q) i u j -> nth_error (Parsing.pp_chars q) i = Some mk -> nth_error (Parsing.pp_chars q) j = Some b ->
         exists mk' b', nth_error (g_chars p) i = Some mk' /\ nth_error (g_chars p) j = Some b' /\ c_markOf mk' <> None /\ c_markOf b' = None /\
           same_glyph b b' /\ SerializationSpec.char_text b' = m_compose m (c_unicodes b ++ [u]) /\ c_pos b' = bbox_add (c_pos b) (c_pos mk)) /\
      (forall i, (forall u j, ~ attaches (Parsing.pp_chars q) i u j) -> (forall k u, ~ attaches (Parsing.pp_chars q) k u i) ->
         nth_error (g_chars p) i = nth_error (Parsing.pp_chars q) i)) (Parsing.pages r) (gd_pages d).
Proof.
  intros m cfg c es code d SA TE EN H. destruct (chars_final m cfg c es code d SA TE H) as (r & EP & F). exists r. split; [exact EP|].
  refine (F2_imp _ _ _ _ _ F). intros q p (U & M & _) IS. specialize (M EN). destruct (PropsWords.C21_isolated_marks _ _ _ IS M) as (L & A & B). split; [exact L|]. split; [|exact B].
  intros i u j mk b AT E1 E2. destruct (A i u j mk b AT E1 E2) as (mk' & b' & X1 & X2 & (_ & _ & X3 & _) & (Y1 & Y2 & Y3 & Y4 & Y5)).
  exists mk', b'. split; [exact X1|]. split; [exact X2|]. split; [rewrite X3; discriminate|].
  assert (N : c_markOf b' = None) by (rewrite Y2; exact (proj1 (U b (nth_error_In _ _ E2)))).
  split; [exact N|]. split; [exact Y1|]. split; [unfold SerializationSpec.char_text; rewrite N, Y3; exact Y4|exact Y5].
Qed.
Print Assumptions C87_isolated.

(** With the merging switched off, the characters are exactly those that were parsed, and none is attached to another one. *)
Theorem C87_disabled : forall m wcfg c es code d, sane m -> text_enabled c -> Cli.disabled c Cli.MDiacritics = true -> process_pdf m wcfg c es = Ok (code, d) ->
  exists r, Parsing.parse_events (m_parseFont m) (m_mapUnicode m) (m_fromBytes m) (m_iswspace m) (m_charId m) es = Ok r /\
    map g_chars (gd_pages d) = map Parsing.pp_chars (Parsing.pages r) /\
    forall p ch, In p (gd_pages d) -> In ch (g_chars p) -> c_markOf ch = None /\ c_hasMark ch = None.
Proof.
  intros m cfg c es code d SA TE DI H. destruct (chars_final m cfg c es code d SA TE H) as (r & EP & F). exists r. split; [exact EP|]. split.
  - induction F as [|q p qs ps (_ & _ & X) F IH]; [reflexivity|]. cbn [map]. rewrite IH, (X DI). reflexivity.
  - intros p ch Hp Hc. destruct (F2_nth _ _ _ F p Hp) as (q & _ & U & _ & X). rewrite (X DI) in Hc. exact (U ch Hc).
Qed.
Print Assumptions C87_disabled.

(** ** Example: "o" with a diaeresis on top of it, and "b" *)
Import PropsPipeline.
Definition ex_composer : machine :=
  mkMachine PropsParsing.ex_parse PropsParsing.ex_map PropsParsing.ex_bytes PropsParsing.ex_space (fun us => map (fun u => ascii_of_N (u mod 256)) us) (fun _ => false) (fun x => x)
    (fun _ => []) (fun _ _ => []) (fun _ _ => []) (fun _ _ => []) (fun l => l) (fun l => l) (fun l => l) (fun l => l) (fun l => l)
    Sort.isort XYCutProofs.top_first Sort.isort Sort.isort Sort.isort XYCutProofs.top_first ex_bpe ex_bpe 9 (fun layout _ => (repeat Float.fzero (Z.to_nat (fst (snd layout)) * 2), 2%nat)) (fun _ _ => 0%nat).
Definition ex_accent : list Parsing.event :=
  ex_start 1 ++ [ex_draw 50 700 10 111; Parsing.DrawChar (ex_st 50 700 10) 168 1 (Some [168%N]) 1; ex_draw 56 700 10 98].
Lemma one_mark cs : map c_unicodes cs = [[111]; [168]; [98]]%N -> isolated_marks cs.
Proof.
  intros E. assert (NM : forall i ch u, nth_error cs i = Some ch -> is_mark ch u -> i = 1%nat).
  { intros i ch u H M. apply (map_nth_error c_unicodes) in H. rewrite E in H. apply DiacriticsProofs.mark_unicode_spec in M. unfold Diacritics.mark_unicode in M.
    destruct i as [|[|[|i]]]; [| reflexivity | |destruct i; discriminate H]; injection H as H; rewrite <- H in M; vm_compute in M; discriminate M. }
  intros i j ch b u v Hi Hj Mi Mj L. pose proof (NM _ _ _ Hi Mi). pose proof (NM _ _ _ Hj Mj). lia.
Qed.
Definition ex_accent_run := process_pdf ex_composer Words.default_words_config ex_all ex_accent.
Definition ex_accent_parsed :=
  Parsing.parse_events (m_parseFont ex_composer) (m_mapUnicode ex_composer) (m_fromBytes ex_composer) (m_iswspace ex_composer) (m_charId ex_composer) ex_accent.
Example C87_example : sane ex_composer /\ text_enabled ex_all /\ Cli.disabled ex_all Cli.MDiacritics = false /\
  exists d, ex_accent_run = Ok (0%Z, d) /\
    map (fun p => map (fun ch => (c_unicodes ch, c_markOf ch, c_hasMark ch, SerializationSpec.char_text ch)) (g_chars p)) (gd_pages d) =
      [[([111%N], None, Some 1%nat, ["o"%char; "008"%char]); ([168%N], Some 0%nat, None, []); ([98%N], None, None, ["b"%char])]] /\
    map (fun w => map SerializationSpec.char_text (w_chars w)) (gd_words d) = [[["o"%char; "008"%char]; ["b"%char]]] /\
    exists r, ex_accent_parsed = Ok r /\
      forall q, In q (Parsing.pages r) -> isolated_marks (Parsing.pp_chars q).
Proof.
  assert (SA : sane ex_composer).
  { unfold sane. cbn [ex_composer m_sortP m_topP m_sortW m_sortL m_sortR m_topR m_ordS m_ordD m_ordF m_ordR m_ordY].
    repeat (split; [first [exact Sort.isort_ok|exact XYCutProofs.top_first_ok|intros x; reflexivity]|]). intros x. reflexivity. }
  split; [exact SA|]. split; [repeat split|]. split; [reflexivity|].
  assert (E : match ex_accent_run with
    | Ok (c, d) => Some (c, map (fun p => map (fun ch => (c_unicodes ch, c_markOf ch, c_hasMark ch, SerializationSpec.char_text ch)) (g_chars p)) (gd_pages d), map (fun w => map SerializationSpec.char_text (w_chars w)) (gd_words d))
    | _ => None end = Some (0%Z, [[([111%N], None, Some 1%nat, ["o"%char; "008"%char]); ([168%N], Some 0%nat, None, []); ([98%N], None, None, ["b"%char])]], [[["o"%char; "008"%char]; ["b"%char]]])) by (vm_compute; reflexivity).
  destruct (ex_accent_run) as [[c d]| |]; [|discriminate E|discriminate E]. injection E as E0 E1 E2. subst c.
  exists d. split; [reflexivity|]. split; [exact E1|]. split; [exact E2|].
  assert (EQ : match ex_accent_parsed with Ok r => Some (map (fun q => map c_unicodes (Parsing.pp_chars q)) (Parsing.pages r)) | _ => None end = Some [[[111]; [168]; [98]]]%N) by (vm_compute; reflexivity).
  destruct ex_accent_parsed as [r| |]; [|discriminate EQ|discriminate EQ]. injection EQ as EQ. exists r. split; [reflexivity|]. intros q Hq. apply one_mark.
  apply (in_map (fun q => map c_unicodes (Parsing.pp_chars q))) in Hq. rewrite EQ in Hq. destruct Hq as [Hq|[]]. symmetry. exact Hq.
Qed.
