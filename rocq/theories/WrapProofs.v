(** WrapProofs.v - lemmas about [wrap] (TextUtils.v) *)
From Coq Require Import ZArith NArith.
From Verif Require Import Base Counter TextUtils UtilsSpec TextUtilsProofs.

Lemma rfind_aux_spec c pos : forall s i best,
  (rfind_aux c s i pos best = best /\ forall j, nth_error s j = Some c -> (pos < i + N.of_nat j)%N) \/
  (exists a b, s = a ++ c :: b /\ rfind_aux c s i pos best = (i + size a)%N /\ (i + size a <= pos)%N).
Proof.
  induction s as [|x t IH]; intros i best; cbn [rfind_aux].
  - left. split; auto. intros [|j]; discriminate.
  - specialize (IH (i + 1)%N (if Ascii.eqb x c && (i <=? pos)%N then i else best)).
    destruct IH as [[E H]|(a & b & -> & E & H)].
    + rewrite E. destruct (Ascii.eqb_spec x c) as [->|Hx]; cbn [andb].
      * destruct (N.leb_spec i pos) as [Hi|Hi].
        -- right. exists [], t. change (@size ascii []) with 0%N. split; auto. split; lia.
        -- left. split; auto. intros [|j]; intros Hj; [cbn; lia|]. specialize (H j Hj). lia.
      * left. split; auto. intros [|j]; intros Hj; [cbn in Hj; congruence|]. specialize (H j Hj). lia.
    + right. exists (x :: a), b. rewrite E, size_cons. split; auto. split; lia.
Qed.

Lemma firstn_no (l : str) c n : (forall j, nth_error l j = Some c -> n <= j) -> ~ In c (firstn n l).
Proof.
  revert n. induction l as [|x l IH]; intros n H Hin.
  - rewrite firstn_nil in Hin. destruct Hin.
  - destruct n as [|n]; [destruct Hin|]. cbn in Hin. destruct Hin as [->|Hin].
    + specialize (H 0 eq_refl). lia.
    + apply (IH n) in Hin; auto. intros j Hj. specialize (H (S j) Hj). lia.
Qed.

Lemma last_opt_cons {A} (x : A) y l : last_opt (x :: y :: l) = last_opt (y :: l).
Proof. unfold last_opt. cbn [rev]. destruct (rev l ++ [y]) eqn:F; [destruct (rev l); discriminate|reflexivity]. Qed.

Section Wrap.
  Variables (s : str) (width indent : N).
  Hypothesis Hs : (size s < 2 ^ 32 - 1)%N.
  Hypothesis Hi : (indent < 2 ^ 32)%N.
  Let ind := repeat " "%char (N.to_nat indent).
  Definition safe : Prop := (indent <= width)%N /\ (size s + width < 2 ^ 32)%N.

  Lemma rfind_in_rest c pre rest pos : s = pre ++ rest ->
    let le := u32 (rfind c s pos) in
    ((le < size pre)%N \/ (size s < le)%N) /\ (forall j, nth_error rest j = Some c -> (pos < size pre + N.of_nat j)%N) \/
    exists a b, rest = a ++ c :: b /\ le = (size pre + size a)%N /\ (le <= pos)%N.
  Proof.
    intros Hsplit. unfold rfind. destruct (rfind_aux_spec c pos s 0 npos) as [[E H]|(a & b & Ea & E & H)].
    - left. rewrite E, u32_npos. split; [right; lia|]. intros j Hj.
      specialize (H (length pre + j)). rewrite Hsplit, nth_error_app2 in H by lia.
      replace (length pre + j - length pre) with j in H by lia. specialize (H Hj). unfold size. lia.
    - rewrite E. cbn [N.add]. assert (size a < size s)%N as Hlt by (rewrite Ea, size_app, size_cons; lia).
      rewrite u32_small by lia.
      destruct (N.ltb_spec (size a) (size pre)) as [Hl|Hl].
      + (* the last occurrence up to pos lies before lineStart: none in the rest up to pos *)
        left. split; [auto|]. intros j Hj.
        destruct (N.ltb_spec pos (size pre + N.of_nat j)) as [|Hp]; auto. exfalso.
        assert (forall t i best, rfind_aux c t i pos best = best \/ (i <= rfind_aux c t i pos best)%N) as G.
        { induction t as [|x t IH]; intros i best; cbn [rfind_aux]; auto.
          destruct (IH (i + 1)%N (if Ascii.eqb x c && (i <=? pos)%N then i else best)) as [G|G]; [|right; lia].
          rewrite G. destruct (Ascii.eqb x c && (i <=? pos)%N); [right; lia|auto]. }
        assert (forall t i best, (exists k, nth_error t k = Some c /\ (i + N.of_nat k <= pos)%N) ->
           forall k, nth_error t k = Some c -> (i + N.of_nat k <= pos)%N -> (i + N.of_nat k <= rfind_aux c t i pos best)%N) as G2.
        { clear -G. induction t as [|x t IH]; intros i best Hex k Hk Hkp; [destruct k; discriminate|].
          cbn [rfind_aux]. destruct k as [|k].
          - cbn in Hk. injection Hk as ->. rewrite Ascii.eqb_refl.
            destruct (N.leb_spec i pos) as [|Hx]; [|lia]. cbn [andb].
            destruct (G t (i + 1)%N i) as [->|Q]; lia.
          - specialize (IH (i + 1)%N (if Ascii.eqb x c && (i <=? pos)%N then i else best)).
            assert (i + 1 + N.of_nat k <= rfind_aux c t (i + 1) pos (if Ascii.eqb x c && (i <=? pos) then i else best))%N; [|lia].
            apply IH; [exists k; split; [auto|lia]|auto|lia]. }
        assert (nth_error s (length pre + j) = Some c) as Hn.
        { rewrite Hsplit, nth_error_app2 by lia. replace (length pre + j - length pre) with j by lia. auto. }
        specialize (G2 s 0%N npos). unfold size in *.
        assert (0 + N.of_nat (length pre + j) <= rfind_aux c s 0 pos npos)%N.
        { apply G2; auto; [|lia]. exists (length pre + j). split; auto. lia. }
        rewrite E in *. lia.
      + right. exists (skipn (length pre) a), b.
        assert (a = pre ++ skipn (length pre) a) as Ea2.
        { assert (firstn (length pre) s = pre) as P1 by (rewrite Hsplit, firstn_app, firstn_all, Nat.sub_diag; cbn; apply app_nil_r).
          rewrite Ea, firstn_app in P1.
          replace (length pre - length a) with 0 in P1 by (unfold size in *; lia). cbn in P1. rewrite app_nil_r in P1.
          rewrite <- P1 at 1. rewrite firstn_skipn. reflexivity. }
        split.
        * apply (app_inv_head pre). rewrite <- Hsplit, Ea. rewrite Ea2 at 1. rewrite <- app_assoc. reflexivity.
        * split; [|lia]. rewrite Ea2 at 1. apply size_app.
  Qed.

  Lemma len_eq (pre a : str) : (size pre + size a < 2 ^ 32)%N ->
    u32 (size pre + size a + (2 ^ 32 - size pre)) = size a.
  Proof.
    intros H. replace (size pre + size a + (2 ^ 32 - size pre))%N with (size a + 1 * 2 ^ 32)%N by lia.
    unfold u32. rewrite N.mod_add by discriminate. apply N.mod_small. lia.
  Qed.
  Lemma pos_eq p : safe -> (p <= size s)%N -> u32 (p + width + (2 ^ 32 - indent)) = (p + (width - indent))%N.
  Proof.
    intros [H1 H2] Hp. replace (p + width + (2 ^ 32 - indent))%N with (p + (width - indent) + 1 * 2 ^ 32)%N by lia.
    unfold u32. rewrite N.mod_add by discriminate. apply N.mod_small. lia.
  Qed.
  Lemma broken_nonempty t ch : broken_into t ch -> ch <> [].
  Proof. intros H. destruct H; discriminate. Qed.
  Lemma intercalate_cons x ch : ch <> [] -> intercalate ["010"%char] (x :: ch) = x ++ "010"%char :: intercalate ["010"%char] ch.
  Proof. destruct ch; [congruence|reflexivity]. Qed.

  Lemma wrap_loop_ok : forall fuel pre rest result, s = pre ++ rest -> length rest < fuel ->
    exists chunks, wrap_loop s width indent fuel (size pre) result =
        Some (Ok (result ++ intercalate ["010"%char] (map (app ind) chunks))) /\
      broken_into rest chunks /\ (safe -> line_ok width indent chunks).
  Proof.
    induction fuel as [|fuel IH]; intros pre rest result Hsp Hf; [lia|].
    assert (size s = size pre + size rest)%N as Hsz by (rewrite Hsp; apply size_app).
    assert (forall (a : str) (c : ascii) (b : str) (C : Prop), rest = a ++ c :: b -> c = " "%char \/ c = "010"%char ->
      (safe -> (size a <= width - indent)%N) ->
      exists chunks, wrap_loop s width indent fuel (u32 (size pre + size a + 1))
            (result ++ ind ++ substr s (size pre) (size a) ++ ["010"%char]) =
          Some (Ok (result ++ intercalate ["010"%char] (map (app ind) chunks))) /\
        broken_into rest chunks /\ (safe -> line_ok width indent chunks)) as Step.
    { intros a c b _ Hr Hc Hfit.
      assert (size rest = size a + 1 + size b)%N as Hsr by (rewrite Hr, size_app, size_cons; lia).
      assert (substr s (size pre) (size a) = a) as Hsub.
      { unfold substr. rewrite Hsp, skipn_size, Hr. apply firstn_size. }
      rewrite Hsub.
      rewrite u32_small by lia.
      replace (size pre + size a + 1)%N with (size (pre ++ a ++ [c])) by (rewrite !size_app; cbn; lia).
      destruct (IH (pre ++ a ++ [c]) b (result ++ ind ++ a ++ ["010"%char])) as (ch & E & B & L).
      { rewrite Hsp, Hr, <- !app_assoc. reflexivity. }
      { rewrite Hr in Hf. rewrite app_length in Hf. cbn [length] in Hf. lia. }
      rewrite E. exists (a :: ch). pose proof (broken_nonempty _ _ B) as Hne. split; [|split].
      - cbn [map]. rewrite intercalate_cons by (destruct ch; [exfalso; apply Hne; reflexivity|discriminate]).
        rewrite <- !app_assoc. reflexivity.
      - rewrite Hr. apply brk_more; auto.
      - intros Hsafe. destruct (L Hsafe) as [L1 L2]. destruct ch as [|y ch]; [exfalso; apply Hne; reflexivity|]. split.
        + cbn [removelast]. intros x [<-|Hx]; [auto|apply L1; exact Hx].
        + intros l. rewrite last_opt_cons. apply L2. }
    assert (forall (P : safe -> line_ok width indent [rest]),
      exists chunks, (Some (if (size s <? size pre)%N then Throw "out_of_range"
             else Ok (result ++ ind ++ substr s (size pre) (size s - size pre)))) =
          Some (Ok (result ++ intercalate ["010"%char] (map (app ind) chunks))) /\
        broken_into rest chunks /\ (safe -> line_ok width indent chunks)) as Fin.
    { intros P. exists [rest]. destruct (N.ltb_spec (size s) (size pre)) as [|_]; [lia|]. split; [|split; [constructor|auto]].
      cbn [map intercalate]. replace (size s - size pre)%N with (size rest) by lia.
      unfold substr. rewrite Hsp, skipn_size.
      replace rest with (rest ++ []) at 2 by apply app_nil_r. rewrite firstn_size. reflexivity. }
    cbn [wrap_loop]. fold ind.
    set (pos := u32 (size pre + width + (2 ^ 32 - indent))) in *.
    assert (safe -> pos = (size pre + (width - indent))%N) as Hpos.
    { intros Hsafe. unfold pos. apply pos_eq; auto. lia. }
    destruct (rfind_in_rest "010" pre rest pos Hsp) as [[Hout Hnone]|(a & b & Hr & Hle & Hlp)].
    - set (le := u32 (rfind "010" s pos)) in *.
      assert ((size pre <=? le)%N && (le <=? size s)%N = false) as ->.
      { destruct (N.leb_spec (size pre) le), (N.leb_spec le (size s)); auto; lia. }
      destruct (rfind_in_rest " " pre rest pos Hsp) as [[Hout2 Hnone2]|(a & b & Hr & Hle & Hlp)].
      + set (le2 := u32 (rfind " " s pos)) in *.
        assert ((le2 <? size pre)%N || (size s <? le2)%N = true) as ->.
        { destruct (N.ltb_spec le2 (size pre)), (N.ltb_spec (size s) le2); auto; lia. }
        apply Fin. intros Hsafe. specialize (Hpos Hsafe). split; [intros ? []|]. intros l [= <-].
        split; [|right]; apply firstn_no; intros j Hj; [specialize (Hnone j Hj)|specialize (Hnone2 j Hj)]; lia.
      + assert (size rest = size a + 1 + size b)%N as Hsr by (rewrite Hr, size_app, size_cons; lia).
        rewrite Hle in *.
        assert ((size pre + size a <? size pre)%N || (size s <? size pre + size a)%N = false) as ->.
        { destruct (N.ltb_spec (size pre + size a) (size pre)), (N.ltb_spec (size s) (size pre + size a)); auto; lia. }
        rewrite len_eq by lia.
        destruct (N.leb_spec (size a + (size s - (size pre + size a))) width) as [Hw|Hw].
        * apply Fin. intros Hsafe. specialize (Hpos Hsafe). split; [intros ? []|]. intros l [= <-].
          split; [|left; change (N.of_nat (length rest)) with (size rest); lia]. apply firstn_no; intros j Hj; specialize (Hnone j Hj); lia.
        * apply (Step a " "%char b True Hr); auto.
          intros Hsafe. specialize (Hpos Hsafe). lia.
    - assert (size rest = size a + 1 + size b)%N as Hsr by (rewrite Hr, size_app, size_cons; lia).
      rewrite Hle in *.
      assert ((size pre <=? size pre + size a)%N && (size pre + size a <=? size s)%N = true) as ->.
      { destruct (N.leb_spec (size pre) (size pre + size a)), (N.leb_spec (size pre + size a) (size s)); auto; lia. }
      rewrite len_eq by lia. apply (Step a "010"%char b True Hr); auto. intros Hsafe. specialize (Hpos Hsafe). lia.
  Qed.
End Wrap.

Lemma wrap_ok s width indent fuel : (size s < 2 ^ 32 - 1)%N -> (indent < 2 ^ 32)%N -> length s < fuel ->
  exists chunks, wrap s width indent fuel =
      Some (Ok (intercalate ["010"%char] (map (app (repeat " "%char (N.to_nat indent))) chunks))) /\
    broken_into s chunks /\
    ((indent <= width)%N -> (size s + width < 2 ^ 32)%N -> line_ok width indent chunks).
Proof.
  intros Hs Hi Hf. destruct (wrap_loop_ok s width indent Hs Hi fuel [] s [] eq_refl Hf) as (ch & E & B & L).
  exists ch. split; [exact E|]. split; auto. intros H1 H2. apply L. split; auto.
Qed.
