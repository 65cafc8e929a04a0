(** TextUtilsProofs.v - lemmas about TextUtils.v *)
From Coq Require Import ZArith NArith.
From Verif Require Import Base Counter TextUtils UtilsSpec.

Lemma u32_small n : (n < 2 ^ 32)%N -> u32 n = n.
Proof. intros H. unfold u32. apply N.mod_small, H. Qed.
Lemma u32_npos : u32 npos = (2 ^ 32 - 1)%N. Proof. reflexivity. Qed.
Lemma u32_lt n : (u32 n < 2 ^ 32)%N. Proof. unfold u32. apply N.mod_lt. discriminate. Qed.
Lemma size_app {A} (a b : list A) : size (a ++ b) = (size a + size b)%N.
Proof. unfold size. rewrite app_length. lia. Qed.
Lemma size_cons {A} x (b : list A) : size (x :: b) = (1 + size b)%N.
Proof. unfold size. cbn [length]. lia. Qed.
Lemma skipn_size {A} (a b : list A) : skipn (N.to_nat (size a)) (a ++ b) = b.
Proof. unfold size. rewrite Nat2N.id, skipn_app, skipn_all, Nat.sub_diag. reflexivity. Qed.
Lemma firstn_size {A} (a b : list A) : firstn (N.to_nat (size a)) (a ++ b) = a.
Proof. unfold size. rewrite Nat2N.id, firstn_app, firstn_all, Nat.sub_diag. cbn. apply app_nil_r. Qed.

Lemma find_idx_some {A} (p : A -> bool) l i : find_idx p l = Some i ->
  exists a x b, l = a ++ x :: b /\ size a = i /\ p x = true /\ (forall y, In y a -> p y = false).
Proof.
  revert i. induction l as [|x t IH]; cbn [find_idx]; intros i; [discriminate|].
  destruct (p x) eqn:Px.
  - intros [= <-]. exists [], x, t. repeat split; auto; try (intros ? []).
  - destruct (find_idx p t) as [j|] eqn:F; [|discriminate]. intros [= <-].
    destruct (IH j eq_refl) as (a & y & b & -> & Hs & Hy & Ha).
    exists (x :: a), y, b. split; [reflexivity|]. split; [rewrite size_cons; lia|]. split; [auto|].
    intros z [<-|Hz]; auto.
Qed.
Lemma find_idx_none {A} (p : A -> bool) l : find_idx p l = None -> forall y, In y l -> p y = false.
Proof.
  induction l as [|x t IH]; cbn [find_idx]; intros H y; [intros []|].
  destruct (p x) eqn:Px; [discriminate|]. destruct (find_idx p t) eqn:F; [discriminate|].
  intros [<-|Hy]; auto.
Qed.
Lemma find_first_at {A} (p : A -> bool) (a b : list A) :
  find_first p (a ++ b) (size a) = match find_idx p b with Some i => (size a + i)%N | None => npos end.
Proof. unfold find_first. rewrite skipn_size. reflexivity. Qed.

Lemma tokenised_prefix {A} (delim : A -> bool) ds rest ws :
  (forall c, In c ds -> delim c = true) -> tokenised delim rest ws -> tokenised delim (ds ++ rest) ws.
Proof.
  intros Hd H. destruct H as [ds' H|ds' w rest ws H Hw Hw2 Hr Ht].
  - apply tok_end. intros c Hc. apply in_app_or in Hc as [Hc|Hc]; auto.
  - rewrite app_assoc. apply tok_word; auto. intros c Hc. apply in_app_or in Hc as [Hc|Hc]; auto.
Qed.

Lemma split_loop_ok {A} (delim : A -> bool) text : (size text < 2 ^ 32 - 1)%N ->
  forall fuel pre rest, text = pre ++ rest -> length rest < fuel ->
    (match rest with [] => True | c :: _ => delim c = false end) ->
    exists ws, split_loop delim text fuel (size pre) = Some ws /\ tokenised delim rest ws.
Proof.
  intros HL. induction fuel as [|fuel IH]; intros pre rest Ht Hf Hc; [lia|].
  cbn [split_loop]. destruct rest as [|c0 rest0].
  - rewrite app_nil_r in Ht. subst pre. rewrite N.ltb_irrefl. exists []. split; auto. apply tok_end. intros ? [].
  - set (rest := c0 :: rest0) in *.
    assert (size pre < size text)%N as Hlt by (rewrite Ht, size_app; unfold rest; rewrite size_cons; lia).
    destruct (N.ltb_spec (size pre) (size text)) as [_|]; [|lia].
    assert (find_first delim text (size pre) = match find_idx delim rest with Some i => (size pre + i)%N | None => npos end) as ->
      by (rewrite Ht; apply find_first_at).
    destruct (find_idx delim rest) as [i|] eqn:F.
    + destruct (find_idx_some _ _ _ F) as (w & d & r & Hrest & Hw & Hd & Hnd).
      assert (w <> []) as Hwne. { intros ->. unfold rest in Hrest. cbn in Hrest. injection Hrest as -> ->. congruence. }
      assert (size text = size pre + i + 1 + size r)%N as Hsz.
      { rewrite Ht, Hrest, !size_app, size_cons. lia. }
      rewrite (u32_small (size pre + i)) by lia.
      destruct (N.ltb_spec (size text) (size pre + i)) as [|_]; [lia|].
      rewrite (u32_small (size pre + i + 1)) by lia.
      assert (substr text (size pre) (u32 (size pre + i + 2 ^ 32 - size pre)) = w) as Hsub.
      { replace (size pre + i + 2 ^ 32 - size pre)%N with (i + 1 * 2 ^ 32)%N by lia.
        unfold u32. rewrite N.mod_add by discriminate. rewrite N.mod_small by lia.
        unfold substr. rewrite Ht, skipn_size, Hrest, <- Hw. apply firstn_size. }
      rewrite Hsub.
      assert (text = (pre ++ w ++ [d]) ++ r) as Ht2 by (rewrite Ht, Hrest, <- !app_assoc; reflexivity).
      replace (size pre + i + 1)%N with (size (pre ++ w ++ [d])) by (rewrite !size_app; cbn; lia).
      assert (find_first (fun c => negb (delim c)) text (size (pre ++ w ++ [d])) =
              match find_idx (fun c => negb (delim c)) r with Some j => (size (pre ++ w ++ [d]) + j)%N | None => npos end) as ->
        by (rewrite Ht2; apply find_first_at).
      assert (length rest = length w + S (length r)) as Hlen by (rewrite Hrest, app_length; reflexivity).
      destruct (find_idx (fun c => negb (delim c)) r) as [j|] eqn:G.
      * destruct (find_idx_some _ _ _ G) as (ds & x & r' & Hr & Hds & Hx & Hdel).
        assert (text = (pre ++ w ++ [d] ++ ds) ++ x :: r') as Ht3 by (rewrite Ht2, Hr, <- !app_assoc; reflexivity).
        assert (size r = j + 1 + size r')%N as Hsr by (rewrite Hr, size_app, size_cons; lia).
        rewrite u32_small by (rewrite !size_app; cbn [size length N.of_nat]; change (size [d]) with 1%N; lia).
        replace (size (pre ++ w ++ [d]) + j)%N with (size (pre ++ w ++ [d] ++ ds)) by (rewrite !size_app; lia).
        destruct (IH _ _ Ht3) as (ws & E1 & E2).
        { rewrite Hr in Hlen. rewrite app_length in Hlen. cbn [length] in *. lia. }
        { destruct (delim x); [discriminate|reflexivity]. }
        rewrite E1. exists (w :: ws). split; [reflexivity|]. rewrite Hrest.
        change (w ++ d :: r) with ([] ++ w ++ (d :: r)). apply tok_word; [intros ? []|auto|auto|right; eauto|].
           rewrite Hr. change (d :: ds ++ x :: r') with ((d :: ds) ++ x :: r'). apply tokenised_prefix; auto.
           intros c [<-|Hin]; auto. specialize (Hdel c Hin). destruct (delim c); auto; discriminate.
      * rewrite u32_npos. destruct fuel as [|fuel]; [cbn in *; lia|]. cbn [split_loop].
        destruct (N.ltb_spec (2 ^ 32 - 1) (size text)) as [|_]; [lia|].
        exists [w]. split; [reflexivity|]. rewrite Hrest.
        change (w ++ d :: r) with ([] ++ w ++ (d :: r)). apply tok_word; [intros ? []|auto|auto|right; eauto|].
           apply tok_end. intros c [<-|Hin]; auto. pose proof (find_idx_none _ _ G c Hin) as Hn. cbv beta in Hn.
           destruct (delim c); auto; discriminate.
    + rewrite u32_npos. destruct (N.ltb_spec (size text) (2 ^ 32 - 1)) as [_|]; [|lia].
      rewrite (u32_small (size text)) by lia. rewrite (u32_small (size text + 1)) by lia.
      assert (substr text (size pre) (u32 (size text + 2 ^ 32 - size pre)) = rest) as Hsub.
      { replace (size text + 2 ^ 32 - size pre)%N with (size rest + 1 * 2 ^ 32)%N by (rewrite Ht, size_app; lia).
        unfold u32. rewrite N.mod_add by discriminate. rewrite N.mod_small by (rewrite Ht, size_app in HL; lia).
        unfold substr. rewrite Ht, skipn_size. rewrite <- (app_nil_r rest) at 2. rewrite firstn_size. reflexivity. }
      rewrite Hsub.
      assert (find_first (fun c => negb (delim c)) text (size text + 1) = npos) as ->.
      { unfold find_first. rewrite skipn_all2; [reflexivity|]. unfold size. lia. }
      rewrite u32_npos. destruct fuel as [|fuel]; [cbn in *; lia|]. cbn [split_loop].
      destruct (N.ltb_spec (2 ^ 32 - 1) (size text)) as [|_]; [lia|].
      exists [rest]. split; [reflexivity|].
      replace rest with ([] ++ rest ++ []) at 1 by apply app_nil_r. apply tok_word;
        [intros ? []|unfold rest; discriminate|apply find_idx_none, F|left; reflexivity|apply tok_end; intros ? []].
Qed.

Lemma splitIntoWords_ok {A} (delim : A -> bool) text fuel :
  (size text < 2 ^ 32 - 1)%N -> length text < fuel ->
  exists ws, splitIntoWords delim text fuel = Some ws /\ tokenised delim text ws.
Proof.
  intros HL Hf. unfold splitIntoWords. change 0%N with (@size A []). change text with ([] ++ text) at 2.
  rewrite find_first_at. destruct (find_idx (fun c => negb (delim c)) text) as [j|] eqn:G.
  - destruct (find_idx_some _ _ _ G) as (ds & x & r' & Hr & Hds & Hx & Hdel).
    assert (size text = j + 1 + size r')%N as Hsr by (rewrite Hr, size_app, size_cons; lia).
    rewrite u32_small by (change (@size A []) with 0%N; lia).
    replace (@size A [] + j)%N with (size ds) by (change (@size A []) with 0%N; lia).
    destruct (split_loop_ok delim text HL fuel ds (x :: r') Hr) as (ws & E1 & E2).
    { rewrite Hr in Hf. rewrite app_length in Hf. cbn [length] in *. lia. }
    { destruct (delim x); [discriminate|reflexivity]. }
    exists ws. split; auto. rewrite Hr. apply tokenised_prefix; auto.
    intros c Hin. specialize (Hdel c Hin). cbv beta in Hdel. destruct (delim c); auto; discriminate.
  - rewrite u32_npos. destruct fuel as [|fuel]; [lia|]. cbn [split_loop].
    destruct (N.ltb_spec (2 ^ 32 - 1) (size text)) as [|_]; [lia|].
    exists []. split; auto. apply tok_end. intros c Hin. pose proof (find_idx_none _ _ G c Hin) as Hn. cbv beta in Hn.
    destruct (delim c); auto; discriminate.
Qed.

Lemma tokenised_concat {A} (delim : A -> bool) text ws : tokenised delim text ws ->
  concat ws = filter (fun c => negb (delim c)) text /\ (forall w, In w ws -> w <> [] /\ forall c, In c w -> delim c = false).
Proof.
  assert (forall l, (forall c, In c l -> delim c = true) -> filter (fun c => negb (delim c)) l = []) as F1.
  { induction l as [|a l IH]; intros H; auto. cbn. rewrite (H a (or_introl eq_refl)). cbn. apply IH. intros c Hc. apply H. right; auto. }
  assert (forall l, (forall c, In c l -> delim c = false) -> filter (fun c => negb (delim c)) l = l) as F2.
  { induction l as [|a l IH]; intros H; auto. cbn. rewrite (H a (or_introl eq_refl)). cbn. f_equal. apply IH. intros c Hc. apply H. right; auto. }
  induction 1 as [ds H|ds w rest ws H Hw Hw2 Hr Ht [IH1 IH2]].
  - rewrite F1; auto. split; auto; try (intros ? []).
  - rewrite !filter_app, (F1 ds), (F2 w) by auto. cbn. rewrite IH1. split; auto.
    intros x [<-|Hx]; auto.
Qed.

Lemma split_at_delim {A} (delim : A -> bool) (w r w' r' : list A) :
  (forall c, In c w -> delim c = false) -> (forall c, In c w' -> delim c = false) ->
  (r = [] \/ exists c t, r = c :: t /\ delim c = true) -> (r' = [] \/ exists c t, r' = c :: t /\ delim c = true) ->
  w ++ r = w' ++ r' -> w = w' /\ r = r'.
Proof.
  revert w'. induction w as [|a w IH]; intros [|b w'] H1 H2 R1 R2 E; cbn in E; auto.
  - exfalso. destruct R1 as [->|(c & t & -> & D)]; [discriminate|]. injection E as -> _. rewrite (H2 b) in D by (left; auto). discriminate.
  - exfalso. destruct R2 as [->|(c & t & -> & D)]; [discriminate|]. injection E as -> _. rewrite (H1 c) in D by (left; auto). discriminate.
  - injection E as -> E. destruct (IH w') as [-> ->]; auto.
    + intros c Hc. apply H1. right; auto.
    + intros c Hc. apply H2. right; auto.
Qed.
Lemma tokenised_unique {A} (delim : A -> bool) text ws : tokenised delim text ws ->
  forall ws', tokenised delim text ws' -> ws = ws'.
Proof.
  induction 1 as [ds H|ds w rest ws H Hw Hw2 Hr Ht IH]; intros ws' H'.
  - inversion H' as [|ds' w' rest' ws2 P1 P2 P3 P4 P5]; auto. subst. exfalso.
    destruct w' as [|a w']; [congruence|]. pose proof (P3 a (or_introl eq_refl)) as Q. rewrite (H a) in Q; [discriminate|].
    apply in_or_app. right. left. auto.
  - inversion H' as [ds' P1 P2|ds' w' rest' ws2 P1 P2 P3 P4 P5]; subst.
    + exfalso. destruct w as [|a w]; [congruence|]. pose proof (Hw2 a (or_introl eq_refl)) as Q. rewrite (P1 a) in Q; [discriminate|].
      apply in_or_app. right. left. auto.
    + assert (ds = ds' /\ w ++ rest = w' ++ rest') as [-> E2].
      { apply (split_at_delim (fun c => negb (delim c))); auto.
        - intros c Hc. rewrite H; auto.
        - intros c Hc. rewrite P1; auto.
        - right. destruct w as [|a w]; [congruence|]. exists a, (w ++ rest). split; auto. rewrite (Hw2 a); auto. left; auto.
        - right. destruct w' as [|a w']; [congruence|]. exists a, (w' ++ rest'). split; auto. rewrite (P3 a); auto. left; auto. }
      destruct (split_at_delim delim w rest w' rest') as [-> ->]; auto. f_equal. apply IH. auto.
Qed.

(** A text of exactly 2^32-1 characters without delimiter: [stop + 1] wraps to 0 and the loop starts again. *)
Lemma split_diverges {A} (delim : A -> bool) text : size text = (2 ^ 32 - 1)%N ->
  (forall c, In c text -> delim c = false) -> forall fuel, splitIntoWords delim text fuel = None.
Proof.
  intros HL Hnd.
  assert (find_idx delim text = None) as F1.
  { clear HL. induction text as [|a t IH]; auto. cbn. rewrite (Hnd a (or_introl eq_refl)). rewrite IH; auto. intros c Hc. apply Hnd; right; auto. }
  assert (u32 (find_first (fun c => negb (delim c)) text 0) = 0%N) as F2.
  { unfold find_first. cbn [N.to_nat skipn]. destruct text as [|a t]; [discriminate HL|]. cbn [find_idx].
    rewrite (Hnd a (or_introl eq_refl)). reflexivity. }
  unfold splitIntoWords. rewrite F2. induction fuel as [|fuel IH]; auto. cbn [split_loop]. rewrite HL.
  change (0 <? 2 ^ 32 - 1)%N with true. cbv iota.
  assert (find_first delim text 0 = npos) as ->.
  { unfold find_first. cbn [N.to_nat skipn]. rewrite F1. reflexivity. }
  rewrite u32_npos. change (2 ^ 32 - 1 <? 2 ^ 32 - 1)%N with false. cbv iota.
  change (u32 (2 ^ 32 - 1 + 1)) with 0%N. rewrite F2, IH. reflexivity.
Qed.

(** ** join, shorten, strip, createRandomString, escapeJson *)
Lemma join_nonempty sep l : forall r, r <> [] ->
  fold_left (fun r s => (match r with [] => r | _ => r ++ sep end) ++ s) l r = intercalate sep (r :: l).
Proof.
  induction l as [|s l IH]; intros r Hr; auto. cbn [fold_left].
  assert (match r with [] => r | _ => r ++ sep end = r ++ sep) as -> by (destruct r; [congruence|auto]).
  rewrite IH.
  - cbn [intercalate]. destruct l; rewrite <- !app_assoc; reflexivity.
  - destruct r; [congruence|discriminate].
Qed.
Lemma join_exact l sep : join l sep = intercalate sep (drop_empty l).
Proof.
  unfold join. induction l as [|s l IH]; auto. cbn [fold_left]. destruct s as [|c s].
  - cbn [app drop_empty]. exact IH.
  - cbn [app]. rewrite join_nonempty by discriminate. reflexivity.
Qed.

Lemma shorten_spec s len : 
  ((size s <= len)%N -> shorten s len = s) /\
  ((len < size s)%N -> exists p r, s = p ++ r /\ size p = len /\ shorten s len = p ++ S_ "...") /\
  (size (shorten s len) <= len + 3)%N.
Proof.
  unfold shorten. destruct (N.leb_spec (size s) len) as [H|H].
  - split; auto. split; [lia|lia].
  - split; [lia|]. unfold substr. cbn [N.to_nat skipn].
    assert (size (firstn (N.to_nat len) s) = len) as Hs.
    { unfold size in *. rewrite firstn_length_le; lia. }
    split.
    + intros _. exists (firstn (N.to_nat len) s), (skipn (N.to_nat len) s). rewrite firstn_skipn. auto.
    + rewrite size_app, Hs. change (size (S_ "...")) with 3%N. lia.
Qed.

Lemma drop_space_split s : 
  (exists ws c t, s = ws ++ c :: t /\ (forall x, In x ws -> isspace x = true) /\ isspace c = false /\ drop_space s = Ok (c :: t)) \/
  ((forall x, In x s -> isspace x = true) /\ is_ub (drop_space s) = true).
Proof.
  induction s as [|a s IH]; cbn [drop_space].
  - right. split; auto; try (intros ? []).
  - destruct (isspace a) eqn:Ea.
    + destruct IH as [(ws & c & t & -> & H1 & H2 & H3)|[H1 H2]].
      * left. exists (a :: ws), c, t. split; [auto|]. split; [|auto]. intros x [<-|Hx]; auto.
      * right. split; auto. intros x [<-|Hx]; auto.
    + left. exists [], a, s. split; [auto|]. split; [intros ? []|auto].
Qed.
Lemma strip_ok a m b : (forall x, In x a -> isspace x = true) -> (forall x, In x b -> isspace x = true) ->
  (exists c t, m = c :: t /\ isspace c = false) -> (exists t c, m = t ++ [c] /\ isspace c = false) ->
  strip (a ++ m ++ b) = Ok m.
Proof.
  intros Ha Hb (c & t & Hm & Hc) (t' & c' & Hm' & Hc').
  assert (forall l y r, (forall x, In x l -> isspace x = true) -> isspace y = false -> drop_space (l ++ y :: r) = Ok (y :: r)) as D.
  { induction l as [|x l IH]; intros y r Hl Hy; cbn [app drop_space]; [rewrite Hy; auto|].
    rewrite (Hl x (or_introl eq_refl)). apply IH; auto. intros z Hz. apply Hl. right; auto. }
  unfold strip. rewrite Hm. cbn [app]. rewrite D by auto. cbn [obind].
  change (c :: t ++ b) with ((c :: t) ++ b). rewrite <- Hm, Hm'. rewrite !rev_app_distr. cbn [rev app].
  rewrite D; auto. 2:{ intros x Hx. apply Hb. apply in_rev; auto. }
  cbn [obind rev]. rewrite rev_involutive. reflexivity.
Qed.
Lemma strip_ub s : (forall x, In x s -> isspace x = true) -> is_ub (strip s) = true.
Proof.
  intros H. unfold strip. destruct (drop_space_split s) as [(ws & c & t & -> & H1 & H2 & H3)|[H1 H2]].
  - rewrite (H c) in H2; [discriminate|]. apply in_or_app. right. left. auto.
  - destruct (drop_space s); auto; discriminate.
Qed.
Lemma strip_total s : (exists x, In x s /\ isspace x = false) ->
  exists a m b, s = a ++ m ++ b /\ (forall x, In x a -> isspace x = true) /\ (forall x, In x b -> isspace x = true) /\
  (exists c t, m = c :: t /\ isspace c = false) /\ (exists t c, m = t ++ [c] /\ isspace c = false).
Proof.
  intros (x & Hx & Hs).
  destruct (drop_space_split s) as [(a & c & t & -> & H1 & H2 & _)|[H _]]; [|rewrite H in Hs; [discriminate|auto]].
  destruct (drop_space_split (rev (c :: t))) as [(b & c' & t' & E & K1 & K2 & _)|[H _]].
  2:{ rewrite (H c) in H2; [discriminate|]. apply -> in_rev. left; auto. }
  assert (c :: t = rev t' ++ [c'] ++ rev b) as E2.
  { rewrite <- (rev_involutive (c :: t)), E, rev_app_distr. cbn. rewrite <- app_assoc. reflexivity. }
  exists a, (rev t' ++ [c']), (rev b). split; [rewrite E2, <- !app_assoc; reflexivity|]. split; [auto|].
  split; [intros y Hy; apply K1; apply in_rev; auto|]. split.
  - destruct (rev t') as [|z u]; cbn in E2; injection E2 as <- _; cbn; eauto.
  - eauto.
Qed.

Lemma random_chars_ok alphabet rnd : 2 <= length alphabet ->
  exists t, random_chars alphabet rnd = Ok t /\ length t = length rnd /\
    forall c, In c t -> In c (firstn (length alphabet - 1) alphabet).
Proof.
  intros H. induction rnd as [|r rs (t & E1 & E2 & E3)]; cbn [random_chars].
  - exists []. split; auto. split; auto; try (intros ? []).
  - destruct (length alphabet) as [|[|n]] eqn:L; try lia. rewrite E1. cbn [obind]. eexists. split; [reflexivity|].
    split; [cbn; lia|]. intros c [<-|Hc]; auto.
    set (k := N.to_nat (r mod N.of_nat (S n))).
    assert (k < S n) as Hk.
    { unfold k. pose proof (N.mod_lt r (N.of_nat (S n))). lia. }
    replace (S (S n) - 1) with (S n) by lia.
    assert (nth k alphabet "000"%char = nth k (firstn (S n) alphabet) "000"%char) as ->.
    { rewrite <- (firstn_skipn (S n) alphabet) at 1. apply app_nth1. rewrite firstn_length_le; lia. }
    apply nth_In. rewrite firstn_length_le; lia.
Qed.
Lemma createRandomString_ok len prefix alphabet rand : 2 <= length alphabet ->
  exists t, createRandomString len prefix alphabet rand = Ok (prefix ++ t) /\ length t = len /\
    forall c, In c t -> In c (firstn (length alphabet - 1) alphabet).
Proof.
  intros H. unfold createRandomString. destruct (random_chars_ok alphabet (map rand (seq 0 len)) H) as (t & -> & L & I).
  exists t. split; auto. split; auto. rewrite L, map_length, seq_length. reflexivity.
Qed.

Lemma escape_char_decode c rest : json_decode (escape_char c ++ rest) = option_map (cons c) (json_decode rest).
Proof.
  destruct c as [[] [] [] [] [] [] [] []];
    (vm_compute (escape_char _) || idtac); cbn -[json_decode];
    repeat (cbn; try reflexivity); destruct (json_decode rest); reflexivity.
Qed.
Lemma escapeJson_roundtrip s : json_decode (escapeJson s) = Some s.
Proof.
  induction s as [|c s IH]; auto. unfold escapeJson in *. cbn [flat_map]. rewrite escape_char_decode, IH. reflexivity.
Qed.
Lemma escapeJson_no_ctrl s c : In c (escapeJson s) -> 32 <= nat_of_ascii c.
Proof.
  unfold escapeJson. intros H. apply in_flat_map in H as (x & _ & H).
  assert (forall x, forallb (fun c => 32 <=? nat_of_ascii c) (escape_char x) = true) as G.
  { clear. intros [[] [] [] [] [] [] [] []]; vm_compute; reflexivity. }
  specialize (G x). rewrite forallb_forall in G. specialize (G c H). apply Nat.leb_le in G. exact G.
Qed.

Lemma createRandomString_small len prefix c (rand : nat -> N) :
  is_ub (createRandomString (S len) prefix [c] rand) = true /\
  createRandomString (S len) prefix [] rand = Ok (prefix ++ repeat "000"%char (S len)).
Proof.
  split; [reflexivity|]. unfold createRandomString.
  assert (forall l, random_chars [] l = Ok (repeat "000"%char (length l))) as ->.
  { induction l as [|x l IH]; auto. cbn. rewrite IH. reflexivity. }
  rewrite map_length, seq_length. reflexivity.
Qed.
