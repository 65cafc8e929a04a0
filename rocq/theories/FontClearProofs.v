(** FontClearProofs.v - font names, style hints and the clear-text part of a font file (C49, C50, C65, C66). *)
From Coq Require Import ZArith NArith.
From Verif Require Import Base Double Fonts FontsSpec CipherProofs FontTextProofs FontFileProofs.
Open Scope Z_scope.

(** ** Names *)
Lemma plus_char : S_ "+" = ["+"%char]. Proof. reflexivity. Qed.
Lemma minus_char : S_ "-" = ["-"%char]. Proof. reflexivity. Qed.
Lemma lower_fix c x : byte x < 65 \/ 122 < byte x -> (to_lower c = x <-> c = x).
Proof.
  intro X. unfold to_lower. destruct ((65 <=? byte c) && (byte c <=? 90)) eqn:E.
  - apply andb_true_iff in E. rewrite !Z.leb_le in E. split.
    + intro H. exfalso. apply (f_equal byte) in H. rewrite byte_to_char in H by lia. lia.
    + intro H. subst. exfalso. lia.
  - tauto.
Qed.
Lemma lowered_in x s : byte x < 65 \/ 122 < byte x -> (In x (lowered s) <-> In x s).
Proof.
  intro X. unfold lowered. rewrite in_map_iff. split.
  - intros [c [E I]]. apply (lower_fix c x X) in E. now subst.
  - intro I. exists x. split; [apply (lower_fix x x X); reflexivity|exact I].
Qed.
Lemma norm_plus a b : ~ In "+"%char a -> norm_name (lower_name (a ++ S_ "+" ++ b)) = lowered b.
Proof.
  intro N. unfold norm_name, lower_name. rewrite map_app. cbn [map app S_ list_ascii_of_string].
  change (to_lower "+"%char) with "+"%char.
  assert (F : first_at (S_ "+") (map to_lower a ++ "+"%char :: map to_lower b) (map to_lower a) (map to_lower b)).
  { rewrite plus_char. apply first_at_char. intro I. apply N. apply (lowered_in "+"%char a); [left; vm_compute; reflexivity|exact I]. }
  apply find_text_some in F. cbn [S_ list_ascii_of_string] in F. rewrite F. reflexivity.
Qed.
Lemma norm_no_plus s : ~ In "+"%char s -> norm_name (lower_name s) = lowered s.
Proof.
  intro N. unfold norm_name, lower_name. assert (A : absent (S_ "+") (map to_lower s)).
  { rewrite plus_char. apply absent_char. intro I. apply N. apply (lowered_in "+"%char s); [left; vm_compute; reflexivity|exact I]. }
  apply find_text_none in A. rewrite A. reflexivity.
Qed.
Lemma base_minus a b : ~ In "-"%char a -> base_name (a ++ S_ "-" ++ b) = filter not_digit a.
Proof.
  intro N. unfold base_name. rewrite minus_char. pose proof (first_at_char "-"%char a b N) as F. apply find_text_some in F. cbn [app]. rewrite F. reflexivity.
Qed.
Lemma base_no_minus s : ~ In "-"%char s -> base_name s = filter not_digit s.
Proof. intro N. unfold base_name. rewrite minus_char. pose proof (absent_char _ _ N) as F. apply find_text_none in F. now rewrite F. Qed.

(** ** Lines *)
Lemma byte_newline c : byte c = 10 <-> c = newline.
Proof. split; [intro H; apply byte_inj; rewrite H; reflexivity|intros ->; reflexivity]. Qed.
Lemma lines_from_line l : ~ In newline l -> forall cur rest, lines_from (l ++ newline :: rest) cur = (cur ++ l) :: lines_from rest [].
Proof.
  induction l as [|c l IH]; intros N cur rest; cbn [app lines_from].
  - rewrite app_nil_r. reflexivity.
  - destruct (Z.eqb_spec (byte c) 10) as [E|E]; [apply byte_newline in E; subst; exfalso; apply N; now left|].
    rewrite IH by (intro; apply N; now right). rewrite <- app_assoc. reflexivity.
Qed.
Lemma lines_of_text ls : is_text ls -> lines_of (text_of ls) = ls.
Proof.
  intro T. unfold lines_of, text_of. induction ls as [|l ls IH]; [reflexivity|]. cbn [map concat]. rewrite <- app_assoc. cbn [app].
  rewrite lines_from_line by (apply T; now left). rewrite IH by (intros x I; apply T; now right). reflexivity.
Qed.

(** ** Numbers *)
Lemma scan_digits : forall ds s dot sci m, Forall digit ds -> scan_number (ds ++ s) dot sci m =
  let '(a, b) := scan_number s dot sci (m || match ds with [] => false | _ => true end) in (ds ++ a, b).
Proof.
  induction ds as [|c ds IH]; intros s dot sci m F.
  - cbn [app]. rewrite orb_false_r. destruct (scan_number s dot sci m). reflexivity.
  - apply Forall_cons_iff in F. destruct F as [D F]. cbn [app scan_number]. rewrite (proj2 (is_digit_iff c) D). rewrite IH by exact F.
    rewrite orb_true_r. cbn [orb]. destruct (scan_number s dot sci true). reflexivity.
Qed.
Lemma scan_stop c s dot sci m : white c -> scan_number (c :: s) dot sci m = ([], c :: s).
Proof.
  intro W. cbn [scan_number]. rewrite (white_not_digit c W). unfold white in W.
  rewrite !(proj2 (Z.eqb_neq (byte c) _)) by lia. reflexivity.
Qed.
Lemma scan_end rest dot sci m : match rest with c :: _ => white c | [] => True end -> scan_number rest dot sci m = ([], rest).
Proof. destruct rest as [|c r]; [reflexivity|]. apply scan_stop. Qed.
Lemma scan_body ip frac rest : ip <> [] -> Forall digit ip -> (frac = [] \/ exists fp, frac = S_ "." ++ fp /\ Forall digit fp) ->
  match rest with c :: _ => white c | [] => True end -> scan_number (ip ++ frac ++ rest) false false false = (ip ++ frac, rest).
Proof.
  intros N F FR R. rewrite scan_digits by exact F. destruct ip as [|c ip]; [contradiction|]. cbn [orb].
  destruct FR as [-> | [fp [-> FF]]].
  - cbn [app]. rewrite scan_end by exact R. reflexivity.
  - change ((S_ "." ++ fp) ++ rest) with ("."%char :: (fp ++ rest)).
    assert (E : scan_number ("."%char :: (fp ++ rest)) false false true = let '(a, b) := scan_number (fp ++ rest) true false true in ("."%char :: a, b)) by reflexivity.
    rewrite E, scan_digits by exact FF. cbn [orb]. rewrite scan_end by exact R. rewrite app_nil_r. reflexivity.
Qed.
Lemma scan_plain t rest : plain_number t -> match rest with c :: _ => white c | [] => True end -> scan_token (t ++ rest) = (t, rest).
Proof.
  intros (sign & ip & frac & -> & SG & N & F & FR) R. unfold scan_token.
  destruct SG as [-> | [-> | ->]]; cbn [app S_ list_ascii_of_string].
  - destruct ip as [|c ip]; [contradiction|]. cbn [app]. apply Forall_inv in F as D. unfold digit in D.
    rewrite !(proj2 (Z.eqb_neq (byte c) _)) by lia. cbn [orb].
    pose proof (scan_body (c :: ip) frac rest N F FR R) as E. rewrite app_assoc in E. exact E.
  - change ((byte "-" =? 43) || (byte "-" =? 45)) with true. cbn iota. rewrite <- app_assoc, scan_body by assumption. reflexivity.
  - change ((byte "+" =? 43) || (byte "+" =? 45)) with true. cbn iota. rewrite <- app_assoc, scan_body by assumption. reflexivity.
Qed.
Lemma plain_nonempty t : plain_number t -> t <> [].
Proof. intros (sign & ip & frac & -> & SG & N & _). destruct SG as [-> | [-> | ->]]; destruct ip; try contradiction; discriminate. Qed.
Lemma plain_head t r : plain_number t -> match t ++ r with c :: _ => is_space c = false | [] => True end.
Proof.
  intros (sign & ip & frac & -> & SG & N & F & _). destruct SG as [-> | [-> | ->]]; [|reflexivity|reflexivity].
  destruct ip as [|c ip]; [contradiction|]. cbn. apply Forall_inv in F. now apply digit_not_white.
Qed.
Lemma take_spaces ws s : Forall white ws -> match s with c :: _ => is_space c = false | [] => True end -> snd (take_while is_space (ws ++ s)) = s.
Proof. intros F H. rewrite take_while_app; [reflexivity| |exact H]. eapply Forall_impl; [|exact F]. intro. apply is_space_iff. Qed.

Section Matrix.
  Context (strtod : str -> option double).
  Lemma read_numbers_spec : forall inner ts, numbers_text inner ts -> forall ds fuel, Forall2 (fun t d => strtod t = Some d) ts ds ->
    (length inner < fuel)%nat -> read_numbers strtod fuel inner = ds.
  Proof.
    induction 1 as [ws F|ws t rest ts F PN R NT IH]; intros ds fuel FD L; (destruct fuel as [|fuel]; [lia|]); cbn [read_numbers].
    - inversion FD; subst. pose proof (take_spaces ws [] F I) as E. rewrite app_nil_r in E. rewrite E. reflexivity.
    - inversion FD as [|? d ? ds' E1 FD']; subst. rewrite take_spaces by (try exact F; apply plain_head, PN).
      rewrite scan_plain by assumption. pose proof (plain_nonempty t PN) as NE. destruct t as [|c t]; [contradiction|]. rewrite E1. f_equal.
      apply IH; [exact FD'|]. rewrite !app_length in L. cbn [length] in L. lia.
  Qed.
  Lemma update_nth_app {A} : forall (a : list A) x y b, update (length a) x (a ++ y :: b) = a ++ x :: b.
  Proof. induction a as [|h t IH]; intros; cbn; [reflexivity|]. now rewrite IH. Qed.
  Lemma store_numbers_spec : forall ds k a b, length a = k -> (length a + length b = 6)%nat ->
    store_numbers k ds (a ++ b) = if (length ds <=? length b)%nat then Ok (a ++ ds ++ skipn (length ds) b) else UB "write behind the end of fontMatrix".
  Proof.
    induction ds as [|d ds IH]; intros k a b LA LB; cbn [store_numbers length].
    - reflexivity.
    - destruct (Nat.ltb_spec k 6) as [K|K].
      + destruct b as [|y b]; [cbn in LB; lia|]. rewrite <- LA, update_nth_app.
        change (a ++ d :: b) with (a ++ [d] ++ b). rewrite app_assoc.
        cbn [length] in *. rewrite (IH (S (length a)) (a ++ [d]) b) by (rewrite app_length; cbn [length]; lia).
        cbn [Nat.leb skipn]. destruct (length ds <=? length b)%nat; [|reflexivity]. rewrite <- app_assoc. reflexivity.
      + destruct b; cbn [length] in *; [|lia]. reflexivity.
  Qed.
  Lemma matrix_line_spec line ts ds f : matrix_entry line ts -> Forall2 (fun t d => strtod t = Some d) ts ds -> length (f_matrix f) = 6%nat ->
    matrix_line strtod line f = if (length ds <=? 6)%nat then Ok (set_matrix (ds ++ skipn (length ds) (f_matrix f)) f) else UB "write behind the end of fontMatrix".
  Proof.
    intros (a & t1 & b & t2 & inner & c & F1 & F2 & F3 & NT) FD L6. unfold matrix_line.
    apply find_text_some in F1. rewrite F1. apply find_text_some in F2. rewrite F2. apply find_text_some in F3. rewrite F3.
    rewrite (read_numbers_spec inner ts NT ds _ FD) by lia.
    pose proof (store_numbers_spec ds 0 [] (f_matrix f) eq_refl) as E. cbn [app length Nat.add] in E. rewrite E by exact L6. rewrite L6.
    destruct (length ds <=? 6)%nat; reflexivity.
  Qed.
  Lemma matrix_line_absent line f : absent (S_ "/FontMatrix") line -> matrix_line strtod line f = Ok f.
  Proof. intro A. unfold matrix_line. apply find_text_none in A. now rewrite A. Qed.

  (** What a line never changes. *)
  Definition same_but_style (f g : font) : Prop :=
    f_name f = f_name g /\ f_norm f = f_norm g /\ f_base f = f_base g /\ f_fixed f = f_fixed g /\ f_serif f = f_serif g /\
    f_symbolic f = f_symbolic g /\ f_type3 f = f_type3 g /\ f_ascent f = f_ascent g /\ f_descent f = f_descent g /\ f_boxes f = f_boxes g.
  Lemma matrix_line_frame line f f' : matrix_line strtod line f = Ok f' ->
    same_but_style f f' /\ f_italic f' = f_italic f /\ f_weight f' = f_weight f /\ (length (f_matrix f) = 6%nat -> length (f_matrix f') = 6%nat).
  Proof.
    unfold matrix_line. assert (ID : forall g, Ok f = Ok g -> same_but_style f g /\ f_italic g = f_italic f /\ f_weight g = f_weight f /\ (length (f_matrix f) = 6%nat -> length (f_matrix g) = 6%nat)).
    { intros g E. inversion E. unfold same_but_style. tauto. }
    destruct (find_text _ line) as [[? r1]|]; [|apply ID]. destruct (find_text _ r1) as [[? r2]|]; [|apply ID].
    destruct (find_text _ r2) as [[inner ?]|]; [|apply ID].
    set (ds := read_numbers strtod (S (length inner)) inner).
    assert (SL : forall ds k m m', store_numbers k ds m = Ok m' -> length m' = length m).
    { clear. induction ds as [|d ds IH]; intros k m m' E; cbn [store_numbers] in E; [inversion E; reflexivity|].
      destruct (k <? 6)%nat; [|discriminate]. apply IH in E. rewrite E. apply update_length. }
    destruct (store_numbers 0 ds (f_matrix f)) as [m|x|x] eqn:E; cbn [obind]; intro H; inversion H.
    cbn [set_matrix f_italic f_weight f_matrix]. unfold same_but_style. cbn. repeat split; try tauto. rewrite (SL _ _ _ _ E). tauto.
  Qed.
  Lemma weight_line_found line f w : weight_entry line w ->
    weight_line line false f = (true, if str_eqb w (S_ "Regular") then set_weight 400 f else if str_eqb w (S_ "Medium") then set_weight 500 f
                                      else if str_eqb w (S_ "Bold") then set_weight 700 f else f).
  Proof. intros (a & t & b & F1 & F2). unfold weight_line. apply find_text_some in F1. rewrite F1. apply find_text_some in F2. now rewrite F2. Qed.
  Lemma weight_line_none line f : ~ has_weight line -> weight_line line false f = (false, f).
  Proof.
    intro N. unfold weight_line. destruct (find_text (S_ "/Weight (") line) as [[a t]|] eqn:E; [|reflexivity].
    destruct (find_text (S_ ")") t) as [[w b]|] eqn:E2; [|reflexivity]. exfalso. apply N. exists w, a, t, b.
    split; now apply find_text_some.
  Qed.
  Lemma weight_line_frame line found f : let f' := snd (weight_line line found f) in
    same_but_style f f' /\ f_italic f' = f_italic f /\ f_matrix f' = f_matrix f.
  Proof.
    unfold weight_line, same_but_style. destruct found; [cbn; tauto|]. destruct (find_text _ line) as [[a t]|]; [|cbn; tauto].
    destruct (find_text _ t) as [[w b]|]; [|cbn; tauto]. cbn [snd].
    destruct (str_eqb w (S_ "Regular")); [cbn; tauto|]. destruct (str_eqb w (S_ "Medium")); [cbn; tauto|]. destruct (str_eqb w (S_ "Bold")); cbn; tauto.
  Qed.
  Lemma italic_line_frame line found f : let f' := snd (italic_line line found f) in
    same_but_style f f' /\ f_weight f' = f_weight f /\ f_matrix f' = f_matrix f.
  Proof.
    unfold italic_line, same_but_style. destruct found; [cbn; tauto|]. destruct (is_some _); cbn; tauto.
  Qed.
  Lemma same_trans f g k : same_but_style f g -> same_but_style g k -> same_but_style f k.
  Proof. unfold same_but_style. intuition congruence. Qed.
  Lemma weight_found_stays line f : weight_line line true f = (true, f).
  Proof. reflexivity. Qed.

  (** One pass of the loop. *)
  Lemma ascii_step line r i w f : ascii_lines strtod (line :: r) i w f =
    obind (matrix_line strtod line f) (fun f1 =>
      let '(i', f2) := italic_line line i f1 in let '(w', f3) := weight_line line w f2 in ascii_lines strtod r i' w' f3).
  Proof. reflexivity. Qed.
  Lemma ascii_frame : forall ls i w f f', ascii_lines strtod ls i w f = Ok f' -> same_but_style f f'.
  Proof.
    induction ls as [|l ls IH]; intros i w f f' E; [inversion E; unfold same_but_style; tauto|]. rewrite ascii_step in E.
    destruct (matrix_line strtod l f) as [f1|x|x] eqn:M; cbn [obind] in E; try discriminate.
    pose proof (proj1 (matrix_line_frame l f f1 M)) as S1. pose proof (proj1 (italic_line_frame l i f1)) as S2.
    destruct (italic_line l i f1) as [i' f2]. cbn [snd] in S2. pose proof (proj1 (weight_line_frame l w f2)) as S3.
    destruct (weight_line l w f2) as [w' f3]. cbn [snd] in S3. apply IH in E.
    exact (same_trans _ _ _ S1 (same_trans _ _ _ S2 (same_trans _ _ _ S3 E))).
  Qed.
  (** The weight after the loop. *)
  Lemma ascii_weight_done : forall ls i f f', ascii_lines strtod ls i true f = Ok f' -> f_weight f' = f_weight f.
  Proof.
    induction ls as [|l ls IH]; intros i f f' E; [inversion E; reflexivity|]. rewrite ascii_step in E.
    destruct (matrix_line strtod l f) as [f1|x|x] eqn:M; cbn [obind] in E; try discriminate.
    destruct (matrix_line_frame l f f1 M) as (_ & _ & S1 & _). destruct (italic_line_frame l i f1) as (_ & S2 & _).
    destruct (italic_line l i f1) as [i' f2]. cbn [snd] in S2. rewrite weight_found_stays in E. cbn iota in E. apply IH in E. congruence.
  Qed.
  Lemma ascii_weight : forall ls1 l ls2 w i f f', (forall x, In x ls1 -> ~ has_weight x) -> weight_entry l w ->
    ascii_lines strtod (ls1 ++ l :: ls2) i false f = Ok f' -> f_weight f' = named_weight w (f_weight f).
  Proof.
    induction ls1 as [|x ls1 IH]; intros l ls2 w i f f' N W E; cbn [app] in E; rewrite ascii_step in E.
    - destruct (matrix_line strtod l f) as [f1|y|y] eqn:M; cbn [obind] in E; try discriminate.
      destruct (matrix_line_frame l f f1 M) as (_ & _ & S1 & _). destruct (italic_line_frame l i f1) as (_ & S2 & _).
      destruct (italic_line l i f1) as [i' f2]. cbn [snd] in S2. rewrite (weight_line_found l f2 w W) in E. cbn iota in E.
      apply ascii_weight_done in E. rewrite E. unfold named_weight. rewrite <- S1, <- S2.
      destruct (str_eqb w (S_ "Regular")); [reflexivity|]. destruct (str_eqb w (S_ "Medium")); [reflexivity|]. destruct (str_eqb w (S_ "Bold")); reflexivity.
    - destruct (matrix_line strtod x f) as [f1|y|y] eqn:M; cbn [obind] in E; try discriminate.
      destruct (matrix_line_frame x f f1 M) as (_ & _ & S1 & _). destruct (italic_line_frame x i f1) as (_ & S2 & _).
      destruct (italic_line x i f1) as [i' f2]. cbn [snd] in S2. rewrite (weight_line_none x f2 (N x (or_introl eq_refl))) in E. cbn iota in E.
      rewrite (IH l ls2 w i' f2 f' ltac:(intros; apply N; now right) W E). congruence.
  Qed.
  Lemma ascii_no_weight : forall ls i f f', (forall x, In x ls -> ~ has_weight x) -> ascii_lines strtod ls i false f = Ok f' -> f_weight f' = f_weight f.
  Proof.
    induction ls as [|x ls IH]; intros i f f' N E; [inversion E; reflexivity|]. rewrite ascii_step in E.
    destruct (matrix_line strtod x f) as [f1|y|y] eqn:M; cbn [obind] in E; try discriminate.
    destruct (matrix_line_frame x f f1 M) as (_ & _ & S1 & _). destruct (italic_line_frame x i f1) as (_ & S2 & _).
    destruct (italic_line x i f1) as [i' f2]. cbn [snd] in S2. rewrite (weight_line_none x f2 (N x (or_introl eq_refl))) in E. cbn iota in E.
    rewrite (IH i' f2 f' ltac:(intros; apply N; now right) E). congruence.
  Qed.
  (** The slope after the loop. *)
  Lemma italic_line_angle line f : angle_line line ->
    italic_line line false f = (true, set_italic (f_italic f || negb (str_eqb line (S_ "/ItalicAngle 0 def"))) f).
  Proof. intros [r E]. unfold italic_line. apply starts_with_spec in E. rewrite E. reflexivity. Qed.
  Lemma italic_line_none line f : ~ angle_line line -> italic_line line false f = (false, f).
  Proof.
    intro N. unfold italic_line. destruct (starts_with (S_ "/ItalicAngle") line) as [r|] eqn:E; [|reflexivity].
    apply starts_with_spec in E. exfalso. apply N. now exists r.
  Qed.
  Lemma ascii_italic_done : forall ls w f f', ascii_lines strtod ls true w f = Ok f' -> f_italic f' = f_italic f.
  Proof.
    induction ls as [|l ls IH]; intros w f f' E; [inversion E; reflexivity|]. rewrite ascii_step in E.
    destruct (matrix_line strtod l f) as [f1|x|x] eqn:M; cbn [obind] in E; try discriminate.
    destruct (matrix_line_frame l f f1 M) as (_ & S1 & _). cbn [italic_line] in E. destruct (weight_line_frame l w f1) as (_ & S3 & _).
    destruct (weight_line l w f1) as [w' f3]. cbn [snd] in S3. apply IH in E. congruence.
  Qed.
  Lemma ascii_italic : forall ls1 l ls2 w f f', (forall x, In x ls1 -> ~ angle_line x) -> angle_line l ->
    ascii_lines strtod (ls1 ++ l :: ls2) false w f = Ok f' -> f_italic f' = f_italic f || negb (str_eqb l (S_ "/ItalicAngle 0 def")).
  Proof.
    induction ls1 as [|x ls1 IH]; intros l ls2 w f f' N W E; cbn [app] in E; rewrite ascii_step in E.
    - destruct (matrix_line strtod l f) as [f1|y|y] eqn:M; cbn [obind] in E; try discriminate.
      destruct (matrix_line_frame l f f1 M) as (_ & S1 & _). rewrite (italic_line_angle l f1 W) in E. cbn iota in E.
      set (f2 := set_italic _ f1) in E. destruct (weight_line_frame l w f2) as (_ & S3 & _).
      destruct (weight_line l w f2) as [w' f3]. cbn [snd] in S3. apply ascii_italic_done in E. rewrite E, S3. unfold f2. cbn [set_italic f_italic]. now rewrite S1.
    - destruct (matrix_line strtod x f) as [f1|y|y] eqn:M; cbn [obind] in E; try discriminate.
      destruct (matrix_line_frame x f f1 M) as (_ & S1 & _). rewrite (italic_line_none x f1 (N x (or_introl eq_refl))) in E. cbn iota in E.
      destruct (weight_line_frame x w f1) as (_ & S3 & _). destruct (weight_line x w f1) as [w' f3]. cbn [snd] in S3.
      rewrite (IH l ls2 w' f3 f' ltac:(intros; apply N; now right) W E). congruence.
  Qed.
  Lemma ascii_no_italic : forall ls w f f', (forall x, In x ls -> ~ angle_line x) -> ascii_lines strtod ls false w f = Ok f' -> f_italic f' = f_italic f.
  Proof.
    induction ls as [|x ls IH]; intros w f f' N E; [inversion E; reflexivity|]. rewrite ascii_step in E.
    destruct (matrix_line strtod x f) as [f1|y|y] eqn:M; cbn [obind] in E; try discriminate.
    destruct (matrix_line_frame x f f1 M) as (_ & S1 & _). rewrite (italic_line_none x f1 (N x (or_introl eq_refl))) in E. cbn iota in E.
    destruct (weight_line_frame x w f1) as (_ & S3 & _). destruct (weight_line x w f1) as [w' f3]. cbn [snd] in S3.
    rewrite (IH w' f3 f' ltac:(intros; apply N; now right) E). congruence.
  Qed.
  (** The matrix after the loop. *)
  Lemma stored_matrix_length ds m : (length ds <= 6)%nat -> length m = 6%nat -> length (stored_matrix ds m) = 6%nat.
  Proof. intros L M. unfold stored_matrix. rewrite app_length, skipn_length. lia. Qed.
  Lemma italic_matrix l i f : f_matrix (snd (italic_line l i f)) = f_matrix f.
  Proof. apply italic_line_frame. Qed.
  Lemma weight_matrix l i f : f_matrix (snd (weight_line l i f)) = f_matrix f.
  Proof. apply weight_line_frame. Qed.
  Lemma ascii_matrix : forall ls m m', matrix_lines strtod ls m m' -> forall i w f, f_matrix f = m -> length m = 6%nat ->
    forall rest, exists i' w' f', f_matrix f' = m' /\ length m' = 6%nat /\ ascii_lines strtod (ls ++ rest) i w f = ascii_lines strtod rest i' w' f'.
  Proof.
    induction 1 as [m|l ls m m' A ML IH|l ls ts ds m m' ME FD L ML IH]; intros i w f EM LM rest.
    - exists i, w, f. repeat split; assumption.
    - cbn [app]. pose proof (italic_matrix l i f) as S2. destruct (italic_line l i f) as [i' f2] eqn:EI. cbn [snd] in S2.
      pose proof (weight_matrix l w f2) as S3. destruct (weight_line l w f2) as [w' f3] eqn:EW. cbn [snd] in S3.
      destruct (IH i' w' f3 ltac:(congruence) LM rest) as (i2 & w2 & f' & E1 & E2 & E3). exists i2, w2, f'. split; [exact E1|]. split; [exact E2|].
      rewrite <- E3, ascii_step, matrix_line_absent by exact A. cbn [obind]. rewrite EI, EW. reflexivity.
    - cbn [app]. set (f1 := set_matrix (stored_matrix ds m) f).
      pose proof (italic_matrix l i f1) as S2. destruct (italic_line l i f1) as [i' f2] eqn:EI. cbn [snd] in S2.
      pose proof (weight_matrix l w f2) as S3. destruct (weight_line l w f2) as [w' f3] eqn:EW. cbn [snd] in S3.
      assert (EM3 : f_matrix f3 = stored_matrix ds m) by (rewrite S3, S2; reflexivity).
      destruct (IH i' w' f3 EM3 (stored_matrix_length ds m L LM) rest) as (i2 & w2 & f' & E1 & E2 & E3). exists i2, w2, f'. split; [exact E1|]. split; [exact E2|].
      rewrite <- E3, ascii_step, (matrix_line_spec l ts ds f ME FD) by congruence. rewrite (proj2 (Nat.leb_le _ _) L). cbn [obind].
      fold (stored_matrix ds (f_matrix f)). rewrite EM. fold f1. rewrite EI, EW. reflexivity.
  Qed.
End Matrix.
