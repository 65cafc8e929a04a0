(** LoggingProofs.v - proofs about log messages. *)
From Coq Require Import ZArith NArith Lia.
From Verif Require Import Base Document Serialization Cli Logging LoggingSpec.
Local Open Scope list_scope.

Fixpoint upto (n : nat) : list N := match n with 0 => [] | S k => upto k ++ [N.of_nat k] end.
Lemma upto_in n k : k < n -> In (N.of_nat k) (upto n).
Proof.
  induction n as [|n IH]; intros H; [lia|]. cbn [upto]. apply in_or_app. destruct (Nat.eq_dec k n) as [->|]; [right; left; reflexivity|left; apply IH; lia].
Qed.
Lemma upto_inN (n : nat) (x : N) : (x < N.of_nat n)%N -> In x (upto n).
Proof. intros H. rewrite <- (N2Nat.id x). apply upto_in. lia. Qed.

(** Fixed-width fields, digit by digit. *)
Fixpoint fixed (w : nat) (n : N) : str :=
  match w with 0 => [] | S w => digit (n / 10 ^ N.of_nat w) :: fixed w (n mod 10 ^ N.of_nat w) end.
Definition sameb (a b : str) : bool := if list_eq_dec ascii_dec a b then true else false.
Lemma zero_filled_fixed w n : (w = 2 \/ w = 3 \/ w = 4) -> (n < 10 ^ N.of_nat w)%N -> zero_filled w n = fixed w n.
Proof.
  intros W L.
  assert (K : forallb (fun n => sameb (zero_filled w n) (fixed w n)) (upto (Nat.pow 10 w)) = true).
  { destruct W as [ -> | [ -> | -> ] ]; vm_compute; reflexivity. }
  rewrite forallb_forall in K. specialize (K n).
  assert (I : In n (upto (Nat.pow 10 w))).
  { apply upto_inN. replace (N.of_nat (Nat.pow 10 w)) with (10 ^ N.of_nat w)%N; [exact L|]. destruct W as [ -> | [ -> | -> ] ]; vm_compute; reflexivity. }
  specialize (K I). unfold sameb in K. destruct (list_eq_dec ascii_dec _ _) as [E|]; [exact E|discriminate].
Qed.

(** Comparison of texts *)
Fixpoint scmp (a b : str) : comparison :=
  match a, b with
  | [], [] => Eq | [], _ :: _ => Lt | _ :: _, [] => Gt
  | x :: s, y :: t => match Nat.compare (nat_of_ascii x) (nat_of_ascii y) with Eq => scmp s t | c => c end
  end.
Lemma scmp_lt a : forall b, scmp a b = Lt <-> text_lt a b.
Proof.
  induction a as [|x a IH]; intros [|y b]; cbn [scmp].
  - split; [discriminate|]. intros (p & [(c & t & E1 & E2)|(u & v & s & t & E1 & E2 & _)]); exfalso.
    + symmetry in E2. apply app_eq_nil in E2 as [_ E2]. discriminate.
    + symmetry in E2. apply app_eq_nil in E2 as [_ E2]. discriminate.
  - split; [intros _|reflexivity]. exists []. left. exists y, b. split; reflexivity.
  - split; [discriminate|]. intros (p & [(c & t & E1 & E2)|(u & v & s & t & E1 & E2 & _)]); exfalso.
    + symmetry in E2. apply app_eq_nil in E2 as [_ E2]. discriminate.
    + symmetry in E2. apply app_eq_nil in E2 as [_ E2]. discriminate.
  - destruct (Nat.compare_spec (nat_of_ascii x) (nat_of_ascii y)) as [E|L|G].
    + assert (x = y) by (apply (f_equal ascii_of_nat) in E; rewrite !ascii_nat_embedding in E; exact E). subst y. rewrite IH. split.
      * intros (p & [(c & t & -> & ->)|(u & v & s & t & -> & -> & L)]).
        -- exists (x :: p). left. exists c, t. split; reflexivity.
        -- exists (x :: p). right. exists u, v, s, t. repeat split. exact L.
      * intros (p & [(c & t & E1 & E2)|(u & v & s & t & E1 & E2 & L)]).
        -- subst p. cbn [app] in E2. injection E2 as ->. exists a. left. exists c, t. split; reflexivity.
        -- destruct p as [|z p]; cbn [app] in E1, E2.
           ++ injection E1 as -> _. injection E2 as -> _. lia.
           ++ injection E1 as -> ->. injection E2 as ->. exists p. right. exists u, v, s, t. repeat split. exact L.
    + split; [intros _|reflexivity]. exists []. right. exists x, y, a, b. repeat split. exact L.
    + split; [discriminate|]. intros (p & [(c & t & E1 & E2)|(u & v & s & t & E1 & E2 & L)]); exfalso.
      * subst p. cbn [app] in E2. injection E2 as -> _. lia.
      * destruct p as [|z p]; cbn [app] in E1, E2.
        -- injection E1 as -> _. injection E2 as -> _. lia.
        -- injection E1 as -> _. injection E2 as -> _. lia.
Qed.
Lemma scmp_refl a : scmp a a = Eq. Proof. induction a as [|x a IH]; cbn [scmp]; [reflexivity|]. rewrite Nat.compare_refl. exact IH. Qed.
Lemma scmp_app a : forall b s t, length a = length b -> scmp (a ++ s) (b ++ t) = match scmp a b with Eq => scmp s t | c => c end.
Proof.
  induction a as [|x a IH]; intros [|y b] s t L; try discriminate L; cbn [app scmp]; [reflexivity|].
  destruct (Nat.compare _ _); [apply IH; cbn [length] in L; lia|reflexivity|reflexivity].
Qed.

Lemma fixed_length w : forall n, length (fixed w n) = w.
Proof. induction w as [|w IH]; intros n; cbn [fixed length]; [reflexivity|]. f_equal. apply IH. Qed.
Lemma digit_code d : (d < 10)%N -> nat_of_ascii (digit d) = 48 + N.to_nat d.
Proof.
  intros H. unfold digit. unfold nat_of_ascii. rewrite N_ascii_embedding by lia. lia.
Qed.
Lemma fixed_cmp w : forall a b, (a < 10 ^ N.of_nat w)%N -> (b < 10 ^ N.of_nat w)%N -> scmp (fixed w a) (fixed w b) = N.compare a b.
Proof.
  induction w as [|w IH]; intros a b A B.
  - cbn in A, B. assert (a = 0 /\ b = 0)%N as [-> ->] by lia. reflexivity.
  - cbn [fixed scmp]. rewrite Nat2N.inj_succ, N.pow_succ_r' in A, B. set (p := (10 ^ N.of_nat w)%N) in *.
    assert (P : (p <> 0)%N) by (apply N.pow_nonzero; lia). clearbody p.
    assert (QA : (a / p < 10)%N) by (apply N.div_lt_upper_bound; lia). assert (QB : (b / p < 10)%N) by (apply N.div_lt_upper_bound; lia).
    pose proof (N.div_mod a p P) as EA. pose proof (N.div_mod b p P) as EB.
    pose proof (N.mod_lt a p P) as RA. pose proof (N.mod_lt b p P) as RB.
    rewrite !digit_code by assumption. specialize (IH (a mod p)%N (b mod p)%N RA RB).
    set (qa := (a / p)%N) in *. set (qb := (b / p)%N) in *. set (ra := (a mod p)%N) in *. set (rb := (b mod p)%N) in *. clearbody qa qb ra rb.
    destruct (Nat.compare_spec (48 + N.to_nat qa) (48 + N.to_nat qb)) as [E|L|G].
    + assert (qa = qb) by lia. subst qb. rewrite IH. destruct (N.compare_spec ra rb); symmetry.
      * apply N.compare_eq_iff. lia. * apply N.compare_lt_iff. lia. * apply N.compare_gt_iff. lia.
    + symmetry. apply N.compare_lt_iff. nia.
    + symmetry. apply N.compare_gt_iff. nia.
Qed.
Lemma fixed_value w : forall n acc, (n < 10 ^ N.of_nat w)%N ->
  fold_left (fun a c => 10 * a + (N_of_ascii c - 48))%N (fixed w n) acc = (acc * 10 ^ N.of_nat w + n)%N.
Proof.
  induction w as [|w IH]; intros n acc A.
  - cbn in *. lia.
  - cbn [fixed fold_left]. rewrite Nat2N.inj_succ, N.pow_succ_r' in *. set (p := (10 ^ N.of_nat w)%N) in *.
    assert (P : (p <> 0)%N) by (apply N.pow_nonzero; lia). clearbody p.
    assert (QA : (n / p < 10)%N) by (apply N.div_lt_upper_bound; lia).
    pose proof (N.div_mod n p P) as EA. pose proof (N.mod_lt n p P) as RA.
    rewrite IH by assumption. unfold digit. rewrite N_ascii_embedding by (clear - QA; lia).
    set (q := (n / p)%N) in *. set (r := (n mod p)%N) in *. clearbody q r. nia.
Qed.
Lemma fixed_digits w : forall n, (n < 10 ^ N.of_nat w)%N -> Forall (fun c => 48 <= nat_of_ascii c <= 57) (fixed w n).
Proof.
  induction w as [|w IH]; intros n A; cbn [fixed]; [constructor|].
  rewrite Nat2N.inj_succ, N.pow_succ_r' in A. set (p := (10 ^ N.of_nat w)%N) in *.
  assert (P : (p <> 0)%N) by (apply N.pow_nonzero; lia).
  assert (QA : (n / p < 10)%N) by (apply N.div_lt_upper_bound; lia).
  constructor; [rewrite digit_code by assumption; set (q := (n / p)%N) in *; clearbody q; lia|]. apply IH, N.mod_lt, P.
Qed.

(** The timestamp, with fixed fields *)
Definition stamp_of (t : moment) : str :=
  fixed 4 (mo_year t) ++ S_ "-" ++ fixed 2 (mo_month t) ++ S_ "-" ++ fixed 2 (mo_day t) ++ S_ " " ++
  fixed 2 (mo_hour t) ++ S_ ":" ++ fixed 2 (mo_min t) ++ S_ ":" ++ fixed 2 (mo_sec t) ++ S_ "." ++ fixed 3 (mo_ms t).
Lemma proper_bounds t : proper t -> (mo_year t < 10 ^ N.of_nat 4 /\ mo_month t < 10 ^ N.of_nat 2 /\ mo_day t < 10 ^ N.of_nat 2 /\
  mo_hour t < 10 ^ N.of_nat 2 /\ mo_min t < 10 ^ N.of_nat 2 /\ mo_sec t < 10 ^ N.of_nat 2 /\ mo_ms t < 10 ^ N.of_nat 3)%N.
Proof.
  unfold proper. intros H. change (10 ^ N.of_nat 4)%N with 10000%N. change (10 ^ N.of_nat 2)%N with 100%N.
  change (10 ^ N.of_nat 3)%N with 1000%N. lia.
Qed.
Lemma stamp_fixed t : proper t -> getTimeStamp t = stamp_of t.
Proof.
  intros P. apply proper_bounds in P as (B1 & B2 & B3 & B4 & B5 & B6 & B7). unfold getTimeStamp, stamp_of.
  rewrite !zero_filled_fixed by (assumption || tauto). reflexivity.
Qed.
Lemma number_fixed s i w n pre post : (n < 10 ^ N.of_nat w)%N -> length pre = i -> s = pre ++ fixed w n ++ post -> number_at s i w n.
Proof.
  intros B <- ->. unfold number_at. rewrite skipn_app, skipn_all, Nat.sub_diag. cbn [skipn app].
  rewrite firstn_app, fixed_length, Nat.sub_diag. cbn [firstn]. rewrite app_nil_r.
  rewrite (firstn_all2 (fixed w n)) by (rewrite fixed_length; lia). split; [apply fixed_length|]. split; [apply fixed_digits, B|].
  rewrite fixed_value by exact B. lia.
Qed.
Lemma stamp_ok t : proper t -> stamp t (getTimeStamp t).
Proof.
  intros P. rewrite stamp_fixed by exact P. apply proper_bounds in P as (B1 & B2 & B3 & B4 & B5 & B6 & B7). unfold stamp.
  unfold stamp_of.
  pose proof (fixed_length 4 (mo_year t)) as L1. pose proof (fixed_length 2 (mo_month t)) as L2. pose proof (fixed_length 2 (mo_day t)) as L3.
  pose proof (fixed_length 2 (mo_hour t)) as L4. pose proof (fixed_length 2 (mo_min t)) as L5. pose proof (fixed_length 2 (mo_sec t)) as L6.
  pose proof (fixed_length 3 (mo_ms t)) as L7.
  split; [rewrite !app_length, L1, L2, L3, L4, L5, L6, L7; reflexivity|].
  assert (BY : forall pre c post i, length pre = i -> byte_at (pre ++ c :: post) i c).
  { intros pre c post i <-. unfold byte_at. rewrite nth_error_app2 by lia. rewrite Nat.sub_diag. reflexivity. }
  set (f1 := fixed 4 (mo_year t)) in *. set (f2 := fixed 2 (mo_month t)) in *. set (f3 := fixed 2 (mo_day t)) in *.
  set (f4 := fixed 2 (mo_hour t)) in *. set (f5 := fixed 2 (mo_min t)) in *. set (f6 := fixed 2 (mo_sec t)) in *. set (f7 := fixed 3 (mo_ms t)) in *.
  change (S_ "-") with ["-"%char]. change (S_ " ") with [" "%char]. change (S_ ":") with [":"%char]. change (S_ ".") with ["."%char].
  split; [apply (number_fixed _ 0 4 _ [] (["-"%char] ++ f2 ++ ["-"%char] ++ f3 ++ [" "%char] ++ f4 ++ [":"%char] ++ f5 ++ [":"%char] ++ f6 ++ ["."%char] ++ f7)); [exact B1|reflexivity|reflexivity]|].
  split; [apply (BY f1); exact L1|].
  split; [eapply (number_fixed _ 5 2 _ (f1 ++ ["-"%char])); [exact B2|rewrite !app_length, L1; reflexivity|rewrite <- !app_assoc; reflexivity]|].
  split; [match goal with |- byte_at ?s _ _ => replace s with ((f1 ++ ["-"%char] ++ f2) ++ "-"%char :: f3 ++ [" "%char] ++ f4 ++ [":"%char] ++ f5 ++ [":"%char] ++ f6 ++ ["."%char] ++ f7) by (rewrite <- !app_assoc; reflexivity) end; apply BY; rewrite !app_length, L1, L2; reflexivity|].
  split; [eapply (number_fixed _ 8 2 _ (f1 ++ ["-"%char] ++ f2 ++ ["-"%char])); [exact B3|rewrite !app_length, L1, L2; reflexivity|rewrite <- !app_assoc; reflexivity]|].
  split; [match goal with |- byte_at ?s _ _ => replace s with ((f1 ++ ["-"%char] ++ f2 ++ ["-"%char] ++ f3) ++ " "%char :: f4 ++ [":"%char] ++ f5 ++ [":"%char] ++ f6 ++ ["."%char] ++ f7) by (rewrite <- !app_assoc; reflexivity) end; apply BY; rewrite !app_length, L1, L2, L3; reflexivity|].
  split; [eapply (number_fixed _ 11 2 _ (f1 ++ ["-"%char] ++ f2 ++ ["-"%char] ++ f3 ++ [" "%char])); [exact B4|rewrite !app_length, L1, L2, L3; reflexivity|rewrite <- !app_assoc; reflexivity]|].
  split; [match goal with |- byte_at ?s _ _ => replace s with ((f1 ++ ["-"%char] ++ f2 ++ ["-"%char] ++ f3 ++ [" "%char] ++ f4) ++ ":"%char :: f5 ++ [":"%char] ++ f6 ++ ["."%char] ++ f7) by (rewrite <- !app_assoc; reflexivity) end; apply BY; rewrite !app_length, L1, L2, L3, L4; reflexivity|].
  split; [eapply (number_fixed _ 14 2 _ (f1 ++ ["-"%char] ++ f2 ++ ["-"%char] ++ f3 ++ [" "%char] ++ f4 ++ [":"%char])); [exact B5|rewrite !app_length, L1, L2, L3, L4; reflexivity|rewrite <- !app_assoc; reflexivity]|].
  split; [match goal with |- byte_at ?s _ _ => replace s with ((f1 ++ ["-"%char] ++ f2 ++ ["-"%char] ++ f3 ++ [" "%char] ++ f4 ++ [":"%char] ++ f5) ++ ":"%char :: f6 ++ ["."%char] ++ f7) by (rewrite <- !app_assoc; reflexivity) end; apply BY; rewrite !app_length, L1, L2, L3, L4, L5; reflexivity|].
  split; [eapply (number_fixed _ 17 2 _ (f1 ++ ["-"%char] ++ f2 ++ ["-"%char] ++ f3 ++ [" "%char] ++ f4 ++ [":"%char] ++ f5 ++ [":"%char])); [exact B6|rewrite !app_length, L1, L2, L3, L4, L5; reflexivity|rewrite <- !app_assoc; reflexivity]|].
  split; [match goal with |- byte_at ?s _ _ => replace s with ((f1 ++ ["-"%char] ++ f2 ++ ["-"%char] ++ f3 ++ [" "%char] ++ f4 ++ [":"%char] ++ f5 ++ [":"%char] ++ f6) ++ "."%char :: f7) by (rewrite <- !app_assoc; reflexivity) end; apply BY; rewrite !app_length, L1, L2, L3, L4, L5, L6; reflexivity|].
  apply (number_fixed _ 20 3 _ (f1 ++ ["-"%char] ++ f2 ++ ["-"%char] ++ f3 ++ [" "%char] ++ f4 ++ [":"%char] ++ f5 ++ [":"%char] ++ f6 ++ ["."%char]) []).
  - exact B7. - rewrite !app_length, L1, L2, L3, L4, L5, L6. reflexivity. - rewrite app_nil_r, <- !app_assoc. reflexivity.
Qed.

(** Order *)
Fixpoint lcmp (a b : list N) : comparison :=
  match a, b with x :: s, y :: t => match N.compare x y with Eq => lcmp s t | c => c end | _, _ => Eq end.
Lemma lcmp_lt a : forall b, length a = length b ->
  (lcmp a b = Lt <-> exists k, k < length a /\ firstn k a = firstn k b /\ (nth k a 0 < nth k b 0)%N).
Proof.
  induction a as [|x a IH]; intros [|y b] L; try discriminate L; cbn [lcmp].
  - split; [discriminate|]. intros (k & K & _). cbn in K. lia.
  - cbn [length] in L. destruct (N.compare_spec x y) as [->|LT|GT].
    + rewrite IH by lia. split.
      * intros (k & K & E & H). exists (S k). cbn [length firstn nth]. split; [lia|]. split; [f_equal; exact E|exact H].
      * intros ([|k] & K & E & H); cbn [length firstn nth] in *; [lia|]. injection E as E. exists k. split; [lia|]. split; assumption.
    + split; [intros _|reflexivity]. exists 0. cbn [length firstn nth]. split; [lia|]. split; [reflexivity|exact LT].
    + split; [discriminate|]. intros ([|k] & K & E & H); cbn [length firstn nth] in *; [lia|]. injection E as E _. lia.
Qed.
Lemma scmp_fixed_app w a b s t : (a < 10 ^ N.of_nat w)%N -> (b < 10 ^ N.of_nat w)%N ->
  scmp (fixed w a ++ s) (fixed w b ++ t) = match N.compare a b with Eq => scmp s t | c => c end.
Proof. intros A B. rewrite scmp_app by (rewrite !fixed_length; reflexivity). rewrite fixed_cmp by assumption. reflexivity. Qed.
Lemma scmp_cons c s t : scmp ([c] ++ s) ([c] ++ t) = scmp s t.
Proof. cbn [app scmp]. rewrite Nat.compare_refl. reflexivity. Qed.
Lemma stamp_cmp a b : proper a -> proper b -> forall s t,
  scmp (getTimeStamp a ++ s) (getTimeStamp b ++ t) = match lcmp (parts a) (parts b) with Eq => scmp s t | c => c end.
Proof.
  intros PA PB s t. rewrite !stamp_fixed by assumption. apply proper_bounds in PA as (A1 & A2 & A3 & A4 & A5 & A6 & A7).
  apply proper_bounds in PB as (B1 & B2 & B3 & B4 & B5 & B6 & B7). unfold stamp_of, parts. rewrite <- !app_assoc.
  change (S_ "-") with ["-"%char]. change (S_ " ") with [" "%char]. change (S_ ":") with [":"%char]. change (S_ ".") with ["."%char].
  cbn [lcmp].
  rewrite scmp_fixed_app by assumption. destruct (N.compare (mo_year a) (mo_year b)); try reflexivity. rewrite scmp_cons.
  rewrite scmp_fixed_app by assumption. destruct (N.compare (mo_month a) (mo_month b)); try reflexivity. rewrite scmp_cons.
  rewrite scmp_fixed_app by assumption. destruct (N.compare (mo_day a) (mo_day b)); try reflexivity. rewrite scmp_cons.
  rewrite scmp_fixed_app by assumption. destruct (N.compare (mo_hour a) (mo_hour b)); try reflexivity. rewrite scmp_cons.
  rewrite scmp_fixed_app by assumption. destruct (N.compare (mo_min a) (mo_min b)); try reflexivity. rewrite scmp_cons.
  rewrite scmp_fixed_app by assumption. destruct (N.compare (mo_sec a) (mo_sec b)); try reflexivity. rewrite scmp_cons.
  rewrite scmp_fixed_app by assumption. destruct (N.compare (mo_ms a) (mo_ms b)); reflexivity.
Qed.

(** Messages *)
Definition the_message (level : nat) (t : moment) (text : str) : str := createLogMessagePrefix t level ++ text.
Lemma message_ok level t text : level < 5 -> proper t -> message level t text (the_message level t text).
Proof.
  intros L P. exists (getTimeStamp t). split; [apply stamp_ok, P|]. unfold the_message, createLogMessagePrefix. rewrite <- !app_assoc. f_equal.
  destruct level as [|[|[|[|[|n]]]]]; [reflexivity..|lia].
Qed.
Lemma number_inj s i w n m : number_at s i w n -> number_at s i w m -> n = m.
Proof. intros (_ & _ & <-) (_ & _ & <-). reflexivity. Qed.
Lemma stamp_inj t t' s : stamp t s -> stamp t' s -> t = t'.
Proof.
  intros (_ & A1 & _ & A2 & _ & A3 & _ & A4 & _ & A5 & _ & A6 & _ & A7) (_ & B1 & _ & B2 & _ & B3 & _ & B4 & _ & B5 & _ & B6 & _ & B7).
  destruct t as [y mo d h mi s0 ms], t' as [y' mo' d' h' mi' s0' ms']. cbn [mo_year mo_month mo_day mo_hour mo_min mo_sec mo_ms] in *.
  f_equal; eapply number_inj; eassumption.
Qed.
Lemma app_split {A} (a b s t : list A) : length a = length b -> a ++ s = b ++ t -> a = b /\ s = t.
Proof.
  revert b. induction a as [|x a IH]; intros [|y b] L E; try discriminate L; cbn [app] in E; [split; [reflexivity|exact E]|].
  injection E as -> E. cbn [length] in L. destruct (IH b ltac:(lia) E) as [-> ->]. split; reflexivity.
Qed.
Lemma message_inj l t x l' t' x' s : l < 5 -> l' < 5 -> message l t x s -> message l' t' x' s -> l = l' /\ t = t' /\ x = x'.
Proof.
  intros L L' (st & S1 & ->) (st' & S2 & E). apply app_split in E as [-> E].
  - pose proof (stamp_inj _ _ _ S1 S2) as ->.
    destruct l as [|[|[|[|[|?]]]]]; [..|lia]; (destruct l' as [|[|[|[|[|?]]]]]; [..|lia]); cbn in E; first [discriminate E|injection E as E; repeat split; exact E].
  - destruct S1 as (-> & _), S2 as (-> & _). reflexivity.
Qed.
Lemma shown_dec own filter c : {shown own filter c} + {~ shown own filter c}.
Proof.
  unfold shown. destruct (le_dec own (lc_level c)), (Z_le_dec filter 0), (Z_le_dec (lc_page c) 0), (Z.eq_dec (lc_page c) filter);
    first [left; tauto|right; tauto].
Qed.
Lemma log_one_shown own filter c : getostream own filter (lc_level c) (lc_page c) = Cout <-> shown own filter c.
Proof.
  unfold getostream, shown. destruct (Nat.ltb_spec (lc_level c) own) as [H|H]; [split; [discriminate|lia]|].
  destruct ((0 <? filter)%Z && (0 <? lc_page c)%Z && negb (filter =? lc_page c)%Z) eqn:E.
  - split; [discriminate|]. apply andb_true_iff in E as [E E3]. apply andb_true_iff in E as [E1 E2].
    apply negb_true_iff, Z.eqb_neq in E3. apply Z.ltb_lt in E1, E2. lia.
  - split; [intros _|reflexivity]. split; [exact H|]. apply andb_false_iff in E as [E|E]; [apply andb_false_iff in E as [E|E]|].
    + apply Z.ltb_ge in E. lia. + apply Z.ltb_ge in E. lia. + apply negb_false_iff, Z.eqb_eq in E. lia.
Qed.
Lemma logged_ok own filter cs : Forall (fun c => lc_level c < 5 /\ proper (lc_time c)) cs -> logged own filter cs (log_all own filter cs).
Proof.
  induction 1 as [|c cs [L P] F IH]; [constructor|]. unfold log_all. cbn [flat_map]. unfold log_one at 1.
  destruct (getostream own filter (lc_level c) (lc_page c)) eqn:G.
  - cbn [app]. apply LgHidden; [rewrite <- log_one_shown; congruence|exact IH].
  - apply LgShown; [apply log_one_shown, G|apply (message_ok (lc_level c) (lc_time c) (lc_text c)); assumption|exact IH].
Qed.
