(** PropsLogging.v - C90: log messages. *)
From Coq Require Import ZArith NArith Lia.
From Verif Require Import Base Document Serialization Cli Logging LoggingSpec LoggingProofs.
Local Open Scope list_scope.

(** ** C90 Log messages *)
(** What a run logs: exactly the messages of the calls that pass level and filter, each labelled with its time and level. *)
Theorem C90_logged : forall own filter calls, Forall (fun c => lc_level c < 5 /\ proper (lc_time c)) calls ->
  logged own filter calls (log_all own filter calls).
Proof. exact logged_ok. Qed.
Print Assumptions C90_logged.

(** A message tells its level, its time and its text apart. *)
Theorem C90_unambiguous : forall l t x l' t' x', l < 5 -> l' < 5 -> proper t -> proper t' ->
  createLogMessagePrefix t l ++ x = createLogMessagePrefix t' l' ++ x' -> l = l' /\ t = t' /\ x = x'.
Proof.
  intros l t x l' t' x' L L' P P' E. pose proof (message_ok l t x L P) as M. pose proof (message_ok l' t' x' L' P') as M'.
  unfold the_message in M, M'. rewrite <- E in M'. exact (message_inj _ _ _ _ _ _ _ L L' M M').
Qed.
Print Assumptions C90_unambiguous.

(** The texts of all messages start in the same column. *)
Theorem C90_column : forall l t x, l < 5 -> proper t -> length (createLogMessagePrefix t l) = 46 /\ skipn 46 (createLogMessagePrefix t l ++ x) = x.
Proof.
  intros l t x L P. assert (LN : length (createLogMessagePrefix t l) = 46).
  { unfold createLogMessagePrefix. rewrite !app_length. destruct (stamp_ok t P) as (-> & _). destruct l as [|[|[|[|[|n]]]]]; [reflexivity..|lia]. }
  split; [exact LN|]. rewrite skipn_app, skipn_all2 by lia. rewrite LN. reflexivity.
Qed.
Print Assumptions C90_column.

(** Sorting the messages as texts sorts them by time. *)
Theorem C90_order : forall l t x l' t' x', proper t -> proper t' -> earlier t t' ->
  text_lt (createLogMessagePrefix t l ++ x) (createLogMessagePrefix t' l' ++ x').
Proof.
  intros l t x l' t' x' P P' E. apply scmp_lt. unfold createLogMessagePrefix. rewrite <- !app_assoc. rewrite stamp_cmp by assumption.
  replace (lcmp (parts t) (parts t')) with Lt; [reflexivity|]. symmetry. apply lcmp_lt; [reflexivity|]. exact E.
Qed.
Print Assumptions C90_order.
Theorem C90_timestamps : forall t t', proper t -> proper t' -> (earlier t t' <-> text_lt (getTimeStamp t) (getTimeStamp t')).
Proof.
  intros t t' P P'. rewrite <- scmp_lt. pose proof (stamp_cmp t t' P P' [] []) as C. rewrite !app_nil_r in C. rewrite C. cbn [scmp].
  transitivity (lcmp (parts t) (parts t') = Lt); [symmetry; apply lcmp_lt; reflexivity|].
  destruct (lcmp _ _); split; congruence.
Qed.
Print Assumptions C90_timestamps.
(** Without the bound on the year that is false: the year 10000 sorts before the year 9999. *)
Definition y2k : moment := mkMoment 9999 12 31 23 59 59 999.
Definition y10k : moment := mkMoment 10000 1 1 0 0 0 0.
Theorem C90_order_refuted : earlier y2k y10k /\ text_lt (getTimeStamp y10k) (getTimeStamp y2k).
Proof.
  split.
  - exists 0. split; [lia|]. split; reflexivity.
  - apply scmp_lt. vm_compute. reflexivity.
Qed.
Print Assumptions C90_order_refuted.

Definition ex_time : moment := mkMoment 2023 4 5 6 7 8 9.
Definition ex_later : moment := mkMoment 2023 4 5 6 7 10 0.
Example ex_proper : proper ex_time /\ proper ex_later /\ earlier ex_time ex_later.
Proof.
  unfold proper, ex_time, ex_later; cbn [mo_year mo_month mo_day mo_hour mo_min mo_sec mo_ms]. split; [lia|]. split; [lia|].
  exists 5. split; [lia|]. split; reflexivity.
Qed.
Example ex_stamp : getTimeStamp ex_time = S_ "2023-04-05 06:07:08.009".
Proof. reflexivity. Qed.
(** Level WARN, page filter 2: of four calls, two are shown. *)
Definition ex_calls : list log_call :=
  [mkCall 2 2 ex_time (S_ "a"); mkCall 3 2 ex_time (S_ "b"); mkCall 4 1 ex_time (S_ "c"); mkCall 4 (-1) ex_later (S_ "d")].
Example ex_log : log_all 3 2 ex_calls =
  (createLogMessagePrefix ex_time 3 ++ S_ "b") ++ createLogMessagePrefix ex_later 4 ++ S_ "d".
Proof. reflexivity. Qed.
Example ex_calls_ok : Forall (fun c => lc_level c < 5 /\ proper (lc_time c)) ex_calls.
Proof.
  destruct ex_proper as (P & Q & _). repeat constructor; cbn [lc_level lc_time ex_calls]; try lia; first [exact (proj1 P)|idtac]; try apply P; try apply Q.
Qed.
