(** LoggingSpec.v - specification of log messages (C90). *)
From Coq Require Import ZArith NArith.
From Verif Require Import Base Document Logging.
Local Open Scope list_scope.

(** The numbers of a moment, from the coarsest to the finest. *)
Definition parts (t : moment) : list N := [mo_year t; mo_month t; mo_day t; mo_hour t; mo_min t; mo_sec t; mo_ms t].
(** A moment of a year with four digits. (A minute may have a leap second.) *)
Definition proper (t : moment) : Prop :=
  (1000 <= mo_year t <= 9999 /\ 1 <= mo_month t <= 12 /\ 1 <= mo_day t <= 31 /\ mo_hour t <= 23 /\ mo_min t <= 59 /\
   mo_sec t <= 60 /\ mo_ms t <= 999)%N.
Definition earlier (a b : moment) : Prop :=
  exists k, k < 7 /\ firstn k (parts a) = firstn k (parts b) /\ (nth k (parts a) 0 < nth k (parts b) 0)%N.

(** The order of texts, byte by byte. *)
Definition text_lt (a b : str) : Prop :=
  exists p, (exists c t, a = p /\ b = p ++ c :: t) \/
            (exists x y s t, a = p ++ x :: s /\ b = p ++ y :: t /\ nat_of_ascii x < nat_of_ascii y).

(** The [w] bytes of [s] from position [i] on are the number [n], in decimal. *)
Definition number_at (s : str) (i w : nat) (n : N) : Prop :=
  length (firstn w (skipn i s)) = w /\ Forall (fun c => 48 <= nat_of_ascii c <= 57) (firstn w (skipn i s)) /\
  fold_left (fun a c => 10 * a + (N_of_ascii c - 48))%N (firstn w (skipn i s)) 0%N = n.
Definition byte_at (s : str) (i : nat) (c : ascii) : Prop := nth_error s i = Some c.

(** [s] is YYYY-MM-DD hh:mm:ss.mmm *)
Definition stamp (t : moment) (s : str) : Prop :=
  length s = 23 /\
  number_at s 0 4 (mo_year t) /\ byte_at s 4 "-" /\ number_at s 5 2 (mo_month t) /\ byte_at s 7 "-" /\ number_at s 8 2 (mo_day t) /\
  byte_at s 10 " " /\ number_at s 11 2 (mo_hour t) /\ byte_at s 13 ":" /\ number_at s 14 2 (mo_min t) /\ byte_at s 16 ":" /\
  number_at s 17 2 (mo_sec t) /\ byte_at s 19 "." /\ number_at s 20 3 (mo_ms t).

(** Name, padded to six bytes, and terminal color of a level. *)
Definition level_name (level : nat) : str * nat :=
  nth level [(S_ "TRACE:", 35); (S_ "DEBUG:", 32); (S_ "INFO: ", 34); (S_ "WARN: ", 33); (S_ "ERROR:", 31)] ([], 0).
(** The escape sequence ESC [ n m, [n] of two digits. *)
Definition color (n : nat) : str := [ascii_of_nat 27; "["%char; ascii_of_nat (48 + n / 10); ascii_of_nat (48 + n mod 10); "m"%char].
Definition bold : str := ascii_of_nat 27 :: S_ "[1m".
Definition plain_again : str := ascii_of_nat 27 :: S_ "[0m".

(** [s] is the message of level [level] with text [text], logged at [t]. *)
Definition message (level : nat) (t : moment) (text s : str) : Prop :=
  exists st, stamp t st /\
    s = st ++ [ascii_of_nat 9] ++ S_ "- " ++ bold ++ color (snd (level_name level)) ++ fst (level_name level) ++ plain_again ++ S_ " " ++ text.

(** Which calls are shown. *)
Definition shown (own : nat) (filter : Z) (c : log_call) : Prop :=
  own <= lc_level c /\ (filter <= 0 \/ lc_page c <= 0 \/ lc_page c = filter)%Z.
(** [out] consists of the messages of the shown calls, in order. *)
Inductive logged (own : nat) (filter : Z) : list log_call -> str -> Prop :=
| LgNil : logged own filter [] []
| LgShown c cs m out : shown own filter c -> message (lc_level c) (lc_time c) (lc_text c) m ->
    logged own filter cs out -> logged own filter (c :: cs) (m ++ out)
| LgHidden c cs out : ~ shown own filter c -> logged own filter cs out -> logged own filter (c :: cs) out.
