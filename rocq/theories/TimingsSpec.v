(** TimingsSpec.v - specification of the running times (C89). *)
From Coq Require Import ZArith NArith Reals.
From Verif Require Import Base Document Cli CliSpec Timings.
Local Open Scope string_scope. Local Open Scope list_scope.

(** What the report calls the steps of the pipeline. *)
Definition label (m : modul) : str :=
  match m with
  | MParsing => S_ "Parse PDF"
  | MGlyphStats => S_ "Calculate glyph statistics"
  | MDiacritics => S_ "Merge combining diacritics"
  | MWords => S_ "Detect words"
  | MWordStats => S_ "Calculate words statistics"
  | MSegmentation => S_ "Segment pages"
  | MLines => S_ "Detect lines"
  | MScripts => S_ "Detect sub/superscripts"
  | MLineStats => S_ "Calculate text line statistics"
  | MBlocks => S_ "Detect text blocks"
  | MReadingOrder => S_ "Detect reading order"
  | MRoles => S_ "Predict semantic roles"
  | MDehyphenation => S_ "Dehyphenate words"
  end.

(** [s] is the decimal numeral of [n]: digits, without leading zeros. *)
Fixpoint value (acc : N) (s : str) : N := match s with [] => acc | c :: t => value (10 * acc + (N_of_ascii c - 48)) t end.
Definition numeral (s : str) (n : N) : Prop :=
  s <> [] /\ Forall (fun c => 48 <= N_of_ascii c <= 57)%N s /\ value 0 s = n /\ (forall t, s = "0"%char :: t -> t = []).
(** The size of group number [i] from the right: the last size is used for all further groups; 0: everything is one group. *)
Definition group_size (gs : list nat) (i : nat) : nat := nth (Nat.min i (length gs - 1)) gs 0.
(** [s] is the numeral [ds] with a separator between groups of digits. *)
Definition with_separators (l : locale) (ds s : str) : Prop :=
  exists groups, groups <> [] /\ concat groups = ds /\ s = intercalate [lc_sep l] groups /\
    forall i g, nth_error (rev groups) i = Some g ->
      (S i < length groups -> group_size (lc_groups l) i = length g /\ 0 < length g) /\
      (S i = length groups -> 0 < length g /\ (group_size (lc_groups l) i = 0 \/ length g <= group_size (lc_groups l) i)).
(** How a natural number is written. *)
Definition written (l : locale) (n : N) (s : str) : Prop := exists ds, numeral ds n /\ with_separators l ds s.
(** A number of tenths is written with one digit after the decimal point. *)
Definition tenths_written (l : locale) (k : N) (s : str) : Prop :=
  exists a b, written l (k / 10) a /\ numeral b (k mod 10) /\ s = a ++ [lc_point l] ++ b.

Definition blanks (n : nat) : str := repeat " "%char n.
(** [out] is [s], with blanks after (before) it up to a width of [w]. *)
Definition filled_after (w : nat) (s out : str) : Prop := exists n, out = s ++ blanks n /\ length out = Nat.max w (length s).
Definition filled_before (w : nat) (s out : str) : Prop := exists n, out = blanks n ++ s /\ length out = Nat.max w (length s).

(** The line about a step that took [t] of [total] milliseconds: its name, the time, and the share of the time in tenths of a percent [k]. *)
Definition line_about (l : locale) (name : str) (t : Z) (k : N) (line : str) : Prop :=
  exists a b n p, filled_after 25 (S_ " * " ++ name ++ S_ ":") a /\ written l (Z.to_N t) n /\ filled_before 4 n b /\ tenths_written l k p /\
    line = a ++ b ++ S_ " ms (" ++ p ++ S_ "%)" ++ [nl].
Definition share (t total : Z) (k : N) : Prop :=
  (k <= 1000)%N /\ (Rabs (IZR (Z.of_N k) / 10 - 100 * (IZR t / IZR total)) <= 50002 / 1000000)%R.
Definition sum (l : list Z) : Z := fold_right Z.add 0%Z l.
