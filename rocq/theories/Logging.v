(** Logging.v - src/utils/Log.cpp:46-129, src/utils/Log.h:26-34: what a log message looks like. *)
From Coq Require Import ZArith NArith.
From Verif Require Import Base Document Serialization Cli.
Local Open Scope list_scope.

(** What [std::localtime] and the system clock deliver, as numbers as people write them: year (tm_year + 1900), month
    (tm_mon + 1), day, hour, minute, second, and the milliseconds since the epoch modulo 1000 (the clock stands behind 1970). *)
Record moment := mkMoment { mo_year : N; mo_month : N; mo_day : N; mo_hour : N; mo_min : N; mo_sec : N; mo_ms : N }.

(** [std::setfill('0') << std::setw(w) << n]; [strftime] writes %m, %d, %H, %M, %S like this, and %Y if the year has four digits. *)
Definition zero_filled (w : nat) (n : N) : str := let s := dec_digits n in repeat "0"%char (w - length s) ++ s.
(** src/utils/Log.cpp:117-129. The stream has the classic locale (no locale::global in /repo/src): %X is %H:%M:%S. *)
Definition getTimeStamp (t : moment) : str :=
  zero_filled 4 (mo_year t) ++ S_ "-" ++ zero_filled 2 (mo_month t) ++ S_ "-" ++ zero_filled 2 (mo_day t) ++ S_ " " ++
  zero_filled 2 (mo_hour t) ++ S_ ":" ++ zero_filled 2 (mo_min t) ++ S_ ":" ++ zero_filled 2 (mo_sec t) ++ S_ "." ++
  zero_filled 3 (mo_ms t).

(** src/utils/Log.h:26-34 *)
Definition esc (s : string) : str := ascii_of_nat 27 :: S_ s.
Definition c_BOLD : str := esc "[1m".
Definition c_RED : str := esc "[31m".
Definition c_GREEN : str := esc "[32m".
Definition c_YELLOW : str := esc "[33m".
Definition c_BLUE : str := esc "[34m".
Definition c_MAGENTA : str := esc "[35m".
Definition c_OFF : str := esc "[0m".
(** src/utils/Log.cpp:91-111; the levels are TRACE .. ERROR = 0 .. 4. *)
Definition level_label (level : nat) : str :=
  match level with
  | 0 => c_BOLD ++ c_MAGENTA ++ S_ "TRACE:" ++ c_OFF
  | 1 => c_BOLD ++ c_GREEN ++ S_ "DEBUG:" ++ c_OFF
  | 2 => c_BOLD ++ c_BLUE ++ S_ "INFO: " ++ c_OFF
  | 3 => c_BOLD ++ c_YELLOW ++ S_ "WARN: " ++ c_OFF
  | 4 => c_BOLD ++ c_RED ++ S_ "ERROR:" ++ c_OFF
  | _ => []
  end.
(** 90-114 *)
Definition createLogMessagePrefix (t : moment) (level : nat) : str :=
  getTimeStamp t ++ (ascii_of_nat 9 :: S_ "- ") ++ level_label level ++ S_ " ".

(** A call such as [log->info(page) << text]: level, page number (-1: none), the moment, what is streamed behind it. *)
Record log_call := mkCall { lc_level : nat; lc_page : Z; lc_time : moment; lc_text : str }.
(** 46-68: the prefix is written to the same stream as the text. [own], [filter]: level and page filter of the logger. *)
Definition log_one (own : nat) (filter : Z) (c : log_call) : str :=
  match getostream own filter (lc_level c) (lc_page c) with
  | Cout => createLogMessagePrefix (lc_time c) (lc_level c) ++ lc_text c
  | NullStream => []
  end.
(** What a sequence of calls leaves on standard output. *)
Definition log_all (own : nat) (filter : Z) (cs : list log_call) : str := flat_map (log_one own filter) cs.
