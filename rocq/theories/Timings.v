(** Timings.v - the running times of a run and how they are printed (option --print-running-times). *)
From Coq Require Import ZArith NArith.
From Flocq Require Import IEEE754.BinarySingleNaN.
From Verif Require Import Base Double MathUtils Document Serialization Cli.
Local Open Scope list_scope.

(** src/Types.h:1247-1265 *)
Definition timing : Type := (str * Z)%type.

(** src/PdfToTextPlusPlus.cpp:79-254: the names of the timings of a run of the engine, in order; the two refills of page->textLines
    and the semantic roles (which are predicted during the detection of the reading order) have no timing of their own. *)
Definition timed (c : config) (m : modul) (name : string) : list str := if Bool.eqb (disabled c m) false then [S_ name] else [].
Definition engine_steps (c : config) : list str :=
  [S_ "Load PDF"] ++                                                            (* 80-87 *)
  [S_ "Parse PDF"] ++                                                           (* 94-109 *)
  timed c MGlyphStats "Calculate glyph statistics" ++                           (* 112-121 *)
  timed c MDiacritics "Merge combining diacritics" ++                           (* 124-133 *)
  timed c MWords "Detect words" ++                                              (* 136-145 *)
  timed c MWordStats "Calculate words statistics" ++                            (* 148-157 *)
  timed c MSegmentation "Segment pages" ++                                      (* 160-169 *)
  timed c MLines "Detect lines" ++                                              (* 172-181 *)
  timed c MScripts "Detect sub/superscripts" ++                                 (* 194-203 *)
  timed c MLineStats "Calculate text line statistics" ++                        (* 206-215 *)
  timed c MBlocks "Detect text blocks" ++                                       (* 218-227 *)
  timed c MReadingOrder "Detect reading order" ++                               (* 230-242 *)
  timed c MDehyphenation "Dehyphenate words".                                   (* 245-254 *)
(** src/pdftotext++.cpp:692-762: the timings of a run that gets to the end; [vis]: whether a visualisation was asked for. The measured
    milliseconds are arbitrary. *)
Definition all_steps (c : config) (vis : bool) : list str :=
  engine_steps c ++ [S_ "Serialize"] ++ (if vis then [S_ "Visualize"] else []).
Definition timings_of (c : config) (vis : bool) (clock : str -> Z) : list timing := map (fun s => (s, clock s)) (all_steps c vis).

(** A locale: decimal point, thousands separator, sizes of the digit groups from the right (a size of 0 stands for CHAR_MAX or a
    negative value). *)
Record locale := mkLocale { lc_point : ascii; lc_sep : ascii; lc_groups : list nat }.
(** libstdc++, locale_facets.tcc, __add_grouping: the last size is used for all remaining groups. *)
Fixpoint grouped (n : nat) (gs : list nat) (sep : ascii) (ds : str) : str :=
  match n, gs with
  | S n, g :: rest =>
    if (0 <? g) && (g <? length ds)
    then grouped n (match rest with [] => gs | _ => rest end) sep (firstn (length ds - g) ds) ++ sep :: skipn (length ds - g) ds
    else ds
  | _, _ => ds
  end.
Definition group (l : locale) (ds : str) : str := grouped (length ds) (lc_groups l) (lc_sep l) ds.
(** [ostream << int64_t] *)
Definition print_int (l : locale) (z : Z) : str :=
  (if (z <? 0)%Z then ["-"%char] else []) ++ group l (dec_digits (Z.to_N (Z.abs z))).
(** The tenths nearest to the value m * 2^e, ties to even ([printf("%.1f")] rounds the exact value). *)
Definition tenths (m : positive) (e : Z) : N :=
  let n := (10 * N.pos m)%N in
  if (0 <=? e)%Z then (n * 2 ^ Z.to_N e)%N
  else let b := (2 ^ Z.to_N (- e))%N in
       let q := (n / b)%N in let r := (n mod b)%N in
       if (2 * r <? b)%N then q else if (b <? 2 * r)%N then (q + 1)%N else if N.even q then q else (q + 1)%N.
(** [ostream << fixed << setprecision(1) << double]; [nan]: how NaN is printed ("nan" or "-nan"). *)
Definition print_tenths (l : locale) (neg : bool) (n : N) : str :=
  (if neg then ["-"%char] else []) ++ group l (dec_digits (n / 10)) ++ lc_point l :: dec_digits (n mod 10).
Definition print_fixed1 (l : locale) (nan : str) (d : double) : str :=
  match d with
  | B754_nan => nan
  | B754_infinity s => (if s then ["-"%char] else []) ++ S_ "inf"
  | B754_zero s => print_tenths l s 0
  | B754_finite s m e _ => print_tenths l s (tenths m e)
  end.
(** [left << setw(n)], [right << setw(n)] *)
Definition pad_right (n : nat) (s : str) : str := s ++ repeat " "%char (n - length s).
Definition pad_left (n : nat) (s : str) : str := repeat " "%char (n - length s) ++ s.

Definition fits64 (z : Z) : bool := ((- 2 ^ 63 <=? z) && (z <? 2 ^ 63))%Z.
(** src/pdftotext++.cpp:772-773 *)
Definition total_of (ts : list timing) : outcome Z :=
  fold_left (fun acc t => do s <- acc; if fits64 (s + snd t) then Ok (s + snd t)%Z else UB "signed overflow") ts (Ok 0%Z).
(** src/utils/Log.h:26, 34 *)
Definition ESC : ascii := ascii_of_N 27.
Definition BOLD : str := ESC :: S_ "[1m".
Definition OFF : str := ESC :: S_ "[0m".
(** src/pdftotext++.cpp:781: [static_cast<double>(timeTotal)]; the dividend is converted, too. *)
Definition percentage (t total : Z) : double := dround (dmul (ddiv (dZ t) (dZ total)) (dZ 100)) 1.
(** src/pdftotext++.cpp:776-783 *)
Definition report_line (l : locale) (nan : str) (total : Z) (t : timing) : str :=
  pad_right 25 (S_ " * " ++ fst t ++ S_ ":") ++ pad_left 4 (print_int l (snd t)) ++ S_ " ms " ++
  S_ "(" ++ print_fixed1 l nan (percentage (snd t) total) ++ S_ "%)" ++ [nl].
(** src/pdftotext++.cpp:765-784; [env_locale] is the locale that the environment of the program names, None if there is no such locale
    on the system: [locale("")] throws then. *)
Definition report (env_locale : option locale) (nan : str) (ts : list timing) : outcome str :=
  match env_locale with
  | None => Throw "runtime_error"
  | Some l =>
    do total <- total_of ts;
    Ok (BOLD ++ S_ "Finished in " ++ print_int l total ++ S_ " ms." ++ OFF ++ [nl] ++ concat (map (report_line l nan total) ts))
  end.
