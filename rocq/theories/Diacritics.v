(** Diacritics.v - src/DiacriticalMarksMerging.cpp: attaching diacritical marks to base characters.
    The page's characters are a list; a pointer to a character of the page is its index in the list (so [c_markOf] and
    [c_hasMark] hold indices). *)
From Coq Require Import ZArith NArith.
From Verif Require Import Base Double MathUtils Elements Document.

(** src/Config.h:243-283: combiningMap (an unordered_map, only used for look-ups). *)
Definition COMBINING_MAP : list (N * N) :=
  [(34, 779); (39, 769); (94, 770); (95, 818); (96, 768); (126, 771); (168, 776); (175, 772); (176, 778); (180, 769);
   (184, 807); (690, 801); (695, 811); (697, 769); (716, 809); (698, 779); (699, 786); (700, 787); (701, 788);
   (710, 770); (711, 780); (712, 781); (713, 772); (714, 769); (715, 768); (717, 817); (724, 797); (725, 798);
   (726, 799); (727, 800); (730, 778); (732, 771); (733, 779); (900, 769); (1157, 788); (1158, 787); (1369, 788);
   (1370, 787); (8270, 857)]%N.

(** src/DiacriticalMarksMerging.cpp:103-106 *)
Definition combining (u : N) : N :=
  match find (fun e => N.eqb (fst e) u) COMBINING_MAP with Some e => snd e | None => u end.

(** src/DiacriticalMarksMerging.cpp:95-124: the (combining) code point if the character is a diacritical mark. *)
Definition mark_unicode (c : character) : option N :=
  match c_unicodes c with
  | [u] =>
      let u := combining u in
      if ((688 <=? u) && (u <=? 767))%N || ((768 <=? u) && (u <=? 879))%N then Some u else None
  | _ => None
  end.

Section Diacritics.
  (** UnicodeMap::mapUnicode followed by utf8proc_map with options STABLE | COMPOSE (186-199): an uninterpreted
      function of the code points. utf8proc is assumed to succeed (the code does not check its result), and the text
      encoding [globalParams->getTextEncoding()] to be available (63-66). *)
  Context (compose : list N -> str).

  (** src/DiacriticalMarksMerging.cpp:177, 178, 199-205: assignments to the mark and to the base. *)
  Definition set_mark_of (c : character) (b : nat) : character :=
    mkChar (c_uid c) (c_id c) (c_rank c) (c_pos c) (c_text c) (c_name c) (c_unicodes c) (c_fontName c) (c_fontSize c)
           (c_color c) (c_opacity c) (c_base c) (c_isSub c) (c_isSuper c) (Some b) (c_hasMark c) (c_textWithMark c).
  Definition set_base_of (c : character) (m : nat) (text : str) (p : position) : character :=
    mkChar (c_uid c) (c_id c) (c_rank c) p (c_text c) (c_name c) (c_unicodes c) (c_fontName c) (c_fontSize c)
           (c_color c) (c_opacity c) (c_base c) (c_isSub c) (c_isSuper c) (c_markOf c) (Some m) text.

  (** src/DiacriticalMarksMerging.cpp:126-155: overlap with the neighbour, 0 if there is none. *)
  Definition prev_overlap (prev : option character) (curr : character) : double :=
    match prev with Some c => computeMaxXOverlapRatio (c_pos c) (c_pos curr) | None => dzero end.
  Definition next_overlap (curr : character) (next : option character) : double :=
    match next with Some c => computeMaxXOverlapRatio (c_pos curr) (c_pos c) | None => dzero end.

  (** src/DiacriticalMarksMerging.cpp:76-212: the body of the loop for the character at index [i]. *)
  Definition diac_step (cs : list character) (i : nat) : outcome (list character) :=
    match nth_error cs i with
    | None => Ok cs
    | Some curr =>
        let prev := match i with 0 => None | S j => nth_error cs j end in
        let next := nth_error cs (S i) in
        match mark_unicode curr with
        | None => Ok cs
        | Some u =>
            let po := prev_overlap prev curr in
            let no := next_overlap curr next in
            if equal po dzero TOL && equal no dzero TOL then Ok cs
            else
              let '(j, b) := if larger po no TOL then (Nat.pred i, prev) else (S i, next) in
              match b with
              | None => UB "null pointer dereference"
              | Some base =>
                  let cs := update i (set_mark_of curr j) cs in
                  Ok (update j (set_base_of base i (compose (c_unicodes base ++ [u])) (bbox_add (c_pos base) (c_pos curr))) cs)
              end
        end
    end.

  (** src/DiacriticalMarksMerging.cpp:73-214: the loop over the characters of one page. *)
  Fixpoint diac_loop (cs : list character) (is : list nat) : outcome (list character) :=
    match is with
    | [] => Ok cs
    | i :: t => do cs <- diac_step cs i ; diac_loop cs t
    end.
  Definition merge_marks (cs : list character) : outcome (list character) := diac_loop cs (seq 0 (length cs)).
End Diacritics.
