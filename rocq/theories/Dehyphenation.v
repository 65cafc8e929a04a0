(** Dehyphenation.v - src/WordsDehyphenation.cpp. *)
From Verif Require Import Base Double Elements Document.

(** src/WordsDehyphenation.cpp:43-75, one iteration of the innermost loop. The state is the heap of words and
    [prevLine] (line 40). [words[size-1]] (line 50) is in range because prevLine is never an empty line. *)
Definition dehyph_line (st : heap * option line) (l : line) : heap * option line :=
  let '(h, prevLine) := st in
  match l with
  | [] => (h, prevLine)                                            (* 45-47 *)
  | w :: _ =>
      match prevLine with
      | Some pl =>
          let pw := last pl 0 in                                   (* 50 *)
          let ptext := w_text (h pw) in                            (* 51 *)
          if 1 <? length ptext then                                (* 53 *)
            if Ascii.eqb (last ptext "000"%char) "-" then          (* 54-57 *)
              let merged := firstn (length ptext - 1) ptext ++ w_text (h w) in   (* 63-66 *)
              let h1 := upd h pw (set_first (h pw) merged) in      (* 68 *)
              let h2 := upd h1 w (set_second (h1 w) merged) in     (* 69 *)
              (h2, Some l)
            else (h, Some l)
          else (h, Some l)
      | None => (h, Some l)
      end                                                          (* 74 *)
  end.

(** src/WordsDehyphenation.cpp:37-78: the three nested loops. *)
Definition all_lines (d : document) : list line :=
  flat_map (fun p => flat_map b_lines (p_blocks p)) (d_pages d).
Definition dehyphenate (d : document) (h : heap) : heap :=
  fst (fold_left (fun st p =>
         fold_left (fun st b => fold_left dehyph_line (b_lines b) st) (p_blocks p) st) (d_pages d) (h, None)).
