(** Words.v - src/WordsDetection.cpp and src/utils/WordsDetectionUtils.cpp: splitting the characters of a page into
    words, and finding stacked math symbols. *)
From Coq Require Import ZArith NArith.
From Verif Require Import Base Double MathUtils Elements Counter Document.

(** src/Config.h:173-226 (WordsDetectionConfig); the defaults are below. *)
Record words_config := mkWC {
  minYOverlapRatio : double; minStackedXOverlap : double; wFsEqualTolerance : double;
  stackedCharTexts : list str; stackedCharNames : list str; stackedWords : list str }.
(** src/Config.h:77, 179, 196-202, 207. The texts are the UTF-8 encodings of the signs for sum, product, integral and
    circled times. *)
Definition default_words_config : words_config :=
  mkWC (dec 5 1) (dec 5 1) (dZ 1)
       (map (map ascii_of_nat) [[226; 136; 145]; [226; 136; 143]; [226; 136; 171]; [226; 138; 151]])
       (map S_ ["summationdisplay"; "productdisplay"; "integraldisplay"; "circlemultiplydisplay"]%string)
       (map S_ ["sup"; "lim"]%string).

(** unordered_set::count *)
Definition mem (s : str) (l : list str) : bool := existsb (str_eqb s) l.

Section Words.
  (** [ordS], [ordD]: the iteration orders of the counters' hash maps (arbitrary); [new_id]: createRandomString. *)
  Context (ordS : list (str * N) -> list (str * N)) (ordD : list (double * N) -> list (double * N)) (new_id : Z -> str).
  Context (cfg : words_config).

  (** src/WordsDetection.h: _activeWord (characters, pos, fontSize). *)
  Record active := mkActive { a_chars : list character; a_pos : position; a_fontSize : double }.
  (** src/WordsDetection.cpp:81-89 and 138-145. *)
  Definition reset (pageNum : Z) : active :=
    mkActive [] (mkPos pageNum DBL_MAX DBL_MAX DBL_MIN DBL_MIN 0 0) dzero.
  (** src/WordsDetection.cpp:149-156. *)
  Definition append_char (a : active) (c : character) : active :=
    let p := a_pos a in
    let q := c_pos c in
    mkActive (a_chars a ++ [c])
      (mkPos (pageNum p) (minimum (leftX p) (leftX q)) (minimum (upperY p) (upperY q))
             (maximum (rightX p) (rightX q)) (maximum (lowerY p) (lowerY q)) (rotation q) (wMode q))
      (maximum (a_fontSize a) (c_fontSize c)).

  (** src/Config.h:224-226: getHorizontalGapThreshold. *)
  Definition hgap_threshold (a : active) : double := dmul (dec 15 2) (a_fontSize a).

  (** src/WordsDetection.cpp:176-258. *)
  Definition startsWord (a : active) (c : character) : bool :=
    match a_chars a with
    | [] => true
    | _ :: _ =>
        if negb (rotation (a_pos a) =? rotation (c_pos c))%Z then true
        else if negb (wMode (a_pos a) =? wMode (c_pos c))%Z then true
        else if smaller (computeMaxYOverlapRatio (c_pos c) (a_pos a)) (minYOverlapRatio cfg) TOL then true
        else if larger (computeHorizontalGap (c_pos c) (a_pos a)) (hgap_threshold a) TOL then true
        else larger (computeHorizontalGap (a_pos a) (c_pos c)) (hgap_threshold a) TOL
    end.

  (** src/utils/WordsDetectionUtils.cpp:66-73: what a character contributes to the text of its word. *)
  Definition char_text (c : character) : str :=
    if is_some (c_hasMark c) then c_textWithMark c else if is_none (c_markOf c) then c_text c else [].

  (** src/utils/WordsDetectionUtils.cpp:86-92. *)
  Definition mostFreqFontName (cs : list character) : outcome str :=
    let m := ordS (count_all str_eqb (map c_fontName cs)) in
    if (0 <? sumCounts m)%N then mostFreq ([] : str) m else Ok ([] : str).
  Definition mostFreqFontSize (cs : list character) : outcome double :=
    let m := ordD (count_all deq (map c_fontSize cs)) in
    if (0 <? sumCounts m)%N then mostFreq dzero m else Ok (dopp done).

  (** src/utils/WordsDetectionUtils.cpp:43-106, and the assignment of the rank (src/WordsDetection.cpp:127, 162). The
      assertion that there is a character is compiled away in release builds; characters[0] would then be undefined. *)
  Definition createWord (rank : Z) (cs : list character) : outcome word :=
    match cs with
    | [] => UB "characters[0] of an empty vector"
    | c0 :: _ =>
        do fn <- mostFreqFontName cs ;
        do fs <- mostFreqFontSize cs ;
        let b := bbox (map c_pos cs) in
        Ok (mkWord (new_id rank) rank
              (mkPos (pageNum (c_pos c0)) (leftX b) (upperY b) (rightX b) (lowerY b) (rotation (c_pos c0)) (wMode (c_pos c0)))
              (concat (map char_text cs)) fn fs cs None [] None None)
    end.

  (** src/WordsDetection.cpp:100-157: the loop; [words] is page->words. *)
  Fixpoint words_loop (pageNum : Z) (a : active) (words : list word) (cs : list character) : outcome (active * list word) :=
    match cs with
    | [] => Ok (a, words)
    | c :: t =>
        if is_some (c_markOf c) then words_loop pageNum a words t                              (* 118-121 *)
        else if startsWord a c && negb (length (a_chars a) =? 0) then                          (* 125 *)
          do w <- createWord (Z.of_nat (length words)) (a_chars a) ;                           (* 126-128 *)
          words_loop pageNum (append_char (reset pageNum) c) (words ++ [w]) t                  (* 138-156 *)
        else words_loop pageNum (append_char a c) words t
    end.

  (** src/WordsDetection.cpp:77-173. *)
  Definition detectWords (pageNum : Z) (words : list word) (cs : list character) : outcome (list word) :=
    match cs with
    | [] => Ok words
    | _ :: _ =>
        do ' (a, words) <- words_loop pageNum (reset pageNum) words cs ;
        match a_chars a with
        | [] => Ok words
        | _ :: _ => do w <- createWord (Z.of_nat (length words)) (a_chars a) ; Ok (words ++ [w])
        end
    end.

  (** ** Stacked math symbols. Words of the page are referred to by their index in page->words. *)

  (** src/WordsDetection.cpp:287-301. *)
  Definition isBase (w : word) : bool :=
    existsb (fun c => mem (c_text c) (stackedCharTexts cfg) || mem (c_name c) (stackedCharNames cfg)) (w_chars w)
    || mem (w_text w) (stackedWords cfg).

  (** src/WordsDetection.cpp:327-346 and 369-388: the tests that end the search. *)
  Definition isPart (base w : word) : bool :=
    if smaller (computeMaxXOverlapRatio (w_pos base) (w_pos w)) (minStackedXOverlap cfg) TOL then false
    else smaller (w_fontSize w) (w_fontSize base) (wFsEqualTolerance cfg).

  Definition add_part (w : word) (j : nat) : word :=
    mkWord (w_id w) (w_rank w) (w_pos w) (w_text w) (w_fontName w) (w_fontSize w) (w_chars w) (w_partOf w)
           (w_parts w ++ [j]) (w_first w) (w_second w).
  Definition set_partOf (w : word) (i : nat) : word :=
    mkWord (w_id w) (w_rank w) (w_pos w) (w_text w) (w_fontName w) (w_fontSize w) (w_chars w) (Some i)
           (w_parts w) (w_first w) (w_second w).
  (** applies [f] to the word at index [i] *)
  Definition modify (i : nat) (f : word -> word) (ws : list word) : list word :=
    match nth_error ws i with Some w => update i (f w) ws | None => ws end.

  (** src/WordsDetection.cpp:316-351 and 358-393: visits the words at the indices [js] until one is not a part. *)
  Fixpoint stack_loop (i : nat) (js : list nat) (ws : list word) : list word :=
    match js with
    | [] => ws
    | j :: t =>
        match nth_error ws i, nth_error ws j with
        | Some b, Some w =>
            if isPart b w then stack_loop i t (modify j (fun w => set_partOf w i) (modify i (fun b => add_part b j) ws))
            else ws
        | _, _ => ws
        end
    end.

  (** src/WordsDetection.cpp:268-394: the body of the loop, and the loop. *)
  Definition stack_step (ws : list word) (i : nat) : list word :=
    match nth_error ws i with
    | Some w =>
        if isBase w then stack_loop i (seq (S i) (length ws - S i)) (stack_loop i (rev (seq 0 i)) ws) else ws
    | None => ws
    end.
  Definition mergeStackedMathSymbols (ws : list word) : list word := fold_left stack_step (seq 0 (length ws)) ws.
End Words.
