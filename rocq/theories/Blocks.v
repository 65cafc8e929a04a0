(** Blocks.v - src/TextBlocksDetection.cpp and src/utils/TextBlocksDetectionUtils.cpp: detection of text blocks.
    Lines are referred to by their numbers in a heap of lines, words by their numbers in the heap of words (Document.v),
    blocks by their positions in the vector they are stored in. Logging is not modelled. The functions of <cctype> are those
    of the "C" locale (no locale is set in /repo/src). *)
From Coq Require Import ZArith NArith.
From Verif Require Import Base Double MathUtils Elements Counter TextUtils Document.

(** src/Types.h:406-428, 622-732: what the module reads and writes of a line. *)
Record bline := mkBLine {
  bl_pos : position; bl_text : str; bl_fontName : str; bl_fontSize : double; bl_maxFontSize : double; bl_words : list nat;
  bl_seg : nat;                                   (* segment *)
  bl_prev : option nat; bl_next : option nat;     (* prevLine, nextLine *)
  bl_parent : option nat; bl_prevSib : option nat; bl_nextSib : option nat;
  bl_left : double; bl_right : double }.          (* leftMargin, rightMargin *)
Definition lheap := nat -> bline.

(** src/Types.h:744-805; [tb_prev], [tb_next]: positions in the vector. *)
Record tblock := mkTBlock {
  tb_rank : Z; tb_pos : position; tb_trim : double * double * double * double; tb_text : str; tb_fontName : str; tb_fontSize : double;
  tb_lines : list nat; tb_seg : nat; tb_prev : option nat; tb_next : option nat;
  tb_centered : bool; tb_emph : bool; tb_hang : double }.

(** src/Types.h:1100-1190: what the module reads of the document: avgCharWidth, mostFreqFontName, mostFreqFontSize,
    mostFreqWordHeight, mostFreqLineDistance, mostFreqLineDistancePerFontSize, fontInfos; the boxes and trim boxes of the
    segments; the boxes of the figures of each page. *)
Record bdoc := mkBDoc {
  bd_acw : double; bd_fontName : str; bd_fontSize : double; bd_wordHeight : double; bd_dist : double;
  bd_distPer : list (double * double); bd_fonts : list (str * fontInfo);
  bd_seg : nat -> position * (double * double * double * double); bd_figures : list (list position) }.

(** <cctype>, "C" locale *)
Definition islower (c : ascii) : bool := (97 <=? nat_of_ascii c) && (nat_of_ascii c <=? 122).
Definition isalpha (c : ascii) : bool := isupper c || islower c.
Definition isdigit (c : ascii) : bool := (48 <=? nat_of_ascii c) && (nat_of_ascii c <=? 57).
Definition isalnum (c : ascii) : bool := isalpha c || isdigit c.

(** std::strstr(a, b) != nullptr *)
Fixpoint prefixb (a b : str) : bool :=
  match a, b with [], _ => true | x :: a', y :: b' => Ascii.eqb x y && prefixb a' b' | _ :: _, [] => false end.
Fixpoint substringb (a b : str) : bool := prefixb a b || match b with [] => false | _ :: b' => substringb a b' end.
(** c_str() of a string: up to the first NUL. *)
Fixpoint c_str (s : str) : str :=
  match s with [] => [] | c :: t => if Ascii.eqb c "000"%char then [] else c :: c_str t end.

(** src/Config.h:696: "*∗abcdefghijklmnopqrstuvwxyz01234567890()" (the second character is U+2217), 96, 103, 576 *)
Definition superItemLabelAlphabet : str :=
  "*"%char :: map ascii_of_nat [226; 136; 151] ++ S_ "abcdefghijklmnopqrstuvwxyz01234567890()".
Definition formulaIdAlphabet : str := S_ "=+".
(** "*∗†‡§‖¶?" in UTF-8 *)
Definition specialFootnoteLabelsAlphabet : str :=
  "*"%char :: map ascii_of_nat [226; 136; 151; 226; 128; 160; 226; 128; 161; 194; 167; 226; 128; 150; 194; 182] ++ ["?"%char].
Definition lastNamePrefixes : list str := [S_ "van"; S_ "von"; S_ "de"].

Section Blocks.
  (** [ordS], [ordD]: iteration orders of hash maps. [absd]: the function that the unqualified call [abs] refers to (see
      Lines.v). [label_regex]: whether one of the regular expressions src/Config.h:699-718 matches. *)
  Context (ordS : list (str * N) -> list (str * N)) (ordD : list (double * N) -> list (double * N)).
  Context (absd : double -> double) (label_regex : str -> bool) (h : heap) (doc : bdoc).
  Let acw := bd_acw doc.

  (** src/utils/TextBlocksDetectionUtils.cpp:73-96, src/Config.h:586, 600-602 *)
  Definition centering_tol : double := dmul (dZ 2) acw.
  Definition computeIsCentered (p q : position) : bool :=
    if smaller (computeMaxXOverlapRatio p q) (dec 99 2) TOL then false
    else equal (absd (computeLeftXOffset p q)) (absd (computeRightXOffset p q)) centering_tol.

  (** 125-140 *)
  Definition contains_formula (t : str) : bool := existsb (fun c => mem_ascii c t) formulaIdAlphabet.
  (** 113-157; [None]: two consecutive lines are not centered *)
  Fixpoint centered_scan (lh : lheap) (prev : nat) (ls : list nat) (large : bool) (n : Z) : option (bool * Z) :=
    match ls with
    | [] => Some (large, n)
    | l :: t =>
        let p := lh prev in let q := lh l in
        if computeIsCentered (bl_pos p) (bl_pos q) then
          let isFormula := contains_formula (bl_text p) || contains_formula (bl_text q) in
          let isLarge := larger (absd (computeLeftXOffset (bl_pos p) (bl_pos q))) centering_tol TOL
                      || larger (absd (computeRightXOffset (bl_pos p) (bl_pos q))) centering_tol TOL in
          if negb isFormula && isLarge then centered_scan lh l t true n else centered_scan lh l t large (n + 1)
        else None
    end.
  (** 99-161, src/Config.h:611 *)
  Definition computeIsTextLinesCentered (lh : lheap) (ls : list nat) : bool :=
    match ls with
    | [] => false
    | l :: t => match centered_scan lh l t false 0 with None => false | Some (large, n) => large && (n <=? 5)%Z end
    end.

  Definition font_of (name : str) : option fontInfo :=
    match find (fun e => str_eqb (fst e) name) (bd_fonts doc) with Some (_, f) => Some f | None => None end.
  (** 202-214 *)
  Fixpoint upper_scan (t : str) (seen : bool) : bool :=
    match t with
    | [] => seen
    | c :: r => if isalpha c then (if islower c then false else upper_scan r true) else upper_scan r seen
    end.
  (** 164-215, src/Config.h:77, 81 *)
  Definition computeIsEmphasized (text fontName : str) (fontSize : double) : bool :=
    match font_of (bd_fontName doc), font_of fontName with
    | Some df, Some ef =>
        if larger fontSize (bd_fontSize doc) (dZ 1) then true
        else if equalOrLarger fontSize (bd_fontSize doc) (dZ 1) && larger (dZ (f_weight ef)) (dZ (f_weight df)) (dZ 100) then true
        else if equalOrLarger fontSize (bd_fontSize doc) (dZ 1) && f_italic ef then true
        else upper_scan text false
    | _, _ => false
    end.

  (** 218-240, src/Config.h:637 *)
  Definition computeHasPrevLineCapacity (prev : option bline) (l : bline) : bool :=
    match prev with
    | None => false
    | Some p => match bl_words l with
                | [] => false
                | w :: _ => larger (bl_right p) (getWidth (w_pos (h w))) (dmul (dZ 2) acw)
                end
    end.
  Definition line_at (lh : lheap) (o : option nat) : option bline := match o with Some i => Some (lh i) | None => None end.

  (** 243-393; [margin]: marginThreshold *)
  Definition margin_threshold : double := dmul (dZ 1) acw.
  Record hang := mkHang { hg_firstIndented : bool; hg_firstCapacity : bool; hg_othersIndented : bool;
    hg_lowerNon : Z; hg_lowerInd : Z; hg_non : Z; hg_ind : Z }.
  Definition b2z (b : bool) : Z := if b then 1 else 0.
  (** 307-355: one line, at position [i] *)
  Definition hang_line (lh : lheap) (mf : double) (i : nat) (l : bline) (s : hang) : outcome hang :=
    if (N.of_nat (length (bl_text l)) <? 3)%N then Ok s
    else if equal (bl_left l) (bl_right l) margin_threshold && larger (bl_left l) margin_threshold TOL then Ok s
    else
      let isNon := equal (bl_left l) dzero margin_threshold in
      let isInd := equal (bl_left l) mf margin_threshold in
      let isLower := match bl_text l with c :: _ => islower c | [] => false end in
      match bl_words l with
      | [] => UB "words[0] of a line without words"
      | w :: _ =>
          let pre := existsb (str_eqb (w_text (h w))) lastNamePrefixes in
          Ok (mkHang (if i =? 0 then isInd else hg_firstIndented s)
                     (if i =? 1 then computeHasPrevLineCapacity (line_at lh (bl_prev l)) l else hg_firstCapacity s)
                     (if 0 <? i then hg_othersIndented s && isInd else hg_othersIndented s)
                     (hg_lowerNon s + b2z (isLower && negb pre && isNon)) (hg_lowerInd s + b2z (isLower && isInd))
                     (hg_non s + b2z isNon) (hg_ind s + b2z isInd))
      end.
  Fixpoint hang_scan (lh : lheap) (mf : double) (i : nat) (ls : list nat) (s : hang) : outcome hang :=
    match ls with
    | [] => Ok s
    | l :: t => do s' <- hang_line lh mf i (lh l) s ; hang_scan lh mf (S i) t s'
    end.
  Definition computeHangingIndent (lh : lheap) (ls : list nat) : outcome double :=
    let numLong := Z.of_nat (length (filter (fun l => (3 <=? N.of_nat (length (bl_text (lh l))))%N) ls)) in
    let larges := map (fun l => bl_left (lh l)) (filter (fun l => equalOrLarger (bl_left (lh l)) margin_threshold TOL) ls) in
    let m := ordD (count_all deq larges) in
    do ' (mf, cnt) <- (if (0 <? sumCounts m)%N then mostFreqAndCount dzero m else Ok (dzero, 0%N)) ;
    if equalOrSmaller (dZ (Z.of_N cnt)) (dmul (dec 5 1) (dZ (Z.of_nat (length larges)))) TOL then Ok dzero
    else
      do s <- hang_scan lh mf 0 ls (mkHang false false true 0 0 0 0) ;
      if (hg_ind s =? 0)%Z then Ok dzero
      else if (0 <? hg_lowerNon s)%Z then Ok dzero
      else if negb (hg_firstIndented s) && negb (hg_firstCapacity s) && hg_othersIndented s then Ok mf
      else if (10 <=? hg_non s)%Z && (hg_lowerNon s <=? 0)%Z then Ok mf
      else if (4 <=? numLong)%Z && (1 <=? hg_lowerInd s)%Z then Ok mf
      else Ok dzero.

  (** ** createTextBlock: 673-783 *)
  (** 710-719 *)
  Definition block_box_add (box e : position) : position :=
    mkPos (pageNum box) (minimum (leftX box) (minimum (leftX e) (rightX e))) (minimum (upperY box) (minimum (upperY e) (lowerY e)))
          (maximum (rightX box) (maximum (leftX e) (rightX e))) (maximum (lowerY box) (maximum (upperY e) (lowerY e))) (rotation box) (wMode box).
  (** 749-761: the words of each line separated by blanks, and a blank between lines *)
  Definition line_text (l : bline) : str := intercalate [" "%char] (map (fun w => w_text (h w)) (bl_words l)).
  (** 734-735 *)
  Definition link_line (ls : list nat) (i : nat) (l : bline) : bline :=
    mkBLine (bl_pos l) (bl_text l) (bl_fontName l) (bl_fontSize l) (bl_maxFontSize l) (bl_words l) (bl_seg l)
      (if 0 <? i then nth_error ls (i - 1) else None) (if i <? length ls - 1 then nth_error ls (i + 1) else None)
      (bl_parent l) (bl_prevSib l) (bl_nextSib l) (bl_left l) (bl_right l).
  Fixpoint link_lines (ls : list nat) (i : nat) (rest : list nat) (lh : lheap) : lheap :=
    match rest with
    | [] => lh
    | l :: t => link_lines ls (S i) t (fun j => if j =? l then link_line ls i (lh l) else lh j)
    end.
  (** 396-419: blockTrimRightX, then the margins *)
  Definition block_right (box : position) (seg : position) (trimRight : double) (n : nat) (prev : option tblock) : double :=
    if n =? 2 then
      let lm := dsub (leftX box) (leftX seg) in
      let rm := dsub (rightX seg) (rightX box) in
      if equal lm rm acw then trimRight
      else match prev with Some p => maximum trimRight (let '(_, _, r, _) := tb_trim p in r) | None => trimRight end
    else trimRight.
  Definition set_margins (trimLeft trimRight : double) (l : bline) : bline :=
    mkBLine (bl_pos l) (bl_text l) (bl_fontName l) (bl_fontSize l) (bl_maxFontSize l) (bl_words l) (bl_seg l) (bl_prev l) (bl_next l)
      (bl_parent l) (bl_prevSib l) (bl_nextSib l) (dsub (leftX (bl_pos l)) trimLeft) (dsub trimRight (rightX (bl_pos l))).
  Fixpoint margin_lines (trimLeft trimRight : double) (ls : list nat) (lh : lheap) : lheap :=
    match ls with
    | [] => lh
    | l :: t => margin_lines trimLeft trimRight t (fun j => if j =? l then set_margins trimLeft trimRight (lh l) else lh j)
    end.
  Definition set_next (b : tblock) (n : nat) : tblock :=
    mkTBlock (tb_rank b) (tb_pos b) (tb_trim b) (tb_text b) (tb_fontName b) (tb_fontSize b) (tb_lines b) (tb_seg b) (tb_prev b) (Some n)
      (tb_centered b) (tb_emph b) (tb_hang b).
  (** src/utils/TextBlocksDetectionUtils.cpp:763-768: the last block of the vector gets a successor. *)
  Fixpoint link_last (bs : list tblock) (n : nat) : list tblock :=
    match bs with [] => [] | [b] => [set_next b n] | b :: t => b :: link_last t n end.
  Definition createTextBlock (ls : list nat) (bs : list tblock) (lh : lheap) : outcome (list tblock * lheap) :=
    match ls with
    | [] => UB "lines[0] of an empty vector"
    | l0 :: _ =>
        let first := lh l0 in
        let '(seg, (tl, tu, tr, tlo)) := bd_seg doc (bl_seg first) in
        let box := fold_left block_box_add (map (fun l => bl_pos (lh l)) ls)
          (mkPos (pageNum (bl_pos first)) DBL_MAX DBL_MAX DBL_MIN DBL_MIN (rotation (bl_pos first)) (wMode (bl_pos first))) in
        let trim := (maximum (leftX box) tl, maximum (upperY box) tu, minimum (rightX box) tr, minimum (lowerY box) tlo) in
        let names := ordS (count_all str_eqb (map (fun l => bl_fontName (lh l)) ls)) in
        let sizes := ordD (count_all deq (map (fun l => bl_fontSize (lh l)) ls)) in
        let lh := link_lines ls 0 ls lh in
        do fn <- (if (0 <? sumCounts names)%N then mostFreq ([] : str) names else Ok ([] : str)) ;
        do fs <- (if (0 <? sumCounts sizes)%N then mostFreq dzero sizes else Ok (dopp done)) ;
        let text := intercalate [" "%char] (map (fun l => line_text (lh l)) ls) in
        let prev := last_opt bs in
        let emph := computeIsEmphasized text fn fs in
        let centered := computeIsTextLinesCentered lh ls in
        let lh := margin_lines (maximum (leftX box) tl) (block_right box seg (minimum (rightX box) tr) (length ls) prev) ls lh in
        do hi <- computeHangingIndent lh ls ;
        Ok (link_last bs (length bs) ++
            [mkTBlock (Z.of_nat (length bs)) box trim text fn fs ls (bl_seg first)
               (match bs with [] => None | _ :: _ => Some (length bs - 1) end) None centered emph hi], lh)
    end.

  (** ** Items *)
  (** 585-620 *)
  Definition computeIsPrefixedByItemLabel (l : bline) : bool :=
    match bl_words l with
    | [] => false
    | w :: _ => match w_chars (h w) with
                | [] => false
                | c :: _ => (c_isSuper c && substringb (c_str (c_text c)) superItemLabelAlphabet) || label_regex (bl_text l)
                end
    end.
  (** 636-642 *)
  Fixpoint super_prefix (cs : list character) : str :=
    match cs with [] => [] | c :: t => if c_isSuper c then c_text c ++ super_prefix t else [] end.
  (** 623-651; [labels]: [None] is the null pointer *)
  Definition computeIsPrefixedByFootnoteLabel (labels : option (list str)) (l : bline) : bool :=
    match bl_words l with
    | [] => false
    | w :: _ => let p := super_prefix (w_chars (h w)) in
                match labels with Some s => existsb (str_eqb p) s | None => negb (str_eqb p []) end
    end.
  Definition equal_fonts (w v : nat) : bool := str_eqb (w_fontName (h w)) (w_fontName (h v)) && equal (w_fontSize (h w)) (w_fontSize (h v)) (dZ 1).
  (** 469-478, 484-493: the sibling has an item label and the same font *)
  Definition sibling_item (lh : lheap) (o : option nat) (l : bline) : bool :=
    match o with
    | None => false
    | Some s => match bl_words (lh s), bl_words l with
                | v :: _, w :: _ => computeIsPrefixedByItemLabel (lh s) && equal_fonts v w
                | _, _ => false
                end
    end.
  (** 422-501 *)
  Definition computeIsFirstLineOfItem (lh : lheap) (labels : option (list str)) (l : bline) : bool :=
    match bl_words l with
    | [] => false
    | _ :: _ =>
        let item := computeIsPrefixedByItemLabel l in
        let foot := computeIsPrefixedByFootnoteLabel labels l in
        if negb item && negb foot then false
        else if match line_at lh (bl_prev l) with
                | None => false
                | Some p => negb (computeIsPrefixedByItemLabel p) && str_eqb (bl_fontName p) (bl_fontName l)
                    && equal (bl_fontSize p) (bl_fontSize l) (dZ 1) && equalOrSmaller (computeVerticalGap (bl_pos p) (bl_pos l)) dzero TOL
                    && negb (endsWithSentenceDelimiter (bl_text p) SENTENCE_DELIMITERS) && computeHasEqualLeftX (bl_pos p) (bl_pos l) acw
                end then false
        else if sibling_item lh (bl_prevSib l) l then true
        else if sibling_item lh (bl_nextSib l) l then true
        else foot
    end.
  (** 504-518; [None]: more than [fuel] nested calls *)
  Fixpoint computeIsContinuationOfItem (fuel : nat) (lh : lheap) (labels : option (list str)) (l : bline) : option bool :=
    match fuel with
    | O => None
    | S n => match bl_parent l with
             | None => Some false
             | Some p => if computeIsFirstLineOfItem lh labels (lh p) then Some true else computeIsContinuationOfItem n lh labels (lh p)
             end
    end.
  (** 521-582: the labels of one word; [label]: the current one, [seen]: nonSubSuperscriptSeen *)
  Definition first_in (t : str) (p : ascii -> bool) : bool := match t with c :: _ => p c | [] => false end.
  Fixpoint word_labels (cs : list character) (label : str) (seen : bool) : list str :=
    match cs with
    | [] => match label with [] => [] | _ :: _ => [label] end
    | c :: t =>
        if negb seen && negb (c_isSub c) && negb (c_isSuper c) then word_labels t label true
        else if negb seen then word_labels t label seen
        else match c_text c with
             | [] => word_labels t label seen
             | b :: _ =>
                 if mem_ascii b specialFootnoteLabelsAlphabet || (c_isSuper c && isalnum b) then word_labels t (label ++ c_text c) seen
                 else match label with [] => word_labels t [] seen | _ :: _ => label :: word_labels t [] seen end
             end
    end.
  Definition computePotentialFootnoteLabels (l : bline) (labels : list str) : list str :=
    labels ++ flat_map (fun w => word_labels (w_chars (h w)) [] false) (bl_words l).

  (** 654-670, src/Config.h:685, 690: the position of the first figure that the element overlaps *)
  Definition overlaps (p f : position) : bool :=
    equalOrLarger (fst (computeXOverlapRatios p f)) (dec 5 1) TOL && equalOrLarger (fst (computeYOverlapRatios p f)) (dec 5 1) TOL.
  Fixpoint computeOverlapsFigure (p : position) (i : nat) (fs : list position) : option nat :=
    match fs with [] => None | f :: t => if overlaps p f then Some i else computeOverlapsFigure p (S i) t end.

  (** ** The rules: src/TextBlocksDetection.cpp:308-873. [p]: the previous line. *)
  (** 327-350 *)
  Definition rule_sameFigure (p l : bline) : outcome trool :=
    match (if (pageNum (bl_pos l) <? 1)%Z then None else nth_error (bd_figures doc) (Z.to_nat (pageNum (bl_pos l) - 1))) with
    | None => UB "pages[p - 1] out of range"
    | Some fs => Ok (match computeOverlapsFigure (bl_pos p) 0 fs, computeOverlapsFigure (bl_pos l) 0 fs with
                     | Some i, Some j => if i =? j then TFalse else TNone
                     | _, _ => TNone
                     end)
    end.
  (** 353-371 *)
  Definition rule_rotation (p l : bline) : trool := if negb (rotation (bl_pos p) =? rotation (bl_pos l))%Z then TTrue else TNone.
  (** 374-392 *)
  Definition rule_wMode (p l : bline) : trool := if negb (wMode (bl_pos p) =? wMode (bl_pos l))%Z then TTrue else TNone.
  (** 395-426 *)
  Definition rule_fontSize (p l : bline) : trool :=
    if negb (equal (bl_fontSize p) (bl_fontSize l) (dZ 1)) && negb (equal (bl_maxFontSize p) (bl_maxFontSize l) (dZ 1)) then TTrue else TNone.
  (** 436-446; src/Config.h:504-507 (std::max(1.0, 0.1 * d)) *)
  Definition expected_distance (l : bline) : double :=
    maximum (match find (fun e => deq (fst e) (bl_fontSize l)) (bd_distPer doc) with Some (_, d) => maximum dzero d | None => dzero end) (bd_dist doc).
  Definition line_distance (p l : bline) : double := dround (computeVerticalGap (bl_pos p) (bl_pos l)) 1.
  Definition distance_threshold (d : double) : double := maximum (dZ 1) (dmul (dec 1 1) d).
  (** 429-473 *)
  Definition rule_lineDistance (p l : bline) : trool :=
    if equalOrSmaller (line_distance p l) dzero TOL then TFalse
    else if larger (line_distance p l) (expected_distance l) (distance_threshold (expected_distance l)) then TTrue
    else TNone.
  (** 476-512 *)
  Definition rule_increasedLineDistance (pp : option bline) (p l : bline) : trool :=
    match pp with
    | None => TNone
    | Some pp => if larger (line_distance p l) (line_distance pp p) (dmul (dec 5 1) (bd_wordHeight doc)) then TTrue else TNone
    end.
  (** 515-540 *)
  Definition rule_centered (lh : lheap) (b : tblock) (l : bline) : trool :=
    if negb (tb_centered b) then TNone else if computeIsFirstLineOfItem lh None l then TTrue else TFalse.
  Definition offset_ok (p l : bline) : bool :=
    between (computeLeftXOffset (bl_pos p) (bl_pos l)) (dmul (dZ (-1)) acw) (dmul (dZ 6) acw) TOL.
  (** 543-648. All four predicates are computed before they are used; the two calls of computeIsContinuationOfItem may not
      return ([None]). *)
  Definition rule_item (fuel : nat) (lh : lheap) (labels : list str) (b : tblock) (p l : bline) : outcome trool :=
    let prevFirst := computeIsFirstLineOfItem lh (Some labels) p in
    let currFirst := computeIsFirstLineOfItem lh (Some labels) l in
    match computeIsContinuationOfItem fuel lh (Some labels) p, computeIsContinuationOfItem fuel lh (Some labels) l with
    | Some prevCont, Some currCont =>
        let capacity := computeHasPrevLineCapacity (Some p) l in
        Ok (if currFirst then TTrue
            else if currCont then
              (if tb_centered b then TFalse
               else if capacity then TTrue
               else if prevFirst then TFalse
               else if prevCont then (if offset_ok p l then TFalse else TTrue)
               else TFalse)
            else if prevFirst || prevCont then
              (if capacity then TTrue
               else if negb (endsWithSentenceDelimiter (bl_text p) SENTENCE_DELIMITERS) && negb (startsWithUpper (bl_text l)) then TFalse
               else TNone)
            else TNone)
    | _, _ => UB "unbounded recursion"
    end.
  (** 651-680 *)
  Definition line_emphasized (l : bline) : bool := computeIsEmphasized (bl_text l) (bl_fontName l) (bl_fontSize l).
  Definition rule_emphasized (p l : bline) : trool :=
    if line_emphasized p && line_emphasized l && str_eqb (bl_fontName p) (bl_fontName l) && equal (bl_fontSize p) (bl_fontSize l) (dZ 1)
    then TFalse else TNone.
  (** 683-791 *)
  Definition rule_hangingIndent (b : tblock) (p l : bline) : trool :=
    let hi := tb_hang b in
    if equalOrSmaller hi dzero TOL then TNone
    else if smaller (bl_left l) hi acw then TTrue
    else if equal (bl_left l) hi acw then
      (if larger (bl_left p) hi acw then (if offset_ok p l then TFalse else TTrue)
       else if computeHasPrevLineCapacity (Some p) l then TTrue else TFalse)
    else if larger (bl_left l) hi acw then
      (if larger (bl_left p) hi acw then (if offset_ok p l then TFalse else TTrue) else TTrue)
    else TFalse.
  (** 794-873, src/Config.h:565-567 *)
  Definition rule_indent (p l : bline) : trool :=
    let hi := dmul (dZ 6) acw in
    let aligned := equal (absd (computeLeftXOffset (bl_pos p) (bl_pos l))) dzero acw in
    if larger (bl_left l) hi TOL then (if aligned then TFalse else TTrue)
    else if larger (bl_left p) hi TOL then (if aligned then TFalse else TTrue)
    else if between (bl_left l) (dmul (dZ 1) acw) hi TOL then TTrue
    else if computeHasPrevLineCapacity (Some p) l then TTrue
    else TNone.

  (** The chains 179-244 and 247-305: the first rule that decides. *)
  Fixpoint decide (rules : list trool) : bool :=
    match rules with [] => false | TTrue :: _ => true | TFalse :: _ => false | TNone :: t => decide t end.
  Definition startsPreliminaryBlock (lh : lheap) (l : bline) : outcome bool :=
    match line_at lh (bl_prev l) with
    | None => Ok true
    | Some p =>
        do f <- rule_sameFigure p l ;
        Ok (decide [f; rule_rotation p l; rule_wMode p l; rule_fontSize p l; rule_lineDistance p l;
                    rule_increasedLineDistance (line_at lh (bl_prev p)) p l])
    end.
  Definition startsBlock (fuel : nat) (lh : lheap) (labels : list str) (b : tblock) (l : bline) : outcome bool :=
    match line_at lh (bl_prev l) with
    | None => Ok true
    | Some p =>
        match rule_centered lh b l with
        | TTrue => Ok true
        | TFalse => Ok false
        | TNone =>
            do i <- rule_item fuel lh labels b p l ;
            Ok (decide [i; rule_emphasized p l; rule_hangingIndent b p l; rule_indent p l])
        end
    end.

  (** ** process: src/TextBlocksDetection.cpp:75-176 *)
  Definition nonempty {A} (l : list A) : bool := match l with [] => false | _ :: _ => true end.
  (** 89-120: the lines of a segment *)
  Fixpoint prelim_lines (ls cur : list nat) (bs : list tblock) (lh : lheap) : outcome (list tblock * lheap) :=
    match ls with
    | [] => if nonempty cur then createTextBlock cur bs lh else Ok (bs, lh)
    | l :: t =>
        do s <- startsPreliminaryBlock lh (lh l) ;
        if s && nonempty cur then
          do ' (bs', lh') <- createTextBlock cur bs lh ; prelim_lines t [l] bs' lh'
        else prelim_lines t (cur ++ [l]) bs lh
    end.
  (** 86-122: per segment the preliminary blocks (segment->blocks, empty before) *)
  Fixpoint prelim_segments (segs : list (list nat)) (lh : lheap) : outcome (list (list tblock) * lheap) :=
    match segs with
    | [] => Ok ([], lh)
    | ls :: t =>
        do ' (bs, lh1) <- prelim_lines ls [] [] lh ;
        do ' (rest, lh2) <- prelim_segments t lh1 ;
        Ok (bs :: rest, lh2)
    end.
  Fixpoint prelim_pages (pages : list (list (list nat))) (lh : lheap) : outcome (list (list (list tblock)) * lheap) :=
    match pages with
    | [] => Ok ([], lh)
    | segs :: t =>
        do ' (bss, lh1) <- prelim_segments segs lh ;
        do ' (rest, lh2) <- prelim_pages t lh1 ;
        Ok (bss :: rest, lh2)
    end.
  (** 132-172: the lines of the preliminary block [b]; [bs]: page->blocks *)
  Fixpoint final_lines (fuel : nat) (b : tblock) (ls cur : list nat) (labels : list str) (bs : list tblock) (lh : lheap)
    : outcome (list tblock * list str * lheap) :=
    match ls with
    | [] => if nonempty cur then do ' (bs', lh') <- createTextBlock cur bs lh ; Ok (bs', labels, lh') else Ok (bs, labels, lh)
    | l :: t =>
        let labels := computePotentialFootnoteLabels (lh l) labels in
        do s <- startsBlock fuel lh labels b (lh l) ;
        if s && nonempty cur then
          do ' (bs', lh') <- createTextBlock cur bs lh ; final_lines fuel b t [l] labels bs' lh'
        else final_lines fuel b t (cur ++ [l]) labels bs lh
    end.
  Fixpoint final_blocks (fuel : nat) (pre : list tblock) (labels : list str) (bs : list tblock) (lh : lheap) : outcome (list tblock * list str * lheap) :=
    match pre with
    | [] => Ok (bs, labels, lh)
    | b :: t =>
        do ' (bs1, labels1, lh1) <- final_lines fuel b (tb_lines b) [] labels bs lh ;
        final_blocks fuel t labels1 bs1 lh1
    end.
  (** 128-175 *)
  Fixpoint final_pages (fuel : nat) (pages : list (list (list tblock))) (labels : list str) (lh : lheap) : outcome (list (list tblock) * lheap) :=
    match pages with
    | [] => Ok ([], lh)
    | segs :: t =>
        do ' (bs, labels1, lh1) <- final_blocks fuel (concat segs) labels [] lh ;
        do ' (rest, lh2) <- final_pages fuel t labels1 lh1 ;
        Ok (bs :: rest, lh2)
    end.
  (** The result: per page the blocks; and the lines. The segments' preliminary blocks are returned as well. *)
  Definition detectTextBlocks (fuel : nat) (pages : list (list (list nat))) (lh : lheap)
    : outcome (list (list (list tblock)) * list (list tblock) * lheap) :=
    do ' (pre, lh1) <- prelim_pages pages lh ;
    do ' (fin, lh2) <- final_pages fuel pre [] lh1 ;
    Ok (pre, fin, lh2).
End Blocks.
