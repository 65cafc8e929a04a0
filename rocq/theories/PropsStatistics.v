(** PropsStatistics.v - property theorem C51 (document statistics). *)
From Coq Require Import ZArith NArith.
From Verif Require Import Base Double MathUtils Elements GeometrySpec UtilsSpec Counter Document LinesSpec Statistics StatisticsSpec StatisticsProofs.

(** ** C51 Document statistics reflect the document *)

(** Glyphs: for every document with fewer than 2^31 characters and every iteration order of the hash maps, the calculation
    succeeds; without characters nothing changes; otherwise the most frequent font name (font size) is the font name (size)
    of a character with maximal count, and the average character width and height are the averages up to 0.001. The other
    statistics are not touched. *)
Theorem C51_glyphs : forall ordS ordD, (forall m, Permutation m (ordS m)) -> (forall m, Permutation m (ordD m)) ->
  forall pages st, let cs := concat pages in (Z.of_nat (length cs) < 2 ^ 31)%Z ->
    exists st', glyphStatistics ordS ordD pages st = Ok st' /\
      (cs = [] -> st' = st) /\
      (cs <> [] -> most_frequent str_eqb (st_fontName st') (map c_fontName cs) /\
        ((forall c, In c cs -> is_nan_d (c_fontSize c) = false) -> most_frequent deq (st_fontSize st') (map c_fontSize cs)) /\
        average_of (st_charWidth st') (map (fun c => getWidth (c_pos c)) cs) /\
        average_of (st_charHeight st') (map (fun c => getHeight (c_pos c)) cs)) /\
      st_wordDist st' = st_wordDist st /\ st_estLineDist st' = st_estLineDist st /\ st_lineDist st' = st_lineDist st /\
      st_lineDistPer st' = st_lineDistPer st /\ st_wordHeight st' = st_wordHeight st.
Proof. exact glyphStatistics_ok. Qed.
Print Assumptions C51_glyphs.

(** Words: the most frequent word height is a most frequent height of the words that are not smaller than the text body; the
    word distance (estimated line distance) a most frequent gap of consecutive comparable words side by side (below each
    other); without such words the statistics keep their values. *)
Theorem C51_words : forall ordD, (forall m, Permutation m (ordD m)) -> forall pages st,
  exists st', wordStatistics ordD pages st = Ok st' /\
    frequent_or (st_wordHeight st') (st_wordHeight st) (word_heights (st_fontSize st) pages) /\
    frequent_or (st_wordDist st') (st_wordDist st) (word_gaps (st_fontSize st) pages) /\
    frequent_or (st_estLineDist st') (st_estLineDist st) (word_leadings (st_fontSize st) pages) /\
    st_charWidth st' = st_charWidth st /\ st_charHeight st' = st_charHeight st /\ st_fontSize st' = st_fontSize st /\
    st_fontName st' = st_fontName st /\ st_lineDist st' = st_lineDist st /\ st_lineDistPer st' = st_lineDistPer st.
Proof. exact wordStatistics_ok. Qed.
Print Assumptions C51_words.

(** Lines: the most frequent line distance is a most frequent distance of consecutive lines of a segment with the same rotation
    and writing mode; the map from font sizes to distances has one entry per font size of such lines (with equal font sizes),
    holding a most frequent distance of the lines with that font size. *)
Theorem C51_lines : forall ordD, (forall m, Permutation m (ordD m)) -> forall ordF, (forall m, Permutation m (ordF m)) ->
  forall pages st, let segs := concat pages in
    (forall e, In e (neighbours segs) -> is_nan_d (sn_fontSize (snd e)) = false) ->
    (N.of_nat (length (neighbours segs)) < 2 ^ 32)%N -> (forall d, In d (line_distances segs) -> is_nan_d d = false) ->
    st_lineDistPer st = [] ->
    exists st', lineStatistics ordD ordF pages st = Ok st' /\
      frequent_or (st_lineDist st') (st_lineDist st) (line_distances segs) /\
      ForallOrdPairs (fun a b => deq (fst a) (fst b) = false) (st_lineDistPer st') /\
      (forall fs d, In (fs, d) (st_lineDistPer st') -> most_frequent deq d (distances_at fs segs)) /\
      (forall e, In e (line_pairs segs) -> same_size e = true -> exists fs d, In (fs, d) (st_lineDistPer st') /\ deq fs (sn_fontSize (snd e)) = true) /\
      st_charWidth st' = st_charWidth st /\ st_charHeight st' = st_charHeight st /\ st_fontSize st' = st_fontSize st /\
      st_fontName st' = st_fontName st /\ st_wordDist st' = st_wordDist st /\ st_estLineDist st' = st_estLineDist st /\ st_wordHeight st' = st_wordHeight st.
Proof. exact lineStatistics_ok. Qed.
Print Assumptions C51_lines.

(** Non-vacuity: three characters, three words, four lines. *)
Definition st_pos (x y x' y' : Z) : position := mkPos 1 (dZ x) (dZ y) (dZ x') (dZ y') 0 0.
Definition st_ch (name : string) (size x : Z) : character :=
  mkChar 0 [] 0 (st_pos x 0 (x + 5) 10) (S_ "a") (S_ "a") [] (S_ name) (dZ size) (dzero, dzero, dzero) done dzero false false None None [].
Definition st_wd (x y : Z) : word := mkWord [] 0 (st_pos x y (x + 20) (y + 10)) (S_ "a") (S_ "Times") (dZ 10) [] None [] None None.
Definition st_ln (y fs : Z) : stline := mkStLine (st_pos 0 y 100 (y + 10)) (dZ fs) (dZ y) (dZ (y + 10)).
Definition same (o : outcome dstats) (p : dstats -> bool) : bool := match o with Ok s => p s | _ => false end.
Example C51_glyphs_example :
  same (glyphStatistics (fun m => m) (fun m => m) [[st_ch "A" 10 0; st_ch "B" 8 5]; [st_ch "B" 10 0]] stats_init)
    (fun s => str_eqb (st_fontName s) (S_ "B") && deq (st_fontSize s) (dZ 10) && deq (st_charWidth s) (dZ 5) && deq (st_charHeight s) (dZ 10)) = true.
Proof. vm_compute. reflexivity. Qed.
Example C51_words_example :
  same (wordStatistics (fun m => m) [[st_wd 0 0; st_wd 25 0; st_wd 50 0; st_wd 0 22]]
          (mkStats dzero dzero (dZ 10) [] dzero dzero dzero [] dzero))
    (fun s => deq (st_wordHeight s) (dZ 10) && deq (st_wordDist s) (dZ 5) && deq (st_estLineDist s) (dZ 12)) = true.
Proof. vm_compute. reflexivity. Qed.
Example C51_lines_example : let segs := [[st_ln 0 10; st_ln 12 10; st_ln 24 10; st_ln 40 8]] in
  same (lineStatistics (fun m => m) (fun m => m) [segs] stats_init)
    (fun s => deq (st_lineDist s) (dZ 2) && match st_lineDistPer s with [(a, b)] => deq a (dZ 10) && deq b (dZ 2) | _ => false end) = true /\
  forallb (fun e => negb (is_nan_d (sn_fontSize (snd e)))) (neighbours segs) = true /\ forallb (fun d => negb (is_nan_d d)) (line_distances segs) = true /\
  length (line_pairs segs) = 3.
Proof. vm_compute. repeat split. Qed.
