(** Statistics.v - src/GlyphsStatisticsCalculation.cpp, src/WordsStatisticsCalculation.cpp and
    src/TextLinesStatisticsCalculation.cpp: the statistics that the later modules use as thresholds. Logging is not modelled. *)
From Coq Require Import ZArith NArith.
From Verif Require Import Base Double MathUtils Elements Counter Document.

(** src/Types.h:1100-1131: the statistics of a document and their initial values. *)
Record dstats := mkStats {
  st_charWidth : double; st_charHeight : double; st_fontSize : double; st_fontName : str; st_wordDist : double;
  st_estLineDist : double; st_lineDist : double; st_lineDistPer : list (double * double); st_wordHeight : double }.
Definition stats_init : dstats := mkStats dzero dzero dzero [] dzero dzero dzero [] dzero.

(** What the text line statistics read of a line (src/Types.h:622-732). *)
Record stline := mkStLine { sn_pos : position; sn_fontSize : double; sn_baseUpper : double; sn_baseLower : double }.

Section Statistics.
  (** [ordS], [ordD], [ordF]: the iteration orders of the hash maps (arbitrary). *)
  Context (ordS : list (str * N) -> list (str * N)) (ordD : list (double * N) -> list (double * N)).
  Context (ordF : list (double * list (double * N)) -> list (double * list (double * N))).

  (** ** Glyphs: src/GlyphsStatisticsCalculation.cpp:46-95 *)
  (** 54-64: the counters, the sums and the number of glyphs *)
  Record gstate := mkG { g_sizes : list (double * N); g_names : list (str * N); g_widths : double; g_heights : double; g_num : Z }.
  Definition g_init : gstate := mkG [] [] dzero dzero 0.
  (** 68-72; numGlyphs is an int *)
  Definition g_char (s : gstate) (c : character) : outcome gstate :=
    if (g_num s =? 2 ^ 31 - 1)%Z then UB "signed integer overflow" else
    Ok (mkG (incr deq (c_fontSize c) (g_sizes s)) (incr str_eqb (c_fontName c) (g_names s))
            (dadd (g_widths s) (getWidth (c_pos c))) (dadd (g_heights s) (getHeight (c_pos c))) (g_num s + 1)).
  Fixpoint g_loop (s : gstate) (cs : list character) : outcome gstate :=
    match cs with [] => Ok s | c :: t => do s' <- g_char s c ; g_loop s' t end.
  (** 66-74 *)
  Fixpoint g_pages (s : gstate) (pages : list (list character)) : outcome gstate :=
    match pages with [] => Ok s | cs :: t => do s' <- g_loop s cs ; g_pages s' t end.
  (** 76-90 *)
  Definition glyphStatistics (pages : list (list character)) (st : dstats) : outcome dstats :=
    do s <- g_pages g_init pages ;
    if (g_num s =? 0)%Z then Ok st
    else
      do fs <- (if (0 <? sumCounts (ordD (g_sizes s)))%N then mostFreq dzero (ordD (g_sizes s)) else Ok dzero) ;
      do fn <- (if (0 <? sumCounts (ordS (g_names s)))%N then mostFreq ([] : str) (ordS (g_names s)) else Ok ([] : str)) ;
      Ok (mkStats (ddiv (g_widths s) (dZ (g_num s))) (ddiv (g_heights s) (dZ (g_num s))) fs fn (st_wordDist st) (st_estLineDist st)
                  (st_lineDist st) (st_lineDistPer st) (st_wordHeight st)).

  (** ** Words: src/WordsStatisticsCalculation.cpp:55-143; src/Config.h:77, 149, 155 *)
  Record wstate := mkW { ws_h : list (double * N); ws_v : list (double * N); ws_heights : list (double * N) }.
  (** 76-124: a word and its predecessor on the page; [mf]: doc->mostFreqFontSize *)
  Definition w_step (mf : double) (prev : option word) (w : word) (s : wstate) : wstate :=
    if smaller (w_fontSize w) mf (dZ 1) then s
    else
      let hs := incr deq (getHeight (w_pos w)) (ws_heights s) in
      match prev with
      | None => mkW (ws_h s) (ws_v s) hs
      | Some p =>
          if negb (rotation (w_pos p) =? rotation (w_pos w))%Z then mkW (ws_h s) (ws_v s) hs
          else if negb (wMode (w_pos p) =? wMode (w_pos w))%Z then mkW (ws_h s) (ws_v s) hs
          else if negb (equal (w_fontSize p) mf (dZ 1)) then mkW (ws_h s) (ws_v s) hs
          else
            let r := computeMaxYOverlapRatio (w_pos p) (w_pos w) in
            mkW (if equalOrLarger r (dec 5 1) TOL then incr deq (computeHorizontalGap (w_pos p) (w_pos w)) (ws_h s) else ws_h s)
                (if equalOrSmaller r dzero TOL then incr deq (computeVerticalGap (w_pos p) (w_pos w)) (ws_v s) else ws_v s) hs
      end.
  Fixpoint w_loop (mf : double) (prev : option word) (ws : list word) (s : wstate) : wstate :=
    match ws with [] => s | w :: t => w_loop mf (Some w) t (w_step mf prev w s) end.
  Definition w_pages (mf : double) (pages : list (list word)) (s : wstate) : wstate := fold_left (fun s ws => w_loop mf None ws s) pages s.
  (** 127-137 *)
  Definition set_freq (m : list (double * N)) (old : double) : outcome double :=
    if (0 <? sumCounts (ordD m))%N then mostFreq dzero (ordD m) else Ok old.
  Definition wordStatistics (pages : list (list word)) (st : dstats) : outcome dstats :=
    let s := w_pages (st_fontSize st) pages (mkW [] [] []) in
    do wh <- set_freq (ws_heights s) (st_wordHeight st) ;
    do wd <- set_freq (ws_h s) (st_wordDist st) ;
    do ld <- set_freq (ws_v s) (st_estLineDist st) ;
    Ok (mkStats (st_charWidth st) (st_charHeight st) (st_fontSize st) (st_fontName st) wd ld (st_lineDist st) (st_lineDistPer st) wh).

  (** ** Text lines: src/TextLinesStatisticsCalculation.cpp:53-125; src/Config.h:77, 93 *)
  Record lstate := mkLS { ls_all : list (double * N); ls_per : list (double * list (double * N)) }.
  (** lineDistanceCountersPerFontSize[fs][d]++ (98) *)
  Fixpoint incr_per (fs d : double) (m : list (double * list (double * N))) : list (double * list (double * N)) :=
    match m with
    | [] => [(fs, incr deq d [])]
    | (k, c) :: t => if deq k fs then (k, incr deq d c) :: t else (k, c) :: incr_per fs d t
    end.
  (** 90-91 *)
  Definition base_distance (p c : stline) : double := maximum dzero (dround (dsub (sn_baseUpper c) (sn_baseLower p)) 1).
  (** 71-99 *)
  Definition l_step (p c : stline) (s : lstate) : lstate :=
    if negb (rotation (sn_pos p) =? rotation (sn_pos c))%Z then s
    else if negb (wMode (sn_pos p) =? wMode (sn_pos c))%Z then s
    else
      let d := base_distance p c in
      mkLS (incr deq d (ls_all s))
           (if equal (sn_fontSize p) (sn_fontSize c) (dZ 1) then incr_per (sn_fontSize c) d (ls_per s) else ls_per s).
  (** 70-100: the lines of a segment *)
  Fixpoint l_loop (p : stline) (ls : list stline) (s : lstate) : lstate :=
    match ls with [] => s | c :: t => l_loop c t (l_step p c s) end.
  Definition l_segment (s : lstate) (ls : list stline) : lstate := match ls with [] => s | p :: t => l_loop p t s end.
  (** m[k] = d *)
  Fixpoint map_set (k d : double) (m : list (double * double)) : list (double * double) :=
    match m with
    | [] => [(k, d)]
    | (k', d') :: t => if deq k' k then (k', d) :: t else (k', d') :: map_set k d t
    end.
  (** 111-118 *)
  Fixpoint l_per (m : list (double * list (double * N))) (r : list (double * double)) : outcome (list (double * double)) :=
    match m with
    | [] => Ok r
    | (fs, c) :: t =>
        if (0 <? sumCounts (ordD c))%N then do d <- mostFreq dzero (ordD c) ; l_per t (map_set fs d r) else l_per t r
    end.
  (** 53-118; the segments of all pages in order *)
  Definition lineStatistics (pages : list (list (list stline))) (st : dstats) : outcome dstats :=
    let s := fold_left l_segment (concat pages) (mkLS [] []) in
    do ld <- set_freq (ls_all s) (st_lineDist st) ;
    do per <- l_per (ordF (ls_per s)) (st_lineDistPer st) ;
    Ok (mkStats (st_charWidth st) (st_charHeight st) (st_fontSize st) (st_fontName st) (st_wordDist st) (st_estLineDist st) ld per (st_wordHeight st)).
End Statistics.
