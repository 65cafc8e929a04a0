(** ParsingSpec.v - the vocabulary of the statements of PropsParsing.v: what an event stream should leave in the document. *)
From Coq Require Import ZArith NArith.
From Verif Require Import Base Double MathUtils Elements Document Fonts CharMap Parsing ImagingSpec.
Open Scope Z_scope.

(** ** Facts about the events so far *)
Definition is_start (e : event) : bool := match e with StartPage _ _ => true | _ => false end.
Definition starts (past : list event) : list event := filter is_start past.
(** The font selected last (an update without a font deselects). *)
Definition select (cur : option pfont) (e : event) : option pfont := match e with UpdateFont s => s_font s | _ => cur end.
Definition selected (past : list event) : option pfont := fold_left select past None.
(** The name of a font, or its address if it has none. *)
Definition called (f : pfont) (n : str) : Prop :=
  g_name (pf_info f) = Some n \/ (g_name (pf_info f) = None /\ g_address (pf_info f) = n).
(** [f] is the first font of its name that was selected. *)
Definition first_called (past : list event) (n : str) (f : pfont) : Prop :=
  exists before s after, past = before ++ UpdateFont s :: after /\ s_font s = Some f /\ called f n /\
    forall s' f', In (UpdateFont s') before -> s_font s' = Some f' -> ~ called f' n.
(** The font whose properties the parser uses: the first one selected that has the name of the font selected last. *)
Definition font_in_use (past : list event) (f : pfont) : Prop :=
  exists cur n, selected past = Some cur /\ called cur n /\ first_called past n f.

(** ** Clip boxes *)
Definition within_tenth (a b : double) : bool := dle (dabs (dsub a b)) (dec 1 1).
Definition agree (a b : clip) : bool :=
  within_tenth (k_left a) (k_left b) && within_tenth (k_upper a) (k_upper b) &&
  within_tenth (k_right a) (k_right b) && within_tenth (k_lower a) (k_lower b).
Definition rounded (a b : clip) : Prop :=
  k_left b = dround (k_left a) 1 /\ k_upper b = dround (k_upper a) 1 /\
  k_right b = dround (k_right a) 1 /\ k_lower b = dround (k_lower a) 1.

(** ** The text of a drawing event *)
Definition glyph_name (s : gstate) (code : Z) (name : str) : Prop :=
  (exists f g w, s_font s = Some f /\ pf_kind f = Font8Bit g w /\ g code = Some name) \/
  ((forall f g w n, s_font s = Some f -> pf_kind f = Font8Bit g w -> g code <> Some n) /\ name = []).
(** First entry of the table of glyph names *)
Definition in_table (name : str) (u : N) (t : str) : Prop :=
  exists a b, charMapEntries = a ++ (name, (u, t)) :: b /\ ~ In name (map fst a).
Definition glyph_text (mapUnicode : option (N -> str)) (name : str) (u : option (list N)) (uLen : Z) (text : str) (us : list N) : Prop :=
  (uLen = 1 /\ exists c, in_table name c text /\ us = [c]) \/
  ((uLen <> 1 \/ forall c t, ~ in_table name c t) /\
   match u with
   | None => text = [] /\ us = []
   | Some l => (exists rest, l = us ++ rest) /\ Z.of_nat (length us) = Z.max uLen 0 /\
               text = match mapUnicode with Some m => concat (map m us) | None => [] end
   end).
(** A non-empty text of whitespace characters and non-breaking spaces only. *)
Definition blank (iswspace : N -> bool) (w : list N) : Prop := w <> [] /\ forall c, In c w -> iswspace c = true \/ c = 160%N.

(** ** Boxes of shapes and graphics *)
(** A coordinate of magnitude at most 10^8. *)
Definition moderate (d : double) : Prop := dle (dabs d) (dZ 100000000) = true.
Definition moderate_clip (k : clip) : Prop := moderate (k_left k) /\ moderate (k_upper k) /\ moderate (k_right k) /\ moderate (k_lower k).
(** A point lies inside the clip box, by more than a tenth. *)
Definition inside (k : clip) (x y : double) : Prop :=
  dlt (dadd (k_left k) (dec 1 1)) x = true /\ dlt (dadd (k_upper k) (dec 1 1)) y = true /\
  dlt x (dsub (k_right k) (dec 1 1)) = true /\ dlt y (dsub (k_lower k) (dec 1 1)) = true.
Definition in_box (b : position) (x y : double) : Prop :=
  dle (leftX b) x = true /\ dle x (rightX b) = true /\ dle (upperY b) y = true /\ dle y (lowerY b) = true.
Definition within_clip (k : clip) (b : position) : Prop :=
  dle (k_left k) (leftX b) = true /\ dle (k_upper k) (upperY b) = true /\
  dle (rightX b) (k_right k) = true /\ dle (lowerY b) (k_lower k) = true.
(** The points of the path, rounded to one decimal. *)
Definition path_point (s : gstate) (x y : double) : Prop :=
  exists sub x0 y0, In sub (s_path s) /\ In (x0, y0) sub /\ x = dround x0 1 /\ y = dround y0 1.
Definition numbers (s : gstate) : Prop :=
  forall sub x y, In sub (s_path s) -> In (x, y) sub -> is_nan_d x = false /\ is_nan_d y = false.
(** The box of a shape with a visible point: within the clip box, around all visible points, and - unless no visible point has
    a positive coordinate - the smallest such box. *)
Definition shape_box (s : gstate) (b : position) : Prop :=
  moderate_clip (s_clip s) -> numbers s ->
  forall k, rounded (s_clip s) k -> (exists x y, path_point s x y /\ inside k x y) ->
    within_clip k b /\
    (forall x y, path_point s x y -> inside k x y -> in_box b x y) /\
    (exists x y, path_point s x y /\ inside k x y /\ deq (leftX b) x = true) /\
    (exists x y, path_point s x y /\ inside k x y /\ deq (upperY b) y = true) /\
    ((exists x y, path_point s x y /\ inside k x y /\ dlt dzero x = true) ->
      exists x y, path_point s x y /\ inside k x y /\ deq (rightX b) x = true) /\
    ((exists x y, path_point s x y /\ inside k x y /\ dlt dzero y = true) ->
      exists x y, path_point s x y /\ inside k x y /\ deq (lowerY b) y = true).

(** The corners of an image: the translation of the matrix, and the translation plus the scale; rounded. *)
Definition image_corners (s : gstate) (x0 y0 x1 y1 : double) : Prop :=
  x0 = dround (mt4 (s_ctm s)) 1 /\ y0 = dround (mt5 (s_ctm s)) 1 /\
  x1 = dround (dadd x0 (mt0 (s_ctm s))) 1 /\ y1 = dround (dadd y0 (mt3 (s_ctm s))) 1.
Definition between_corners (a b x : double) : Prop :=
  (dle a x = true /\ dle x b = true) \/ (dle b x = true /\ dle x a = true).
(** The first corner lies inside the clip box to the left and above, the second one to the right and below. *)
Definition image_kept (k : clip) (x0 y0 x1 y1 : double) : Prop :=
  dlt (dadd (k_left k) (dec 1 1)) x0 = true /\ dlt (dadd (k_upper k) (dec 1 1)) y0 = true /\
  dlt x1 (dsub (k_right k) (dec 1 1)) = true /\ dlt y1 (dsub (k_lower k) (dec 1 1)) = true.
(** A graphic is stored exactly if [image_kept]; its box is the part of the image inside the clip box. *)
Definition graphic_box (s : gstate) (stored : option position) : Prop :=
  moderate_clip (s_clip s) ->
  forall k x0 y0 x1 y1, rounded (s_clip s) k -> image_corners s x0 y0 x1 y1 ->
    is_nan_d x0 = false -> is_nan_d y0 = false -> is_nan_d x1 = false -> is_nan_d y1 = false ->
    match stored with
    | None => ~ image_kept k x0 y0 x1 y1
    | Some b => image_kept k x0 y0 x1 y1 /\ within_clip k b /\
        forall x y, in_box b x y <->
          (between_corners x0 x1 x /\ between_corners y0 y1 y /\
           dle (k_left k) x = true /\ dle x (k_right k) = true /\ dle (k_upper k) y = true /\ dle y (k_lower k) = true)
    end.

(** The page an event of this kind starts *)
Definition started (e : event) (pg : ppage) : Prop :=
  exists num s, e = StartPage num s /\ pp_num pg = num /\ rounded (s_clip s) (pp_clip pg).

(** ** What an event adds to the document *)
Record entry := mkEntry { en_page : nat; en_clip : clip; en_item : item }.
Section Events.
  Context (parseFont : gfx_font -> outcome font) (mapUnicode : option (N -> str)) (from_bytes : str -> option (list N))
          (iswspace : N -> bool).

  (** [c]: the text, the looks and the place of the character drawn by the event *)
  Definition char_of (past : list event) (s : gstate) (code nBytes : Z) (name : str) (text : str) (us : list N) (c : character) : Prop :=
    c_text c = text /\ c_unicodes c = us /\ c_name c = name /\ c_opacity c = s_opacity s /\ c_color c = s_rgb s /\
    c_fontSize c = dround (s_tfs s) 1 /\
    (exists f i pf w, font_in_use past f /\ parseFont (pf_info f) = Ok i /\ c_fontName c = f_name i /\
       s_font s = Some pf /\ width_of pf code nBytes w /\ wMode (c_pos c) = pf_wMode pf /\
       turned s pf (rotation (c_pos c)) /\ char_box s i (pf_wMode pf) name w (c_pos c) (c_base c)) /\
    c_isSub c = false /\ c_isSuper c = false /\ c_markOf c = None /\ c_hasMark c = None.
  (** An element of the page started last, with the rounded clip box of the event. *)
  Definition here (past : list event) (s : gstate) (en : entry) : Prop :=
    S (en_page en) = length (starts past) /\ rounded (s_clip s) (en_clip en) /\
    exists num s0 l, starts past = l ++ [StartPage num s0] /\ pageNum (item_pos (en_item en)) = num.
  Definition adds (past : list event) (e : event) (part : list entry) : Prop :=
    match e with
    | StartPage _ _ | EndPage | UpdateFont _ => part = []
    | DrawChar s code nBytes u uLen =>
        (selected past = None -> part = []) /\
        (selected past <> None ->
          exists name text us w, glyph_name s code name /\ glyph_text mapUnicode name u uLen text us /\ from_bytes text = Some w /\
            (blank iswspace w -> part = []) /\
            (~ blank iswspace w -> exists c en, part = [en] /\ en_item en = IChar c /\ here past s en /\ char_of past s code nBytes name text us c))
    | Stroke s | Fill s => exists sh en, part = [en] /\ en_item en = IShape sh /\ here past s en /\ shape_box s (e_pos sh)
    | DrawImage s => (part = [] /\ graphic_box s None) \/
        exists g en, part = [en] /\ en_item en = IGraphic g /\ here past s en /\ graphic_box s (Some (e_pos g))
    end.
End Events.

(** ** Where the elements are *)
(** The three vectors hold the given items, in this order. *)
Definition holds (items : list item) (cs : list character) (ss gs : list elem) : Prop :=
  cs = flat_map (fun i => match i with IChar c => [c] | _ => [] end) items /\
  ss = flat_map (fun i => match i with IShape e => [e] | _ => [] end) items /\
  gs = flat_map (fun i => match i with IGraphic e => [e] | _ => [] end) items.
(** The items of page [j] whose clip box agrees with [k] and with none of [ks]. *)
Definition items_at (j : nat) (ks : list clip) (k : clip) (log : list entry) : list item :=
  map en_item (filter (fun en => Nat.eqb (en_page en) j && agree (en_clip en) k && negb (existsb (agree (en_clip en)) ks)) log).
(** Page [j] holds what [log] says: on the page itself what agrees with its clip box, in each figure what agrees with its clip
    box and with no earlier one; nothing else. *)
Definition page_holds (j : nat) (pg : ppage) (log : list entry) : Prop :=
  holds (items_at j [] (pp_clip pg) log) (pp_chars pg) (pp_shapes pg) (pp_graphics pg) /\
  (forall m f, nth_error (pp_figures pg) m = Some f ->
     holds (items_at j (pp_clip pg :: map fg_clip (firstn m (pp_figures pg))) (fg_clip f) log) (fg_chars f) (fg_shapes f) (fg_graphics f)) /\
  (forall en, In en log -> en_page en = j -> agree (en_clip en) (pp_clip pg) = true \/
     exists f, In f (pp_figures pg) /\ agree (en_clip en) (fg_clip f) = true).
(** Everything the document holds. *)
Definition doc_chars (l : list ppage) : list character := flat_map (fun p => pp_chars p ++ flat_map fg_chars (pp_figures p)) l.
Definition doc_shapes (l : list ppage) : list elem := flat_map (fun p => pp_shapes p ++ flat_map fg_shapes (pp_figures p)) l.
Definition doc_graphics (l : list ppage) : list elem := flat_map (fun p => pp_graphics p ++ flat_map fg_graphics (pp_figures p)) l.

(** [b] is the smallest box around the boxes [l]. *)
Definition smallest_around (b : position) (l : list position) : Prop :=
  (forall p, In p l -> dle (leftX b) (leftX p) = true /\ dle (upperY b) (upperY p) = true /\
                       dle (rightX p) (rightX b) = true /\ dle (lowerY p) (lowerY b) = true) /\
  (exists p, In p l /\ leftX p = leftX b) /\ (exists p, In p l /\ upperY p = upperY b) /\
  (exists p, In p l /\ rightX p = rightX b) /\ (exists p, In p l /\ lowerY p = lowerY b).

(** ** Conditions on the events *)
Definition state_of (e : event) : option gstate :=
  match e with
  | StartPage _ s | UpdateFont s | DrawChar s _ _ _ _ | Stroke s | Fill s | DrawImage s => Some s
  | EndPage => None
  end.
(** The clip boxes of all events are finite once rounded. *)
Definition finite_clip (k : clip) : Prop :=
  is_fin (dround (k_left k) 1) = true /\ is_fin (dround (k_upper k) 1) = true /\
  is_fin (dround (k_right k) 1) = true /\ is_fin (dround (k_lower k) 1) = true.
Definition finite_clips (es : list event) : Prop := forall e s, In e es -> state_of e = Some s -> finite_clip (s_clip s).

(** The figures of page [j]: each one was created by the first of its elements (whose clip box it has), its clip box agrees
    neither with that of the page nor with that of an earlier figure, and its box is the smallest one around its elements (as
    far as their coordinates are numbers). *)
Definition no_nan (p : position) : Prop :=
  is_nan_d (leftX p) = false /\ is_nan_d (upperY p) = false /\ is_nan_d (rightX p) = false /\ is_nan_d (lowerY p) = false.
Definition entries_at (j : nat) (ks : list clip) (k : clip) (log : list entry) : list entry :=
  filter (fun en => Nat.eqb (en_page en) j && agree (en_clip en) k && negb (existsb (agree (en_clip en)) ks)) log.
Definition figures_created (j : nat) (pg : ppage) (log : list entry) : Prop :=
  forall m f, nth_error (pp_figures pg) m = Some f ->
    let ks := pp_clip pg :: map fg_clip (firstn m (pp_figures pg)) in
    existsb (agree (fg_clip f)) ks = false /\ pageNum (fg_pos f) = pp_num pg /\
    exists en rest, entries_at j ks (fg_clip f) log = en :: rest /\ en_clip en = fg_clip f /\
      ((forall e, In e (en :: rest) -> no_nan (item_pos (en_item e))) ->
       smallest_around (fg_pos f) (map (fun e => item_pos (en_item e)) (en :: rest))).

(** ** What the parser may rely on *)
Definition draws (e : event) : bool := match e with DrawChar _ _ _ _ _ | Stroke _ | Fill _ | DrawImage _ => true | _ => false end.
Section Orderly.
  Context (parseFont : gfx_font -> outcome font) (mapUnicode : option (N -> str)) (from_bytes : str -> option (list N)).
  (** Nothing is drawn before the first page starts; fonts can be parsed; a character that is drawn while a font is selected has
      a font, a code of at most four bytes, as many code points as announced and a text that is valid UTF-8. *)
  Definition orderly (es : list event) : Prop :=
    Z.of_nat (length es) < 2 ^ 31 /\
    (forall past e rest, es = past ++ e :: rest -> draws e = true -> starts past <> []) /\
    (forall s f, In (UpdateFont s) es -> s_font s = Some f -> exists i, parseFont (pf_info f) = Ok i) /\
    (forall past s code nBytes u uLen rest, es = past ++ DrawChar s code nBytes u uLen :: rest -> selected past <> None ->
       s_font s <> None /\ nBytes <= 4 /\ (forall l, u = Some l -> uLen <= Z.of_nat (length l)) /\
       forall name text us, glyph_name s code name -> glyph_text mapUnicode name u uLen text us -> from_bytes text <> None).
End Orderly.

(** ** UTF-8 *)
Definition utf8 (c : N) : list N :=
  (if c <? 0x80 then [c]
   else if c <? 0x800 then [0xC0 + c / 0x40; 0x80 + c mod 0x40]
   else if c <? 0x10000 then [0xE0 + c / 0x1000; 0x80 + c / 0x40 mod 0x40; 0x80 + c mod 0x40]
   else [0xF0 + c / 0x40000; 0x80 + c / 0x1000 mod 0x40; 0x80 + c / 0x40 mod 0x40; 0x80 + c mod 0x40])%N.
