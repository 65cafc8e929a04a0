(** Roles.v - src/SemanticRolesPrediction.cpp: reading the vocabularies, the input tensors of the model, and turning the
    output of the model into semantic roles. Not modelled: the neural network itself (cppflow::model, an arbitrary function
    of the two tensors) and loading it from disk. *)
From Coq Require Import ZArith NArith.
From Verif Require Import Base Double Float Bpe Elements.

(** ** readModel: src/SemanticRolesPrediction.cpp:57-127 *)

(** std::stoi: src/SemanticRolesPrediction.cpp:100, 121. White space, an optional sign, decimal digits; the rest is ignored.
    (std::stoi is a C++ standard library function; modelled by its documented behaviour.) *)
Definition is_space (c : N) : bool := ((9 <=? c) && (c <=? 13))%N || (c =? 32)%N.
Definition is_digit (c : N) : bool := ((48 <=? c) && (c <=? 57))%N.
Fixpoint skip_spaces (s : wstr) : wstr := match s with c :: t => if is_space c then skip_spaces t else s | [] => [] end.
Fixpoint take_digits (s : wstr) : wstr := match s with c :: t => if is_digit c then c :: take_digits t else [] | [] => [] end.
Definition digits_value (s : wstr) : Z := fold_left (fun a c => (10 * a + (Z.of_N c - 48))%Z) s 0%Z.
Definition stoi (s : wstr) : outcome Z :=
  let s := skip_spaces s in
  let '(sign, s) := match s with
                    | 45%N :: t => ((-1)%Z, t)
                    | 43%N :: t => (1%Z, t)
                    | _ => (1%Z, s)
                    end in
  match take_digits s with
  | [] => Throw "invalid_argument"
  | ds => let v := (sign * digits_value ds)%Z in
          if ((- 2 ^ 31 <=? v) && (v <? 2 ^ 31))%Z then Ok v else Throw "out_of_range"
  end.

(** The content of a vocabulary file as the stream delivers it: [None] if the file can't be opened; otherwise the characters
    up to the first undecodable byte sequence (or read error) and whether there is none. *)
Definition file := option (wstr * bool).

(** std::getline (91, 113): the characters up to the next newline and the rest behind it. *)
Fixpoint getline (s : wstr) : option (wstr * wstr) :=
  match s with
  | [] => None
  | c :: t => if (c =? 10)%N then Some ([], t)
              else match getline t with Some (l, r) => Some (c :: l, r) | None => None end
  end.
(** wstring::find(L"\t") and the two substrings (97-100, 117-121). *)
Fixpoint split_tab (s : wstr) : option (wstr * wstr) :=
  match s with
  | [] => None
  | c :: t => if (c =? 9)%N then Some ([], t)
              else match split_tab t with Some (l, r) => Some (c :: l, r) | None => None end
  end.
Section ReadTable.
  Context {M : Type} (add : wstr -> Z -> M -> M).
  (** src/SemanticRolesPrediction.cpp:97-101, 117-122: one line. *)
  Definition read_line (line : wstr) (m : M) : outcome M :=
    match split_tab line with
    | None => Ok m
    | Some (token, num) => do z <- stoi num ; Ok (add token z m)
    end.
  (** src/SemanticRolesPrediction.cpp:90-102, 112-123: the loop. At the end of a readable file getline sets eofbit and the loop
      ends, without looking at the characters behind the last newline. After a read error the stream is bad but not at its
      end, every further getline fails immediately and leaves [line] as it is: the loop goes on with the same line. *)
  Fixpoint read_loop (fuel : nat) (s : wstr) (good : bool) (stuck : option wstr) (m : M) : option (outcome unit * M) :=
    match fuel with
    | 0 => None
    | S fuel =>
        let '(line, s', stuck') :=
          match stuck with
          | Some l => (Some l, s, stuck)
          | None => match getline s with
                    | Some (l, r) => (Some l, r, None)
                    | None => if good then (None, s, None) else (Some s, [], Some s)
                    end
          end in
        match line with
        | None => Some (Ok tt, m)
        | Some l => match read_line l m with
                    | Ok m' => read_loop fuel s' good stuck' m'
                    | Throw w => Some (Throw w, m)
                    | UB w => Some (UB w, m)
                    end
        end
    end.
End ReadTable.

(** unordered_map::insert keeps an existing entry (101); operator[] overwrites it (122). *)
Definition insert_token (token : wstr) (z : Z) (m : vocabulary) : vocabulary :=
  match lookup token m with Some _ => m | None => assign token z m end.
Fixpoint assign_role (z : Z) (role : wstr) (m : list (Z * wstr)) : list (Z * wstr) :=
  match m with
  | [] => [(z, role)]
  | (k, r) :: t => if (k =? z)%Z then (k, role) :: t else (k, r) :: assign_role z role t
  end.

(** The state of a SemanticRolesPrediction object. *)
Record predictor := mkPredictor { p_modelOk : bool; p_bpeVocab : vocabulary; p_rolesVocab : list (Z * wstr) }.
Definition new_predictor : predictor := mkPredictor false [] [].

(** src/SemanticRolesPrediction.cpp:57-127. The new state of the object together with the result: the object keeps what
    was read before an exception ([_modelOk] is set before the files are opened, line 72). *)
Definition readModel (fuel : nat) (bpe roles : file) (p : predictor) : option (outcome unit * predictor) :=
  let p := mkPredictor true (p_bpeVocab p) (p_rolesVocab p) in                                     (* 72 *)
  match bpe with
  | None => Some (Throw "invalid_argument", p)                                                     (* 80-82 *)
  | Some (s, good) =>
      match read_loop insert_token fuel s good None (p_bpeVocab p) with
      | None => None
      | Some (o, v) =>
          let p := mkPredictor true v (p_rolesVocab p) in
          match o, roles with
          | Ok _, None => Some (Throw "invalid_argument", p)                                       (* 108-110 *)
          | Ok _, Some (s, good) =>
              match read_loop (fun t z m => assign_role z t m) fuel s good None (p_rolesVocab p) with
              | None => None
              | Some (o, r) => Some (o, mkPredictor true v r)
              end
          | _, _ => Some (o, p)
          end
      end
  end.

(** ** The parts of the document the prediction reads *)
Record rblock := mkRBlock { rb_pos : position; rb_text : str; rb_fontName : str; rb_fontSize : double; rb_words : list str }.
(** The clip box of the page and its blocks. *)
Record rpage := mkRPage { rp_leftX : double; rp_upperY : double; rp_rightX : double; rp_lowerY : double; rp_blocks : list rblock }.
(** src/Types.cpp:569-576 *)
Definition rp_width (p : rpage) : double := dsub (rp_rightX p) (rp_leftX p).
Definition rp_height (p : rpage) : double := dsub (rp_lowerY p) (rp_upperY p).

Section Predict.
  (** [wstring_convert::from_bytes]: UTF-8 to UTF-16 code units; [None] if it throws std::range_error. *)
  Context (from_bytes : str -> option wstr).
  (** [doc->fontInfos]: font weight and italic flag of a font. *)
  Context (fontInfos : str -> option (Z * bool)).

  Definition convert (s : str) : outcome wstr := match from_bytes s with Some w => Ok w | None => Throw "range_error" end.
  Definition fontInfo_at (name : str) : outcome (Z * bool) :=
    match fontInfos name with Some i => Ok i | None => Throw "out_of_range" end.

  (** The classification functions of <cwctype>: the program never calls setlocale, so the "C" locale is in force. *)
  Definition iswdigit (c : N) : bool := is_digit c.
  Definition iswupper (c : N) : bool := ((65 <=? c) && (c <=? 90))%N.
  Definition iswspace (c : N) : bool := is_space c.
  Definition iswpunct (c : N) : bool :=
    ((33 <=? c) && (c <=? 47) || (58 <=? c) && (c <=? 64) || (91 <=? c) && (c <=? 96) || (123 <=? c) && (c <=? 126))%N.
  (** static_cast<unsigned char>(c) > 127 (289) *)
  Definition high_byte (c : N) : bool := (127 <? c mod 256)%N.
  (** isupper of <cctype> (342): undefined unless the argument is representable as unsigned char. *)
  Definition isupper (c : N) : outcome bool := if (c <? 256)%N then Ok (iswupper c) else UB "isupper".

  Definition count (p : N -> bool) (s : wstr) : Z := Z.of_nat (length (filter p s)).
  Definition flag (b : bool) : float := if b then fone else fzero.
  (** static_cast<float>(num) / static_cast<float>(den) if den > 0 (305-330, 348-363) *)
  Definition share (num den : Z) : float := if (0 <? den)%Z then fdiv (fZ num) (fZ den) else fzero.

  (** src/SemanticRolesPrediction.cpp:176-191 *)
  Definition minmax_step (acc : float * float) (b : rblock) : float * float :=
    let '(mn, mx) := acc in
    let mx := if dgt (rb_fontSize b) (to_double mx) then to_float (rb_fontSize b) else mx in
    let mn := if dlt (rb_fontSize b) (to_double mn) then to_float (rb_fontSize b) else mn in
    (mn, mx).
  Definition font_size_range (pages : list rpage) : float * float :=
    fold_left minmax_step (concat (map rp_blocks pages)) (FLT_MAX, FLT_MIN).

  (** src/SemanticRolesPrediction.cpp:335-347: the number of words and of words with an upper-case first character. *)
  Fixpoint count_upper_words (ws : list str) : outcome (Z * Z) :=
    match ws with
    | [] => Ok (0, 0)%Z
    | w :: t =>
        do wt <- convert w ;
        do u <- match wt with c :: _ => isupper c | [] => Ok false end ;
        do ' (n, m) <- count_upper_words t ;
        Ok ((n + 1)%Z, if u then (m + 1)%Z else m)
    end.

  (** src/SemanticRolesPrediction.cpp:220-236: [coord / extent] if the extent is positive. *)
  Definition normalised (coord : float) (extent : double) : float :=
    to_float (if dgt extent dzero then ddiv (to_double coord) extent else dzero).

  (** src/SemanticRolesPrediction.cpp:199-364: the 15 features of a block. *)
  Definition block_features (numPages : Z) (range : float * float) (p : rpage) (b : rblock) : outcome (list float) :=
    let '(mn, mx) := range in
    do ' (weight, italic) <- fontInfo_at (rb_fontName b) ;                                          (* 201 *)
    do text <- convert (rb_text b) ;                                                                (* 204 *)
    let pn := if (1 <? numPages)%Z then fdiv (fZ (pageNum (rb_pos b) - 1)) (fZ (numPages - 1)) else fzero in (* 209-214 *)
    let x1 := normalised (to_float (leftX (rb_pos b))) (rp_width p) in                           (* 220-221 *)
    let y1 := normalised (to_float (dsub (rp_height p) (lowerY (rb_pos b)))) (rp_height p) in   (* 225-226 *)
    let x2 := normalised (to_float (rightX (rb_pos b))) (rp_width p) in                         (* 229-230 *)
    let y2 := normalised (to_float (dsub (rp_height p) (upperY (rb_pos b)))) (rp_height p) in   (* 234-235 *)
    let fs := if flt mn mx
              then to_float (ddiv (dsub (rb_fontSize b) (to_double mn)) (to_double (fsub mx mn))) else fzero in (* 240-246 *)
    let nws := count (fun c => negb (iswspace c)) text in                                           (* 274-300 *)
    do ' (numWords, numUpper) <- count_upper_words (rb_words b) ;                                   (* 335-347 *)
    Ok [ pn; x1; y1; x2; y2; fs;
         flag (500 <? weight)%Z; flag italic;                                                       (* 253, 259 *)
         flag (existsb (N.eqb 64) text);                                                            (* 265 *)
         flag (match text with c :: _ => iswdigit c | [] => false end);                             (* 271 *)
         share (count iswdigit text) nws; share (count high_byte text) nws; share (count iswpunct text) nws;
         share numUpper numWords; share (count iswupper text) nws ].

  (** Runs [f] on every block, page by page, and concatenates the results (199-365, 388-400). *)
  Fixpoint concat_outcomes {A} (l : list (outcome (list A))) : outcome (list A) :=
    match l with
    | [] => Ok []
    | o :: t => do x <- o ; do r <- concat_outcomes t ; Ok (x ++ r)
    end.
  (** src/SemanticRolesPrediction.cpp:171-369: values and shape. The number of blocks fits an int (not checked). *)
  Definition layout_tensor (pages : list rpage) : outcome (list float * (Z * Z)) :=
    let range := font_size_range pages in
    do vs <- concat_outcomes (concat (map (fun p => map (block_features (Z.of_nat (length pages)) range p) (rp_blocks p)) pages)) ;
    Ok (vs, (Z.of_nat (length (concat (map rp_blocks pages))), 15%Z)).

  (** src/SemanticRolesPrediction.cpp:372-404. The encoder lives for the whole call: its cache is passed on. *)
  Fixpoint words_loop (e : encoder) (bs : list rblock) : option (outcome (list Z)) :=
    match bs with
    | [] => Some (Ok [])
    | b :: t =>
        match convert (rb_text b) with
        | Throw w => Some (Throw w)
        | UB w => Some (UB w)
        | Ok text =>
            match encode e text 100 [] with
            | None => None
            | Some (Throw w) => Some (Throw w)
            | Some (UB w) => Some (UB w)
            | Some (Ok (enc, e')) =>
                match words_loop e' t with
                | Some (Ok r) => Some (Ok (firstn 100 enc ++ r))
                | x => x
                end
            end
        end
    end.
  Definition words_tensor (voc : vocabulary) (pages : list rpage) : option (outcome (list Z * (Z * Z))) :=
    let bs := concat (map rp_blocks pages) in
    match words_loop (make_encoder voc) bs with
    | Some (Ok vs) => Some (Ok (vs, (Z.of_nat (length bs), 100%Z)))
    | Some (Throw w) => Some (Throw w)
    | Some (UB w) => Some (UB w)
    | None => None
    end.

  (** src/SemanticRolesPrediction.cpp:156-163: the loop over the role numbers; [base] is [blockIndex * yDim]. *)
  Fixpoint best_loop (data : list float) (base : nat) (n : nat) (roleNum : nat) (best : float * nat) : outcome nat :=
    match n with
    | 0 => Ok (snd best)
    | S n =>
        match nth_error data (base + roleNum) with
        | None => UB "vector index out of range"
        | Some v => best_loop data base n (S roleNum) (if fgt v (fst best) then (v, roleNum) else best)
        end
    end.
  (** src/SemanticRolesPrediction.cpp:152-167: the roles (as numbers) of the blocks [blockIndex], [blockIndex]+1, ... *)
  Fixpoint assign_roles (data : list float) (yDim : nat) (blocks blockIndex : nat) : outcome (list nat) :=
    match blocks with
    | 0 => Ok []
    | S n =>
        do r <- best_loop data (blockIndex * yDim) yDim 0 (fzero, 0) ;
        do rs <- assign_roles data yDim n (S blockIndex) ;
        Ok (r :: rs)
    end.

  (** The neural network: output data and the second dimension of its shape. *)
  Context (network : list float * (Z * Z) -> list Z * (Z * Z) -> list float * nat).

  (** src/SemanticRolesPrediction.cpp:130-168: the roles of the blocks in document order, and the new state of the object. *)
  Definition predict (fuel : nat) (bpe roles : file) (p : predictor) (pages : list rpage) : option (outcome (list nat) * predictor) :=
    match (if p_modelOk p then Some (Ok tt, p) else readModel fuel bpe roles p) with
    | None => None
    | Some (Throw w, p) => Some (Throw w, p)
    | Some (UB w, p) => Some (UB w, p)
    | Some (Ok _, p) =>
        match layout_tensor pages with
        | Throw w => Some (Throw w, p)
        | UB w => Some (UB w, p)
        | Ok layout =>
            match words_tensor (p_bpeVocab p) pages with
            | None => None
            | Some (Throw w) => Some (Throw w, p)
            | Some (UB w) => Some (UB w, p)
            | Some (Ok words) =>
                let '(data, yDim) := network layout words in
                Some (assign_roles data yDim (length (concat (map rp_blocks pages))) 0, p)
            end
        end
    end.
End Predict.
