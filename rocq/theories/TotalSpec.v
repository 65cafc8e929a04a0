(** TotalSpec.v - vocabulary for C72: ordinary documents. *)
From Coq Require Import ZArith NArith.
From Verif Require Import Base Double Elements GeometrySpec Document.
From Verif Require Parsing Cli.

(** A box with coordinates as the parser stores them, that reaches into the page: its right and lower edges are positive. *)
Definition on_page (p : position) : Prop :=
  parsed_coordinates p /\ dlt dzero (rightX p) = true /\ dlt dzero (lowerY p) = true.
(** A character of a document with [n] pages: on its page, and at least a tenth of a point high. *)
Definition ordinary_char (n : Z) (c : character) : Prop :=
  on_page (c_pos c) /\ dle (dec 1 1) (c_fontSize c) = true /\ (1 <= pageNum (c_pos c) <= n)%Z.
(** What the parser stored: fewer than 2^31 characters, all ordinary; figures, shapes (visible or not) and graphics with stored coordinates. *)
Definition ordinary (r : Parsing.parser) : Prop :=
  let ps := Parsing.pages r in
  (Z.of_nat (length (flat_map Parsing.pp_chars ps)) < 2 ^ 31)%Z /\
  forall q, In q ps ->
    (forall c, In c (Parsing.pp_chars q) -> ordinary_char (Z.of_nat (length ps)) c) /\
    (forall f, In f (Parsing.pp_figures q) -> stored_coordinates (Parsing.fg_pos f)) /\
    (forall e, In e (Parsing.pp_shapes q ++ Parsing.pp_graphics q) -> stored_coordinates (e_pos e)).
