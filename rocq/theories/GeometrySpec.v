(** GeometrySpec.v - the vocabulary used in the statements of PropsGeometry.v. *)
From Coq Require Import ZArith.
From Verif Require Import Base Double DoubleFacts MathUtils Elements.

(** A value as the parser stores it: some coordinate of magnitude <= 10^8 rounded to one decimal
    (src/PdfParsing.cpp, src/Config.h:85). *)
Definition rounded1 (d : double) : Prop :=
  exists x, dle (dabs x) (dZ 100000000) = true /\ d = dround x 1.
Definition parsed_coordinates (p : position) : Prop :=
  rounded1 (leftX p) /\ rounded1 (upperY p) /\ rounded1 (rightX p) /\ rounded1 (lowerY p).
(** The same, but a coordinate may also be infinite: the parser stores the left and upper edges of shapes without a visible
    point as infinity (C44_invisible_refuted). *)
Definition stored1 (d : double) : Prop := rounded1 d \/ d = dinf.
Definition stored_coordinates (p : position) : Prop :=
  stored1 (leftX p) /\ stored1 (upperY p) /\ stored1 (rightX p) /\ stored1 (lowerY p).
(** The comparators of src/utils/Comparators.h. *)
Definition comparators : list (position -> position -> bool) :=
  [LeftXAsc; RightXDesc; UpperYAsc; RotLeftXAsc; RotLeftXDesc; RotLowerYAsc; RotLowerYDesc].
(** Finite end points, and a length that does not overflow. *)
Definition finite_interval (s e : double) : Prop :=
  is_fin s = true /\ is_fin e = true /\ is_fin (dsub (maximum s e) (minimum s e)) = true.
(** Rotation 0 or 1 (reading direction left-to-right or top-to-bottom). *)
Definition upright (p : position) : Prop := rotation p <> 2%Z /\ rotation p <> 3%Z.
(** All four coordinates are numbers. *)
Definition nn_pos (p : position) : Prop := nn (leftX p) /\ nn (upperY p) /\ nn (rightX p) /\ nn (lowerY p).
(** [p] lies within [b]. *)
Definition covers (b p : position) : Prop :=
  dle (leftX b) (leftX p) = true /\ dle (upperY b) (upperY p) = true /\
  dle (rightX p) (rightX b) = true /\ dle (lowerY p) (lowerY b) = true.
(** A box with parsed coordinates, rotation 0 or 1, and positive width and height. *)
Definition proper_box (p : position) : Prop :=
  parsed_coordinates p /\ upright p /\ dlt (leftX p) (rightX p) = true /\ dlt (upperY p) (lowerY p) = true.
