(** Vocabulary for multipolygons and mixes: coordinates along an axis, vertices, components. *)
From Verif Require Import Base Prog Geometry Contracts Strategies Spec.

Definition coordinate_along (a : axis) (p : point) : Qc := match a with AxisX => px p | AxisY => py p end.
(** All vertices of a polygon. *)
Definition vertices (p : polygon) : list point := border p ++ concat (holes p).
(** Some vertical or horizontal line has the points of [vs] on one side of it or on it, and
    those of [ws] on the other side or on it. *)
Definition split_by_line (vs ws : list point) : Prop :=
  exists (a : axis) (c : Qc),
    (forall p, In p vs -> (coordinate_along a p <= c)%Qc) /\ (forall q, In q ws -> (c <= coordinate_along a q)%Qc).
(** The same with no point of [ws] on the line. *)
Definition split_strictly (vs ws : list point) : Prop :=
  exists (a : axis) (c : Qc),
    (forall p, In p vs -> (coordinate_along a p <= c)%Qc) /\ (forall q, In q ws -> (c < coordinate_along a q)%Qc).
(** The point is strictly on one side of a vertical or horizontal line, all of [vs] on the
    other side of it or on it. *)
Definition aside (p : point) (vs : list point) : Prop := split_strictly [p] vs \/ split_strictly vs [p].

(** The elements of a component of a mix. *)
Definition elements {A} (c : part A) : list A :=
  match c with EmptyPart => [] | SinglePart a => [a] | MultiPart l => l end.
Definition nonempty {A} (c : part A) : Prop := c <> EmptyPart.
Definition ends (l : list segment) : list point := flat_map (fun s => [seg_start s; seg_end s]) l.
(** Sizes of the border, of the list of holes, of every hole. *)
Definition polygon_sizes (p : polygon) (min_border : Z) (max_border : option Z) (min_holes : Z) (max_holes : option Z)
  (min_hole : Z) (max_hole : option Z) : Prop :=
  size_ok (lenZ (border p)) min_border max_border /\ size_ok (lenZ (holes p)) min_holes max_holes /\
  (forall vs : contour, In vs (holes p) -> size_ok (lenZ vs) min_hole max_hole).
(** Segments of one draw are apart from each other, or they are edges of a contour that is not
    simple (see C20 and C24). *)
Definition one_draw (l : list segment) : Prop :=
  pairwise_apart l \/ exists vs rest, ~ simple vs /\ Permutation (contour_segments vs) (l ++ rest).
