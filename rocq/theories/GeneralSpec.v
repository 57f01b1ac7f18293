(** Points in general position. *)
From Verif Require Import Base Prog Geometry Spec RangeSpec WindSpec.

(** No three different points of the list are on one line. *)
Definition in_general_position (l : list point) : Prop :=
  forall a b c, In a l -> In b l -> In c l -> a <> b -> b <> c -> a <> c -> ~ collinear a b c.
(** Coordinates such that, of all points which can be drawn with them, three different points are
    on one line only if that line is vertical or horizontal. *)
Definition general_coordinates (xs : scalars) (ys : option scalars) : Prop :=
  forall a b c, drawable_point xs ys a -> drawable_point xs ys b -> drawable_point xs ys c ->
    a <> b -> b <> c -> a <> c -> collinear a b c -> (px a = px b /\ px b = px c) \/ (py a = py b /\ py b = py c).

(** Closed curves which do not meet themselves, have no straight angle and turn one way: the
    area to the left of a counterclockwise one is inside it, and outside a clockwise one. *)
Definition counterclockwise (vs : contour) : Prop := jordan vs /\ strict vs /\ (0 < signed_area vs)%Qc.
Definition clockwise (vs : contour) : Prop := jordan vs /\ strict vs /\ (signed_area vs < 0)%Qc.
(** A border counterclockwise, holes clockwise and nowhere outside the border. *)
Definition proper (p : polygon) : Prop :=
  counterclockwise (border p) /\ (forall vs, In vs (holes p) -> clockwise vs) /\
  (forall vs q, In vs (holes p) -> on_contour q vs -> within q (border p)).
(** Coordinates for mixes, where the coordinates along one axis are split among the components, and
    each component needs as many along the other axis: two strategies that raise nothing, or two
    samples of the same number of values, at least [n]. *)
Definition evenly_fed (xs : scalars) (ys : option scalars) (n : Z) : Prop :=
  (forall m, harmless xs m /\ harmless (ordinates xs ys) m) \/
  exists l l', xs = Sampled l /\ ordinates xs ys = Sampled l' /\ lenZ l = lenZ l' /\ (n <= lenZ l)%Z.
