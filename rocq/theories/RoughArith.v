(** Inexact arithmetic.  With floating-point coordinates sums and differences are rounded, and the
    predicates and centroids of the context, which are computed from them, may be wrong.  [arith]
    has no laws: every function of coordinates that /repo computes other than by comparing them is
    an arbitrary function.  Coordinates themselves remain (finite, rational) numbers, and comparing
    and sorting them remains exact, as it is for floats. *)
From Verif Require Import Base Geometry.

Class arith := Arith {
  (** [x + y], [x - y]: factories.py:226, 290-306, 322-337 *)
  radd : Qc -> Qc -> Qc;
  rsub : Qc -> Qc -> Qc;
  (** [Context.angle_orientation]: contracts.py:93-99, 143, factories.py:352, 362, 388, base.py:1279,
      subdivisional.py:146 *)
  angle_orientation : point -> point -> point -> orientation;
  (** [Context.locate_point_in_point_point_point_circle] compared with [Location.INTERIOR]:
      triangular.py:112, 140, 160 *)
  in_circle_interior : point -> point -> point -> point -> bool;
  (** [Context.multipoint_centroid], [Context.region_centroid]: factories.py:236, 252 *)
  multipoint_centroid : list point -> point;
  region_centroid : contour -> res point;
  (** [Context.segments_relation]: factories.py:175-178 *)
  segments_cross_or_overlap : segment -> segment -> bool;
  (** [bentley_ottmann.planar.segments_cross_or_overlap]: contracts.py:14, utils.py:112 *)
  some_segments_cross_or_overlap : list segment -> bool
}.
(** Exact arithmetic: the functions of Geometry.v. *)
Definition exact : arith :=
  Arith Qcplus Qcminus Geometry.angle_orientation Geometry.in_circle_interior Geometry.multipoint_centroid
    Geometry.region_centroid Geometry.segments_cross_or_overlap Geometry.some_segments_cross_or_overlap.

Declare Scope rough_scope.
Delimit Scope rough_scope with rough.
Notation "x + y" := (radd x y) : rough_scope.
Notation "x - y" := (rsub x y) : rough_scope.
