(** The definitions of Planar.v that depend on arithmetic, word for word except that the arithmetic is
    that of [ar].  The others ([points], [segments], [boxes], [multipoints], [rectangular_contours])
    do not. *)
From Verif Require Import Base Prog Geometry Ctx Utils Strategies Planar RoughArith RoughStrategies.

Section Rough.
Context {ar : arith}.
Open Scope string_scope.
Open Scope Z_scope.
(** planar.py:330-437 *)
Definition multisegments (ctx : context) (xs : scalars) (ys : option scalars) (min_size : Z)
  (max_size : option Z) : call (list segment) :=
  let* w := validate_sizes min_size max_size MIN_MULTISEGMENT_SIZE "min_size" in
  Ok (w, to_multisegment_strategy ctx xs ys (Z.max min_size MIN_MULTISEGMENT_SIZE) max_size).
(** planar.py:440-539 *)
Definition contours (ctx : context) (xs : scalars) (ys : option scalars) (min_size : Z)
  (max_size : option Z) : call contour :=
  let* w := validate_sizes min_size max_size MIN_CONTOUR_SIZE "min_size" in
  Ok (w, to_vertex_sequence_strategy ctx xs ys (Z.max min_size MIN_CONTOUR_SIZE) max_size).
(** planar.py:542-645 *)
Definition convex_contours (ctx : context) (xs : scalars) (ys : option scalars) (min_size : Z)
  (max_size : option Z) : call contour :=
  let* w := validate_sizes min_size max_size CONVEX "min_size" in
  Ok (w, to_convex_vertex_sequence_strategy ctx xs ys (Z.max min_size CONVEX) max_size).
(** planar.py:648-749 *)
Definition concave_contours (ctx : context) (xs : scalars) (ys : option scalars) (min_size : Z)
  (max_size : option Z) : call contour :=
  let* w := validate_sizes min_size max_size CONCAVE "min_size" in
  Ok (w, to_concave_vertex_sequence_strategy ctx xs ys (Z.max min_size CONCAVE) max_size).
(** planar.py:752-835 *)
Definition triangular_contours (xs : scalars) (ys : option scalars) : call contour :=
  Ok ([], to_triangular_vertex_sequence_strategy xs ys).
(** planar.py:1008-1110 *)
Definition star_contours (ctx : context) (xs : scalars) (ys : option scalars) (min_size : Z)
  (max_size : option Z) : call contour :=
  let* w := validate_sizes min_size max_size MIN_CONTOUR_SIZE "min_size" in
  Ok (w, to_star_vertex_sequence_strategy ctx xs ys (Z.max min_size MIN_CONTOUR_SIZE) max_size).
(** planar.py:1113-1256 *)
Definition multicontours (ctx : context) (xs : scalars) (ys : option scalars) (min_size : Z)
  (max_size : option Z) (min_contour_size : Z) (max_contour_size : option Z)
  : call (list contour) :=
  let* w1 := validate_sizes min_size max_size MIN_MULTICONTOUR_SIZE "min_size" in
  let* w2 := validate_sizes min_contour_size max_contour_size MIN_CONTOUR_SIZE "min_contour_size" in
  Ok ((w1 ++ w2)%list,
      to_multicontour_strategy ctx xs ys (Z.max min_size MIN_MULTICONTOUR_SIZE) max_size
        (Z.max min_contour_size MIN_CONTOUR_SIZE) max_contour_size).
(** planar.py:1259-1438 *)
Definition polygons (ctx : context) (xs : scalars) (ys : option scalars) (min_size : Z)
  (max_size : option Z) (min_holes_size : Z) (max_holes_size : option Z) (min_hole_size : Z)
  (max_hole_size : option Z) : call polygon :=
  let* w1 := validate_sizes min_size max_size MIN_CONTOUR_SIZE "min_size" in
  let* w2 := validate_sizes min_holes_size max_holes_size 0 "min_holes_size" in
  let* w3 := validate_sizes min_hole_size max_hole_size MIN_CONTOUR_SIZE "min_hole_size" in
  Ok ((w1 ++ w2 ++ w3)%list,
      to_polygon_strategy ctx xs ys (Z.max min_size MIN_CONTOUR_SIZE) max_size
        (Z.max min_holes_size 0) max_holes_size (Z.max min_hole_size MIN_CONTOUR_SIZE) max_hole_size).
(** planar.py:1441-1658; [min_holes_size] is passed on as it is (line 1653) *)
Definition multipolygons (ctx : context) (xs : scalars) (ys : option scalars) (min_size : Z)
  (max_size : option Z) (min_border_size : Z) (max_border_size : option Z) (min_holes_size : Z)
  (max_holes_size : option Z) (min_hole_size : Z) (max_hole_size : option Z)
  : call (list polygon) :=
  let* w1 := validate_sizes min_size max_size MIN_MULTIPOLYGON_SIZE "min_size" in
  let* w2 := validate_sizes min_border_size max_border_size MIN_CONTOUR_SIZE "min_border_size" in
  let* w3 := validate_sizes min_holes_size max_holes_size 0 "min_holes_size" in
  let* w4 := validate_sizes min_hole_size max_hole_size MIN_CONTOUR_SIZE "min_hole_size" in
  Ok ((w1 ++ w2 ++ w3 ++ w4)%list,
      to_multipolygon_strategy ctx xs ys (Z.max min_size MIN_MULTIPOLYGON_SIZE) max_size
        (Z.max min_border_size MIN_CONTOUR_SIZE) max_border_size min_holes_size max_holes_size
        (Z.max min_hole_size MIN_CONTOUR_SIZE) max_hole_size).
(** planar.py:1661-2178 [mixes] *)
Definition mixes (ctx : context) (xs : scalars) (ys : option scalars)
  (min_points_size : Z) (max_points_size : option Z)
  (min_segments_size : Z) (max_segments_size : option Z)
  (min_polygons_size : Z) (max_polygons_size : option Z)
  (min_polygon_border_size : Z) (max_polygon_border_size : option Z)
  (min_polygon_holes_size : Z) (max_polygon_holes_size : option Z)
  (min_polygon_hole_size : Z) (max_polygon_hole_size : option Z) : call mix :=
  let* w1 := validate_sizes min_points_size max_points_size 0 "min_points_size" in
  let* w2 := validate_sizes min_segments_size max_segments_size 0 "min_segments_size" in
  let* w3 := validate_sizes min_polygons_size max_polygons_size 0 "min_polygons_size" in
  let* w4 := validate_sizes min_polygon_border_size max_polygon_border_size MIN_CONTOUR_SIZE
               "min_polygon_border_size" in
  let* w5 := validate_sizes min_polygon_holes_size max_polygon_holes_size 0
               "min_polygon_holes_size" in
  let* w6 := validate_sizes min_polygon_hole_size max_polygon_hole_size MIN_CONTOUR_SIZE
               "min_polygon_hole_size" in
  let has_discrete := may_have max_points_size in
  let has_linear := may_have max_segments_size in
  let has_shaped := may_have max_polygons_size in
  let* _ := if b2z has_discrete + b2z has_linear + b2z has_shaped <? MIN_MIX_COMPONENTS_COUNT
            then Raise ValueError else Ok tt in
  let min_points_size := Z.max min_points_size 0 in
  let min_segments_size := Z.max min_segments_size 0 in
  let min_polygons_size := Z.max min_polygons_size 0 in
  let min_polygon_border_size := Z.max min_polygon_border_size MIN_CONTOUR_SIZE in
  let min_polygon_holes_size := Z.max min_polygon_holes_size 0 in
  let min_polygon_hole_size := Z.max min_polygon_hole_size MIN_CONTOUR_SIZE in
  let to_mixes min_point_count min_segment_count min_polygon_count :=
    to_mix_strategy ctx xs ys min_point_count max_points_size min_segment_count max_segments_size
      min_polygon_count max_polygons_size min_polygon_border_size max_polygon_border_size
      min_polygon_holes_size max_polygon_holes_size min_polygon_hole_size max_polygon_hole_size in
  Ok ((w1 ++ w2 ++ w3 ++ w4 ++ w5 ++ w6)%list,
      if has_discrete then
        if has_linear then
          if has_shaped then
            alt (alt (to_mixes (Z.max min_points_size 1) (Z.max min_segments_size 1) min_polygons_size)
                     (to_mixes (Z.max min_points_size 1) min_segments_size (Z.max min_polygons_size 1)))
                (to_mixes min_points_size (Z.max min_segments_size 1) (Z.max min_polygons_size 1))
          else to_mixes (Z.max min_points_size 1) (Z.max min_segments_size 1) min_polygons_size
        else to_mixes (Z.max min_points_size 1) min_segments_size (Z.max min_polygons_size 1)
      else to_mixes min_points_size (Z.max min_segments_size 1) (Z.max min_polygons_size 1)).
Close Scope string_scope.
Close Scope Z_scope.
End Rough.
