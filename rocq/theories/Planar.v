(** Model of hypothesis_geometry/planar.py: the public API.

    A call either raises or returns a strategy together with the warnings it has emitted;
    a warning is identified by the name of the argument it complains about. *)
From Coq Require Export String.
From Verif Require Import Base Prog Geometry Ctx Utils Strategies.
Open Scope string_scope.
Open Scope Z_scope.

(** What calling a function of planar.py gives: an exception, or the warnings (the names of
    the arguments they are about) and the strategy. *)
Definition call (A : Type) : Type := res (list string * prog A).

(** planar.py:2181-2216 [_validate_sizes]: returns the warnings. *)
Definition validate_sizes (min_size : Z) (max_size : option Z) (min_expected_size : Z)
  (min_size_name : string) : res (list string) :=
  let* _ :=
    match max_size with
    | None => Ok tt
    | Some m =>
        if m <? min_expected_size then Raise ValueError
        else if m <? min_size then Raise ValueError
        else if min_size <? 0 then Raise ValueError
        else Ok tt
    end in
  Ok (if min_size <? min_expected_size then [min_size_name] else []).

(** planar.py:50-69 *)
Definition empty_geometries : call unit := Ok ([], to_empty_geometry_strategy).
(** planar.py:72-142 *)
Definition points (xs : scalars) (ys : option scalars) : call point :=
  Ok ([], to_point_strategy xs ys).
(** planar.py:145-244 *)
Definition multipoints (xs : scalars) (ys : option scalars) (min_size : Z) (max_size : option Z)
  : call (list point) :=
  let* w := validate_sizes min_size max_size MIN_MULTIPOINT_SIZE "min_size" in
  Ok (w, to_multipoint_strategy xs ys (Z.max min_size MIN_MULTIPOINT_SIZE) max_size).
(** planar.py:247-327 *)
Definition segments (xs : scalars) (ys : option scalars) : call segment :=
  Ok ([], to_segment_strategy xs ys).
(** planar.py:330-437 *)
Definition multisegments (ctx : context) (xs : scalars) (ys : option scalars) (min_size : Z)
  (max_size : option Z) : call (list segment) :=
  let* w := validate_sizes min_size max_size MIN_MULTISEGMENT_SIZE "min_size" in
  Ok (w, to_multisegment_strategy ctx xs ys (Z.max min_size MIN_MULTISEGMENT_SIZE) max_size).
(** planar.py:440-539 *)
Definition contours (ctx : context) (xs : scalars) (ys : option scalars) (min_size : Z)
  (max_size : option Z) : call contour :=
  let* w := validate_sizes min_size max_size MIN_CONTOUR_SIZE "min_size" in
  Ok (w, to_vertex_sequence_strategy ctx xs ys (Z.max min_size MIN_CONTOUR_SIZE) max_size).
(** planar.py:542-645 *)
Definition convex_contours (ctx : context) (xs : scalars) (ys : option scalars) (min_size : Z)
  (max_size : option Z) : call contour :=
  let* w := validate_sizes min_size max_size CONVEX "min_size" in
  Ok (w, to_convex_vertex_sequence_strategy ctx xs ys (Z.max min_size CONVEX) max_size).
(** planar.py:648-749 *)
Definition concave_contours (ctx : context) (xs : scalars) (ys : option scalars) (min_size : Z)
  (max_size : option Z) : call contour :=
  let* w := validate_sizes min_size max_size CONCAVE "min_size" in
  Ok (w, to_concave_vertex_sequence_strategy ctx xs ys (Z.max min_size CONCAVE) max_size).
(** planar.py:752-835 *)
Definition triangular_contours (xs : scalars) (ys : option scalars) : call contour :=
  Ok ([], to_triangular_vertex_sequence_strategy xs ys).
(** planar.py:838-921 *)
Definition rectangular_contours (xs : scalars) (ys : option scalars) : call contour :=
  Ok ([], to_rectangular_vertex_sequence_strategy xs ys).
(** planar.py:924-1005 *)
Definition boxes (xs : scalars) (ys : option scalars) : call box :=
  Ok ([], to_box_strategy xs ys).
(** planar.py:1008-1110 *)
Definition star_contours (ctx : context) (xs : scalars) (ys : option scalars) (min_size : Z)
  (max_size : option Z) : call contour :=
  let* w := validate_sizes min_size max_size MIN_CONTOUR_SIZE "min_size" in
  Ok (w, to_star_vertex_sequence_strategy ctx xs ys (Z.max min_size MIN_CONTOUR_SIZE) max_size).
(** planar.py:1113-1256 *)
Definition multicontours (ctx : context) (xs : scalars) (ys : option scalars) (min_size : Z)
  (max_size : option Z) (min_contour_size : Z) (max_contour_size : option Z)
  : call (list contour) :=
  let* w1 := validate_sizes min_size max_size MIN_MULTICONTOUR_SIZE "min_size" in
  let* w2 := validate_sizes min_contour_size max_contour_size MIN_CONTOUR_SIZE "min_contour_size" in
  Ok ((w1 ++ w2)%list,
      to_multicontour_strategy ctx xs ys (Z.max min_size MIN_MULTICONTOUR_SIZE) max_size
        (Z.max min_contour_size MIN_CONTOUR_SIZE) max_contour_size).
(** planar.py:1259-1438 *)
Definition polygons (ctx : context) (xs : scalars) (ys : option scalars) (min_size : Z)
  (max_size : option Z) (min_holes_size : Z) (max_holes_size : option Z) (min_hole_size : Z)
  (max_hole_size : option Z) : call polygon :=
  let* w1 := validate_sizes min_size max_size MIN_CONTOUR_SIZE "min_size" in
  let* w2 := validate_sizes min_holes_size max_holes_size 0 "min_holes_size" in
  let* w3 := validate_sizes min_hole_size max_hole_size MIN_CONTOUR_SIZE "min_hole_size" in
  Ok ((w1 ++ w2 ++ w3)%list,
      to_polygon_strategy ctx xs ys (Z.max min_size MIN_CONTOUR_SIZE) max_size
        (Z.max min_holes_size 0) max_holes_size (Z.max min_hole_size MIN_CONTOUR_SIZE) max_hole_size).
(** planar.py:1441-1658; [min_holes_size] is passed on as it is (line 1653) *)
Definition multipolygons (ctx : context) (xs : scalars) (ys : option scalars) (min_size : Z)
  (max_size : option Z) (min_border_size : Z) (max_border_size : option Z) (min_holes_size : Z)
  (max_holes_size : option Z) (min_hole_size : Z) (max_hole_size : option Z)
  : call (list polygon) :=
  let* w1 := validate_sizes min_size max_size MIN_MULTIPOLYGON_SIZE "min_size" in
  let* w2 := validate_sizes min_border_size max_border_size MIN_CONTOUR_SIZE "min_border_size" in
  let* w3 := validate_sizes min_holes_size max_holes_size 0 "min_holes_size" in
  let* w4 := validate_sizes min_hole_size max_hole_size MIN_CONTOUR_SIZE "min_hole_size" in
  Ok ((w1 ++ w2 ++ w3 ++ w4)%list,
      to_multipolygon_strategy ctx xs ys (Z.max min_size MIN_MULTIPOLYGON_SIZE) max_size
        (Z.max min_border_size MIN_CONTOUR_SIZE) max_border_size min_holes_size max_holes_size
        (Z.max min_hole_size MIN_CONTOUR_SIZE) max_hole_size).
(** planar.py:1661-2178: whether a component may be there. *)
Definition may_have (max_size : option Z) : bool :=
  match max_size with None => true | Some m => negb (m =? 0) end.
(** planar.py:1661-2178 [mixes] *)
Definition mixes (ctx : context) (xs : scalars) (ys : option scalars)
  (min_points_size : Z) (max_points_size : option Z)
  (min_segments_size : Z) (max_segments_size : option Z)
  (min_polygons_size : Z) (max_polygons_size : option Z)
  (min_polygon_border_size : Z) (max_polygon_border_size : option Z)
  (min_polygon_holes_size : Z) (max_polygon_holes_size : option Z)
  (min_polygon_hole_size : Z) (max_polygon_hole_size : option Z) : call mix :=
  let* w1 := validate_sizes min_points_size max_points_size 0 "min_points_size" in
  let* w2 := validate_sizes min_segments_size max_segments_size 0 "min_segments_size" in
  let* w3 := validate_sizes min_polygons_size max_polygons_size 0 "min_polygons_size" in
  let* w4 := validate_sizes min_polygon_border_size max_polygon_border_size MIN_CONTOUR_SIZE
               "min_polygon_border_size" in
  let* w5 := validate_sizes min_polygon_holes_size max_polygon_holes_size 0
               "min_polygon_holes_size" in
  let* w6 := validate_sizes min_polygon_hole_size max_polygon_hole_size MIN_CONTOUR_SIZE
               "min_polygon_hole_size" in
  let has_discrete := may_have max_points_size in
  let has_linear := may_have max_segments_size in
  let has_shaped := may_have max_polygons_size in
  let* _ := if b2z has_discrete + b2z has_linear + b2z has_shaped <? MIN_MIX_COMPONENTS_COUNT
            then Raise ValueError else Ok tt in
  let min_points_size := Z.max min_points_size 0 in
  let min_segments_size := Z.max min_segments_size 0 in
  let min_polygons_size := Z.max min_polygons_size 0 in
  let min_polygon_border_size := Z.max min_polygon_border_size MIN_CONTOUR_SIZE in
  let min_polygon_holes_size := Z.max min_polygon_holes_size 0 in
  let min_polygon_hole_size := Z.max min_polygon_hole_size MIN_CONTOUR_SIZE in
  let to_mixes min_point_count min_segment_count min_polygon_count :=
    to_mix_strategy ctx xs ys min_point_count max_points_size min_segment_count max_segments_size
      min_polygon_count max_polygons_size min_polygon_border_size max_polygon_border_size
      min_polygon_holes_size max_polygon_holes_size min_polygon_hole_size max_polygon_hole_size in
  Ok ((w1 ++ w2 ++ w3 ++ w4 ++ w5 ++ w6)%list,
      if has_discrete then
        if has_linear then
          if has_shaped then
            alt (alt (to_mixes (Z.max min_points_size 1) (Z.max min_segments_size 1) min_polygons_size)
                     (to_mixes (Z.max min_points_size 1) min_segments_size (Z.max min_polygons_size 1)))
                (to_mixes min_points_size (Z.max min_segments_size 1) (Z.max min_polygons_size 1))
          else to_mixes (Z.max min_points_size 1) (Z.max min_segments_size 1) min_polygons_size
        else to_mixes (Z.max min_points_size 1) min_segments_size (Z.max min_polygons_size 1)
      else to_mixes min_points_size (Z.max min_segments_size 1) (Z.max min_polygons_size 1)).
Close Scope string_scope.
Close Scope Z_scope.
