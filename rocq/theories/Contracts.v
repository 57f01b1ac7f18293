(** Model of hypothesis_geometry/_core/contracts.py. *)
From Verif Require Import Base Geometry Utils.

(** contracts.py:11-14 (the same function is utils.py:109-112
    [segments_do_not_cross_or_overlap]) *)
Definition are_segments_non_crossing_non_overlapping (segments : list segment) : bool :=
  negb (some_segments_cross_or_overlap segments).

(** utils.py:92-106 [contours_do_not_cross_or_overlap] *)
Definition contours_do_not_cross_or_overlap (contours : list contour) : bool :=
  are_segments_non_crossing_non_overlapping (flat_map contour_segments contours).

(** contracts.py:17-21; [max_size] is [None] for "unbounded" *)
Definition has_valid_size {A} (sized : list A) (min_size : Z) (max_size : option Z) : bool :=
  ((min_size <=? lenZ sized) &&
   match max_size with None => true | Some m => lenZ sized <=? m end)%Z%bool.

(** contracts.py:46-51 *)
Definition is_segment_horizontal (s : segment) : bool := qeqb (py (seg_start s)) (py (seg_end s)).
(** contracts.py:50-51 *)
Definition is_segment_vertical (s : segment) : bool := qeqb (px (seg_start s)) (px (seg_end s)).

(** contracts.py:75-80 (the names are those of the source: the "max x" of a segment is
    computed with [min]) *)
Definition segment_to_max_x (s : segment) : Qc := qmin (px (seg_start s)) (px (seg_end s)).
(** contracts.py:79-80 *)
Definition segment_to_min_y (s : segment) : Qc := qmin (py (seg_start s)) (py (seg_end s)).

(** Python [max(l, key=key)]: the first element with the greatest key. *)
Fixpoint py_max {A} (key : A -> Qc) (best : A) (l : list A) : A :=
  match l with
  | [] => best
  | x :: l' => py_max key (if qltb (key best) (key x) then x else best) l'
  end.

(** contracts.py:24-32 *)
Definition has_horizontal_lowermost_segment (segments : list segment) : res bool :=
  match segments with
  | [] => Raise ValueError
  | s :: rest =>
      let lowermost := py_max segment_to_min_y s rest in
      let min_y := segment_to_min_y lowermost in
      Ok (is_segment_horizontal lowermost
          || existsb (fun t => qeqb (segment_to_min_y t) min_y && is_segment_horizontal t) segments)
  end.

(** contracts.py:35-43 *)
Definition has_vertical_leftmost_segment (segments : list segment) : res bool :=
  match segments with
  | [] => Raise ValueError
  | s :: rest =>
      let leftmost := py_max segment_to_max_x s rest in
      let max_x := segment_to_max_x leftmost in
      Ok (is_segment_vertical leftmost
          || existsb (fun t => qeqb (segment_to_max_x t) max_x && is_segment_vertical t) segments)
  end.

(** contracts.py:54-72 *)
Definition multicontour_has_valid_sizes (multicontour : list contour) (min_size : Z)
  (max_size : option Z) (min_contour_size : Z) (max_contour_size : option Z) : bool :=
  has_valid_size multicontour min_size max_size
  && forallb (fun c : contour => has_valid_size c min_contour_size max_contour_size) multicontour.

(** contracts.py:83-111 *)
Definition angle_contains_point (vertex first_ray_point second_ray_point p : point) : bool :=
  let angle := angle_orientation vertex first_ray_point second_ray_point in
  let first_half := angle_orientation vertex first_ray_point p in
  let second_half := angle_orientation second_ray_point vertex p in
  match first_half with
  | COLLINEAR => orientation_eqb second_half angle
  | _ =>
      match second_half with
      | COLLINEAR => orientation_eqb first_half angle
      | _ =>
          orientation_eqb first_half second_half
          && orientation_eqb second_half
               (match angle with COLLINEAR => COUNTERCLOCKWISE | o => o end)
      end
  end.

(** contracts.py:137-147 [to_contour_orientations]:
    [orienteer(v[i], v[i - 1], v[(i + 1) % len(v)])] for every index. *)
Definition to_contour_orientations (vs : list point) : list orientation :=
  match vs with
  | [] => []
  | x :: tl_ =>
      map (fun abc => angle_orientation (snd (fst abc)) (fst (fst abc)) (snd abc))
          (combine (combine (last vs x :: vs) vs) (tl_ ++ [x]))
  end.

(** contracts.py:114-123 *)
Definition are_vertices_non_convex (vs : list point) : res bool :=
  match to_contour_orientations vs with
  | [] => Raise StopIteration
  | base :: rest => Ok (existsb (fun o => negb (orientation_eqb o base)) rest)
  end.

(** contracts.py:126-134 *)
Definition are_vertices_strict (vs : list point) : bool :=
  forallb (fun o => negb (orientation_eqb o COLLINEAR)) (to_contour_orientations vs).
