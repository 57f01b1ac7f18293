(** Model of hypothesis_geometry/_core/base.py.

    A Python function [to_..._strategy] becomes a function returning a [prog].  An exception
    raised while the strategy is being constructed (only [to_next_prime] can raise then) is
    modelled as an exception of every draw. *)
From Verif Require Import Base Prog Geometry Ctx Utils Contracts Factories.
Open Scope Z_scope.

(** [y_coordinate_strategy] is optional. *)
Definition or_else (ys : option scalars) (xs : scalars) : scalars :=
  match ys with None => xs | Some s => s end.
(** [a if max is None else min(a, max)] *)
Definition min_opt (a : Z) (m : option Z) : Z :=
  match m with None => a | Some v => Z.min a v end.

(** base.py:54-76 [to_box_strategy] *)
Definition draw_sorted_pair (s : scalars) : prog (Qc * Qc) :=
  let! l := unique_scalars s 2 (Some 2) in
  match l with
  | [a; b] => Ret (sort_pair qltb (a, b) false)
  | _ => Fail ValueError
  end.
(** base.py:54-76 [to_box_strategy] *)
Definition to_box_strategy (xs : scalars) (ys : option scalars) : prog box :=
  let! (x1, x2) := draw_sorted_pair xs in
  let! (y1, y2) := draw_sorted_pair (or_else ys xs) in
  Ret (Box x1 x2 y1 y2).

(** base.py:912-927 [to_point_strategy] *)
Definition to_point_strategy (xs : scalars) (ys : option scalars) : prog point :=
  let! x := draw_scalar xs in
  let! y := draw_scalar (or_else ys xs) in
  Ret (Pt x y).

(** base.py:1298-1314 [to_unique_point_sequence_strategy] *)
Definition to_unique_point_sequence_strategy (xs : scalars) (ys : option scalars)
  (min_size : Z) (max_size : option Z) : prog (list point) :=
  unique_lists point_eqb (to_point_strategy xs ys) min_size max_size.

(** base.py:587-602 [to_multipoint_strategy] *)
Definition to_multipoint_strategy := to_unique_point_sequence_strategy.

(** base.py:1209-1229 [to_segment_strategy] *)
Definition to_segment_strategy (xs : scalars) (ys : option scalars) : prog segment :=
  let! (a, b) := pfilter (fun ab => negb (point_eqb (fst ab) (snd ab)))
    (let! a := to_point_strategy xs ys in
     let! b := to_point_strategy xs ys in Ret (a, b)) in
  Ret (Seg a b).

(** base.py:1184-1206 [to_rectangular_vertex_sequence_strategy] *)
Definition box_to_vertices (b : box) : list point :=
  [Pt (min_x b) (min_y b); Pt (max_x b) (min_y b); Pt (max_x b) (max_y b); Pt (min_x b) (max_y b)].
(** base.py:1184-1206 [to_rectangular_vertex_sequence_strategy] *)
Definition to_rectangular_vertex_sequence_strategy (xs : scalars) (ys : option scalars)
  : prog (list point) := pmap box_to_vertices (to_box_strategy xs ys).

(** base.py:1262-1295 [to_triangular_vertex_sequence_strategy] *)
Definition to_counterclockwise_vertices (vs : list point) : list point :=
  match vs with
  | [vertex; first; second] =>
      if orientation_eqb (angle_orientation vertex first second) COUNTERCLOCKWISE
      then vs else [second; first; vertex]
  | _ => vs
  end.
(** base.py:1262-1295 [to_triangular_vertex_sequence_strategy] *)
Definition to_triangular_vertex_sequence_strategy (xs : scalars) (ys : option scalars)
  : prog (list point) :=
  pmap to_counterclockwise_vertices
    (pfilter are_vertices_strict (draw_n 3 (to_point_strategy xs ys))).

(** base.py:1025-1028 [are_indices_sparse]: no group of equal indices of the sorted list has
    more than two elements. *)
Fixpoint count_z (v : Z) (l : list Z) : nat :=
  match l with [] => O | x :: l' => if x =? v then S (count_z v l') else count_z v l' end.
(** base.py:1025-1028 [are_indices_sparse] *)
Definition are_indices_sparse (l : list Z) : bool :=
  forallb (fun v => (count_z v l <=? 2)%nat) l.
(** base.py:1002-1023 [are_index_sequence_pair_sparse]; with no indices the [zip] of line
    1010 is empty. *)
Definition are_index_sequence_pair_sparse (left right : list Z) : bool :=
  are_indices_sparse left && are_indices_sparse right
  && are_indices_sparse (map (fun ab => fst ab + snd ab) (combine left right))
  && are_indices_sparse (map (fun ab => fst ab - snd ab) (combine left right)).

(** [range(n)] *)
Definition zrange (n : Z) : list Z := map Z.of_nat (seq 0 (Z.to_nat n)).
(** Coordinates are looked up at indices below [grid_size]; an index out of range is an
    [IndexError]. *)
Definition coordinate (l : list Qc) (i : Z) : res Qc :=
  match py_get l i with Some v => Ok v | None => Raise IndexError end.

(** base.py:960-979 [x_indices_to_points] *)
Definition x_indices_to_points (grid_size : Z) (xs ys : list Qc) (scale : Z) : res (list point) :=
  let* _ := assert_ (are_index_sequence_pair_sparse (zrange grid_size)
                       (map (fun i => (scale * (i * i)) mod grid_size) (zrange grid_size))) in
  mapM (fun i => let* x := coordinate xs i in
                 let* y := coordinate ys ((scale * (i * i)) mod grid_size) in Ok (Pt x y))
       (zrange grid_size).
(** base.py:981-1000 [y_indices_to_points] *)
Definition y_indices_to_points (grid_size : Z) (xs ys : list Qc) (scale : Z) : res (list point) :=
  let* _ := assert_ (are_index_sequence_pair_sparse (zrange grid_size)
                       (map (fun i => (scale * (i * i)) mod grid_size) (zrange grid_size))) in
  mapM (fun i => let* x := coordinate xs ((scale * (i * i)) mod grid_size) in
                 let* y := coordinate ys i in Ok (Pt x y))
       (zrange grid_size).

(** base.py:930-1047 [to_point_sequence_in_general_position_strategy] *)
Definition to_point_sequence_in_general_position_strategy (xs : scalars) (ys : option scalars)
  (min_size : Z) (max_size : option Z) : prog (list point) :=
  let! lower := lift (to_next_prime min_size) in
  let upper := match max_size with None => None | Some m => Some (Z.max m lower) end in
  let! xs_list := unique_scalars xs lower upper in
  let! ys_list := unique_scalars (or_else ys xs) lower upper in
  let xs_list := isort qleb xs_list in
  let ys_list := isort qleb ys_list in
  let! grid_size := lift (to_prior_prime (Z.min (lenZ xs_list) (lenZ ys_list))) in
  let scale_strategy :=
    let! scale := integers 0 None in
    integers (scale * grid_size + 1) (Some ((scale + 1) * grid_size - 1)) in
  alt (let! scale := scale_strategy in lift (x_indices_to_points grid_size xs_list ys_list scale))
      (let! scale := scale_strategy in lift (y_indices_to_points grid_size xs_list ys_list scale)).

(** base.py:103-146 [to_convex_vertex_sequence_strategy].  The [random] object gives the
    bits of factories.py:299 and the shuffle of factories.py:310 as an arbitrary
    permutation of the indices. *)
Definition shuffle_by (perm : list nat) (l : list Qc) : list Qc :=
  map (fun i => nth i l (Q2Qc 0)) perm.
(** base.py:103-146 [to_convex_vertex_sequence_strategy] *)
Definition to_convex_vertex_sequence_strategy (ctx : context) (xs : scalars) (ys : option scalars)
  (min_size : Z) (max_size : option Z) : prog (list point) :=
  if match max_size with None => false | Some m => m <? CONCAVE end
  then to_triangular_vertex_sequence_strategy xs ys
  else
    let result := pfilter (fun vs => has_valid_size vs min_size max_size)
      (let! points := to_point_sequence_in_general_position_strategy xs ys min_size max_size in
       let! bits_x := bits (length points - 2) in
       let! bits_y := bits (length points - 2) in
       let! perm := permutations (seq 0 (length points)) in
       lift (to_convex_vertex_sequence ctx points bits_x bits_y (shuffle_by perm))) in
    let result := if min_size <=? 4
                  then alt (to_rectangular_vertex_sequence_strategy xs ys) result else result in
    if min_size =? 3 then alt (to_triangular_vertex_sequence_strategy xs ys) result else result.

(** base.py:1232-1251 [to_star_vertex_sequence_strategy] *)
Definition to_star_vertex_sequence_strategy (ctx : context) (xs : scalars) (ys : option scalars)
  (min_size : Z) (max_size : option Z) : prog (list point) :=
  pfilter (fun vs => has_valid_size vs min_size max_size)
    (let! points := to_point_sequence_in_general_position_strategy xs ys min_size max_size in
     lift (to_star_contour_vertices ctx points)).

(** base.py:1341-1376 [_to_vertex_sequences] *)
Definition to_carved_vertex_sequence_strategy (ctx : context) (xs : scalars) (ys : option scalars)
  (min_size : Z) (max_size : option Z) : prog (list point) :=
  pfilter (fun vs => has_valid_size vs min_size max_size)
    (let! points := to_point_sequence_in_general_position_strategy xs ys min_size max_size in
     let! size := integers min_size (Some (min_opt (lenZ points) max_size)) in
     lift (to_vertex_sequence ctx points size)).
(** base.py:1341-1376 [_to_vertex_sequences] *)
Definition to_vertex_sequences_ (ctx : context) (xs : scalars) (ys : option scalars)
  (min_size : Z) (max_size : option Z) : prog (list point) :=
  alt (to_star_vertex_sequence_strategy ctx xs ys min_size max_size)
      (to_carved_vertex_sequence_strategy ctx xs ys min_size max_size).

(** base.py:83-100 [to_concave_vertex_sequence_strategy] *)
Definition to_concave_vertex_sequence_strategy (ctx : context) (xs : scalars) (ys : option scalars)
  (min_size : Z) (max_size : option Z) : prog (list point) :=
  pfilter_res are_vertices_non_convex (to_vertex_sequences_ ctx xs ys min_size max_size).

(** base.py:1317-1338 [to_vertex_sequence_strategy] *)
Definition to_vertex_sequence_strategy (ctx : context) (xs : scalars) (ys : option scalars)
  (min_size : Z) (max_size : option Z) : prog (list point) :=
  alt (to_convex_vertex_sequence_strategy ctx xs ys min_size max_size)
      (to_vertex_sequences_ ctx xs ys min_size max_size).

(** base.py:1254-1259 [to_sub_sequence_strategy] *)
Definition to_sub_sequence_strategy {A} (values : list A) (min_size : Z) : prog (list A) :=
  let! l := permutations values in
  let! n := integers min_size (Some (lenZ values)) in
  Ret (cut l n).

(** base.py:823-909 [to_non_crossing_non_overlapping_segment_sequence_strategy] *)
Definition to_vertical_multisegment (x : Qc) (ys : list Qc) : list segment :=
  map (fun ab => Seg (Pt x (fst ab)) (Pt x (snd ab))) (pairwise (isort qleb ys)).
(** base.py:852-858 [to_horizontal_multisegment] *)
Definition to_horizontal_multisegment (xs : list Qc) (y : Qc) : list segment :=
  map (fun ab => Seg (Pt (fst ab) y) (Pt (snd ab) y)) (pairwise (isort qleb xs)).
(** base.py:823-909 [to_non_crossing_non_overlapping_segment_sequence_strategy] *)
Definition to_segment_sequence_strategy (ctx : context) (xs : scalars) (ys : option scalars)
  (min_size : Z) (max_size : option Z) : prog (list segment) :=
  let ys := or_else ys xs in
  if match max_size with None => false | Some m => m <? 2 end
  then
    match max_size with
    | Some 0 => Ret []
    | _ => pmap (fun s => [s]) (to_segment_strategy xs (Some ys))
    end
  else
    let next_min := min_size + 1 in
    let next_max := match max_size with None => None | Some m => Some (m + 1) end in
    let result :=
      alt (let! x := draw_scalar xs in
           let! l := unique_scalars ys next_min next_max in
           Ret (to_vertical_multisegment x l))
          (let! l := unique_scalars xs next_min next_max in
           let! y := draw_scalar ys in
           Ret (to_horizontal_multisegment l y)) in
    let result :=
      if match max_size with None => true | Some m => MIN_CONTOUR_SIZE <=? m end
      then alt result
             (let! vs := to_vertex_sequence_strategy ctx xs (Some ys)
                           (Z.max min_size MIN_CONTOUR_SIZE) max_size in
              to_sub_sequence_strategy (contour_vertices_to_edges vs) min_size)
      else result in
    alt result
      (pfilter are_segments_non_crossing_non_overlapping
         (lists (to_segment_strategy xs (Some ys)) min_size max_size)).

(** base.py:805-820 [to_multisegment_strategy] *)
Definition to_multisegment_strategy := to_segment_sequence_strategy.

(** base.py:548-551, 1117-1122: [size] counts of [min_element_size] each, to which the
    rest of [limit] is added one at a time in turn.  [cycle(range(size))] of a non-positive
    [size] is empty: its [next] raises [StopIteration]. *)
Fixpoint spread (n : nat) (i : nat) (l : list Z) : list Z :=
  match n with
  | O => l
  | S n' => spread n' (S i mod length l)%nat (set_nth i (nth i l 0 + 1) l)
  end.
(** base.py:545-551, 1117-1122 *)
Definition spread_sizes (size min_element_size limit : Z) : res (list Z) :=
  let extra := Z.to_nat (limit - size * min_element_size) in
  if (size <=? 0) && (0 <? extra)%nat then Raise StopIteration
  else Ok (spread extra 0 (repeat min_element_size (Z.to_nat size))).

(** base.py:545-558 [_to_sizes] *)
Definition to_sizes_ (size min_element_size limit : Z) : prog (list Z) :=
  let! max_sizes := lift (spread_sizes size min_element_size limit) in
  let! l := sequence (map (fun m => integers min_element_size (Some m)) max_sizes) in
  permutations l.

(** base.py:512-584 [to_multicontour_strategy] *)
Definition to_multicontour_strategy (ctx : context) (xs : scalars) (ys : option scalars)
  (min_size : Z) (max_size : option Z) (min_contour_size : Z) (max_contour_size : option Z)
  : prog (list contour) :=
  let min_total_point_count := min_size * min_contour_size in
  let max_total_point_count :=
    match max_size, max_contour_size with
    | Some m, Some c => Some (m * c)
    | _, _ => None
    end in
  pfilter (fun mc => multicontour_has_valid_sizes mc min_size max_size min_contour_size max_contour_size)
    (let! points := to_point_sequence_in_general_position_strategy xs ys
                      min_total_point_count max_total_point_count in
     let limit := lenZ points in
     let! size := integers min_size (Some (min_opt (limit / min_contour_size) max_size)) in
     let! sizes := to_sizes_ size min_contour_size limit in
     let! choices := bits (length sizes) in
     lift (to_multicontour ctx points sizes choices)).

(** base.py:1108-1133 [_to_hole_sizes] *)
Definition to_hole_sizes_ (hole_count min_hole_point_count max_hole_point_count : Z)
  : prog (list Z) :=
  if hole_count =? 0 then Ret []
  else
    let! max_counts := lift (spread_sizes hole_count min_hole_point_count max_hole_point_count) in
    let! strategies := permutations max_counts in
    sequence (map (fun m => integers min_hole_point_count (Some m)) strategies).

(** base.py:1082-1106 [to_hole_sizes] *)
Definition to_hole_sizes (points : list point) (min_hole_count : Z) (max_hole_count : option Z)
  (min_hole_size : Z) : prog (list Z) :=
  let max_inner_point_count := lenZ points - lenZ (to_max_convex_hull points) in
  let hole_count_scale := max_inner_point_count / min_hole_size in
  let point_max_hole_size := min_opt hole_count_scale max_hole_count in
  if min_hole_size <=? max_inner_point_count
  then
    let! hole_count := integers min_hole_count (Some point_max_hole_size) in
    to_hole_sizes_ hole_count min_hole_size max_inner_point_count
  else Ret [].

(** base.py:1135-1144 [has_valid_sizes] *)
Definition polygon_has_valid_sizes (min_size : Z) (max_size : option Z) (min_hole_count : Z)
  (max_hole_count : option Z) (min_hole_size : Z) (max_hole_size : option Z) (p : polygon) : bool :=
  has_valid_size (border p) min_size max_size
  && multicontour_has_valid_sizes (holes p) min_hole_count max_hole_count min_hole_size max_hole_size.

(** base.py:1050-1181 [to_polygon_strategy] *)
Definition to_polygon_strategy (ctx : context) (xs : scalars) (ys : option scalars)
  (min_size : Z) (max_size : option Z) (min_hole_count : Z) (max_hole_count : option Z)
  (min_hole_size : Z) (max_hole_size : option Z) : prog polygon :=
  let min_inner_point_count := min_hole_size * min_hole_count in
  let min_point_count := min_size + min_inner_point_count in
  let max_point_count :=
    match max_size, max_hole_count, max_hole_size with
    | Some m, Some c, Some s => Some (m + s * c)
    | _, _, _ => None
    end in
  let has_valid_inner_point_count points :=
    match max_size with None => true | Some m => lenZ (ctx_hull ctx points) <=? m end
    && (min_inner_point_count <=? lenZ points - lenZ (to_max_convex_hull points)) in
  pfilter (polygon_has_valid_sizes min_size max_size min_hole_count max_hole_count
             min_hole_size max_hole_size)
    (let! points := pfilter has_valid_inner_point_count
       (to_point_sequence_in_general_position_strategy xs ys min_point_count max_point_count) in
     let max_border_point_count := lenZ points - min_inner_point_count in
     let min_border_size := Z.max min_size (lenZ (ctx_hull ctx points)) in
     let max_border_size := match max_size with
                            | None => max_border_point_count
                            | Some m => Z.min m max_border_point_count
                            end in
     let! border_size := integers min_border_size (Some max_border_size) in
     let! hole_sizes := to_hole_sizes points min_hole_count max_hole_count min_hole_size in
     let! choices := bits (length hole_sizes) in
     lift (to_polygon ctx points border_size hole_sizes choices)).

(** The two symmetric branches "slice the xs" / "slice the ys" of [to_mix_strategy] and
    [to_multipolygon_strategy]: the sliced coordinates replace one of the two strategies,
    and the predicate tells whether the last geometry lies along the end of its slice. *)
Inductive axis := AxisX | AxisY.
(** base.py:204-249, 305-347, 655-666, 717-728: the two coordinate strategies after slicing. *)
Definition sliced (a : axis) (slice : list Qc) (xs ys : scalars) : scalars * scalars :=
  match a with AxisX => (Sampled slice, ys) | AxisY => (xs, Sampled slice) end.
(** base.py:268-290, 366-388, 667-671, 729-733: the predicate of the axis. *)
Definition blocks_touch (a : axis) (segments : list segment) : res bool :=
  match a with
  | AxisX => has_vertical_leftmost_segment segments
  | AxisY => has_horizontal_lowermost_segment segments
  end.

(** base.py:626-688 [xs_to_polygons], 690-750 [ys_to_polygons].  [multipolygon_loop] is the
    loop of lines 645-672 (707-734) followed by the last polygon; [left] is [size - index]. *)
Section Multipolygon.
  Context (ctx : context) (a : axis) (xs ys : scalars)
          (min_border_size : Z) (max_border_size : option Z)
          (min_hole_count : Z) (max_hole_count : option Z)
          (min_hole_size : Z) (max_hole_size : option Z)
          (min_polygon_point_count : Z).
  (** base.py:655-666, 717-728: the polygon of one slice. *)
  Definition slice_polygon (slice : list Qc) : prog polygon :=
    let '(sx, sy) := sliced a slice xs ys in
    to_polygon_strategy ctx sx (Some sy) min_border_size max_border_size
      min_hole_count max_hole_count min_hole_size max_hole_size.
  (** base.py:645-688, 707-750 *)
  Fixpoint multipolygon_loop (left : nat) (coordinates : list Qc) (start : Z)
    : prog (list polygon) :=
    match left with
    | O | S O => let! p := slice_polygon (py_drop coordinates start) in Ret [p]
    | S left' =>
        let! polygon_point_count := integers min_polygon_point_count
          (Some ((lenZ coordinates - start) / Z.of_nat left)) in
        let! prior := lift (to_prior_prime polygon_point_count) in
        let! p := slice_polygon (py_slice coordinates start (start + prior)) in
        let! blocked := lift (blocks_touch a (contour_segments (border p))) in
        let! rest := multipolygon_loop left' coordinates
                       (start + (polygon_point_count - b2z (negb blocked))) in
        Ret (p :: rest)
    end.
  (** base.py:626-688 [xs_to_polygons], 690-750 [ys_to_polygons] *)
  Definition coordinates_to_polygons (min_size : Z) (max_size : option Z) (coordinates : list Qc)
    : prog (list polygon) :=
    let! size := integers min_size
      (Some (min_opt (lenZ coordinates / min_polygon_point_count) max_size)) in
    multipolygon_loop (Z.to_nat size) (isort qleb coordinates) 0.
End Multipolygon.

(** base.py:605-802 [to_multipolygon_strategy] *)
Definition to_multipolygon_strategy (ctx : context) (xs : scalars) (ys : option scalars)
  (min_size : Z) (max_size : option Z) (min_border_size : Z) (max_border_size : option Z)
  (min_hole_count : Z) (max_hole_count : option Z) (min_hole_size : Z) (max_hole_size : option Z)
  : prog (list polygon) :=
  let ys := or_else ys xs in
  let! min_polygon_point_count :=
    lift (to_next_prime (min_border_size + min_hole_count * min_hole_size)) in
  let min_total_point_count := min_size * min_polygon_point_count in
  let max_total_point_count :=
    match max_size, max_border_size, max_hole_count, max_hole_size with
    | Some m, Some b, Some c, Some s => Some (Z.max (m * (b + s * c)) min_total_point_count)
    | _, _, _, _ => None
    end in
  let along a coordinates :=
    let! l := unique_scalars coordinates min_total_point_count max_total_point_count in
    coordinates_to_polygons ctx a xs ys min_border_size max_border_size min_hole_count
      max_hole_count min_hole_size max_hole_size min_polygon_point_count min_size max_size l in
  let polygon_strategy := alt (along AxisX xs) (along AxisY ys) in
  if min_hole_count =? 0
  then alt (pmap (map (fun c => Poly c []))
              (to_multicontour_strategy ctx xs (Some ys) min_size max_size
                 min_border_size max_border_size))
           polygon_strategy
  else polygon_strategy.

(** [ground.hints.Mix] and its components: [Empty], a single geometry, or a multi-geometry. *)
Inductive part (A : Type) : Type :=
| EmptyPart
| SinglePart (a : A)
| MultiPart (l : list A).
Arguments EmptyPart {A}.
Arguments SinglePart {A} _.
Arguments MultiPart {A} _.
(** [ground.hints.Mix]. *)
Record mix := Mix { discrete : part point; linear : part segment; shaped : part polygon }.

(** base.py:395-416 [unpack_points], [unpack_segments], [unpack_polygons] *)
Definition unpack_points (l : list point) : part point :=
  match l with [] => EmptyPart | _ => MultiPart l end.
(** base.py:402-416 [unpack_segments], [unpack_polygons] *)
Definition unpack {A} (l : list A) : part A :=
  match l with
  | [] => EmptyPart
  | [a] => SinglePart a
  | _ => MultiPart l
  end.

(** base.py:492-499 [partition]; each iteration subtracts at least one, so [value]
    iterations suffice. *)
Fixpoint partition_loop (fuel : nat) (value : Z) : prog (list Z) :=
  if value =? 0 then Ret []
  else
    match fuel with
    | O => Fail OutOfFuel
    | S fuel' =>
        let! part := integers 1 (Some value) in
        let! rest := partition_loop fuel' (value - part) in
        Ret (part :: rest)
    end.
(** base.py:492-499 [partition] *)
Definition partition (value : Z) : prog (list Z) :=
  let! _ := lift (assert_ (0 <=? value)) in
  partition_loop (Z.to_nat value) value.

(** base.py:251-261: what a drawer draws. *)
Inductive drawer := DrawPoints | DrawSegments | DrawPolygon.

Section Mixes.
  Context (ctx : context) (xs ys : scalars)
          (min_point_count : Z) (max_point_count : option Z)
          (min_segment_count : Z) (max_segment_count : option Z)
          (min_polygon_count : Z) (max_polygon_count : option Z)
          (min_polygon_border_size : Z) (max_polygon_border_size : option Z)
          (min_polygon_hole_count : Z) (max_polygon_hole_count : option Z)
          (min_polygon_hole_size : Z) (max_polygon_hole_size : option Z)
          (min_polygon_point_count : Z).

  (** base.py:418-490 [to_point_counts]; [sampled_from(range(a, b, 2))] is [a + 2 k] for
      [0 <= k] while below [b]. *)
  Definition to_point_counts (max_total_point_count : Z) : prog (list Z * list Z * list Z) :=
    let min_segment_total := 2 * min_segment_count in
    let max_polygon_total := max_total_point_count - min_point_count - min_segment_total in
    let! polygon_count := integers min_polygon_count
      (Some (min_opt (max_polygon_total / min_polygon_point_count) max_polygon_count)) in
    let! max_polygon_point_count :=
      if polygon_count =? 0 then Ret 0
      else lift (to_prior_prime (max_polygon_total / polygon_count)) in
    let! polygon_point_counts :=
      if polygon_count =? 0 then Ret []
      else draw_n (Z.to_nat polygon_count)
             (integers min_polygon_point_count (Some max_polygon_point_count)) in
    let total_polygon := fold_right Z.add 0 polygon_point_counts in
    let segment_upper := max_total_point_count - total_polygon - min_point_count in
    let max_segment_point_count :=
      match max_segment_count with
      | None => segment_upper
      | Some m => Z.min segment_upper (2 * m)
      end in
    let! half := integers 0 (Some ((max_segment_point_count - min_segment_total) / 2)) in
    let segment_point_count := min_segment_total + 2 * half in
    let point_upper := max_total_point_count - segment_point_count - total_polygon in
    let point_count := min_opt point_upper max_point_count in
    let! point_counts := partition point_count in
    let! segment_sizes := partition (segment_point_count / 2) in
    Ret (point_counts, map (Z.mul 2) segment_sizes, polygon_point_counts).

  (** base.py:204-249, 305-347: the three drawers.  Only [xs_to_mix] takes the prior prime
      of the count (line 233; compare line 337). *)
  Definition draw_points (a : axis) (coordinates : list Qc) (count : Z) : prog (list point) :=
    let '(sx, sy) := sliced a (py_take coordinates count) xs ys in
    to_unique_point_sequence_strategy sx (Some sy) count (Some count).
  (** base.py:217-229, 318-330 [draw_segments] *)
  Definition draw_segments (a : axis) (coordinates : list Qc) (count : Z) : prog (list segment) :=
    let size := count / 2 in
    let '(sx, sy) := sliced a (py_take coordinates count) xs ys in
    to_segment_sequence_strategy ctx sx (Some sy) size (Some size).
  (** base.py:231-249, 332-347 [draw_polygon] *)
  Definition draw_polygon (a : axis) (coordinates : list Qc) (count : Z) : prog polygon :=
    let! n := match a with AxisX => lift (to_prior_prime count) | AxisY => Ret count end in
    let '(sx, sy) := sliced a (py_take coordinates n) xs ys in
    to_polygon_strategy ctx sx (Some sy) min_polygon_border_size max_polygon_border_size
      min_polygon_hole_count max_polygon_hole_count min_polygon_hole_size max_polygon_hole_size.

  (** base.py:263-290, 361-388.  Only [drawers_with_point_counts[index + 1][0] is not
      draw_points] matters: [drawers_with_point_counts[index + 1] is not draw_points]
      (lines 275, 283, 373, 381) compares a tuple with a function and is always true. *)
  Fixpoint mix_loop (a : axis) (drawers : list (drawer * Z)) (coordinates : list Qc)
    (points : list point) (segments : list segment) (polygons : list polygon)
    : prog (list point * list segment * list polygon) :=
    match drawers with
    | [] => Ret (points, segments, polygons)
    | (d, count) :: rest =>
        let! (points, segments, polygons) :=
          match d with
          | DrawPoints => let! l := draw_points a coordinates count in
                          Ret (points ++ l, segments, polygons)
          | DrawSegments => let! l := draw_segments a coordinates count in
                            Ret (points, segments ++ l, polygons)
          | DrawPolygon => let! p := draw_polygon a coordinates count in
                           Ret (points, segments, polygons ++ [p])
          end in
        let! can_touch_next_geometry :=
          match rest with
          | [] | (DrawPoints, _) :: _ => Ret false
          | _ :: _ =>
              match d with
              | DrawPoints => Ret false
              | DrawSegments => pmap negb (lift (blocks_touch a segments))
              | DrawPolygon =>
                  pmap negb (lift (blocks_touch a (contour_segments
                    (border (last polygons (Poly [] []))))))
              end
          end in
        mix_loop a rest (py_drop coordinates (count - b2z can_touch_next_geometry))
          points segments polygons
    end.

  (** base.py:196-295 [xs_to_mix], 297-393 [ys_to_mix] *)
  Definition coordinates_to_mix (a : axis) (coordinates : list Qc) : prog mix :=
    let! (point_counts, segment_counts, polygon_counts) := to_point_counts (lenZ coordinates) in
    let! drawers := permutations (map (pair DrawPoints) point_counts
                                  ++ map (pair DrawSegments) segment_counts
                                  ++ map (pair DrawPolygon) polygon_counts) in
    let! (points, segments, polygons) := mix_loop a drawers (isort qleb coordinates) [] [] [] in
    Ret (Mix (unpack_points points) (unpack segments) (unpack polygons)).
End Mixes.

(** base.py:158-509 [to_mix_strategy] *)
Definition to_mix_strategy (ctx : context) (xs : scalars) (ys : option scalars)
  (min_point_count : Z) (max_point_count : option Z)
  (min_segment_count : Z) (max_segment_count : option Z)
  (min_polygon_count : Z) (max_polygon_count : option Z)
  (min_polygon_border_size : Z) (max_polygon_border_size : option Z)
  (min_polygon_hole_count : Z) (max_polygon_hole_count : option Z)
  (min_polygon_hole_size : Z) (max_polygon_hole_size : option Z) : prog mix :=
  let ys := or_else ys xs in
  let! min_polygon_point_count :=
    lift (to_next_prime (min_polygon_border_size + min_polygon_hole_count * min_polygon_hole_size)) in
  let min_total_point_count :=
    min_point_count + 2 * min_segment_count + min_polygon_count * min_polygon_point_count in
  let along a coordinates :=
    let! l := unique_scalars coordinates min_total_point_count None in
    coordinates_to_mix ctx xs ys min_point_count max_point_count min_segment_count
      max_segment_count min_polygon_count max_polygon_count min_polygon_border_size
      max_polygon_border_size min_polygon_hole_count max_polygon_hole_count
      min_polygon_hole_size max_polygon_hole_size min_polygon_point_count a l in
  alt (along AxisX xs) (along AxisY ys).

(** base.py:149-152 [to_empty_geometry_strategy] *)
Definition to_empty_geometry_strategy : prog unit := Ret tt.
Close Scope Z_scope.
