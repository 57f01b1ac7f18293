(** The definitions of QuadEdge.v, Contracts.v, Triangulation.v and Factories.v that depend on
    arithmetic, word for word except that the arithmetic is that of [ar]. *)
From Verif Require Import Base Geometry Ctx QuadEdge Utils Contracts Triangulation Factories RoughArith.

Section Rough.
Context {ar : arith}.
(** subdivisional.py:144-146 [orientation_of] *)
Definition orientation_of (h : heap) (e : edge) (p : point) : orientation :=
  angle_orientation (start h e) (end_ h e) p.
(** subdivisional.py:174-182 [to_edge_neighbours] *)
Definition to_edge_neighbours (h : heap) (e : edge) : list edge :=
  let candidate := left_from_start h e in
  if orientation_eqb (orientation_of h e (end_ h candidate)) COUNTERCLOCKWISE
  then [candidate; right_from_end h candidate] else [].
(** contracts.py:11-14 (the same function is utils.py:109-112
    [segments_do_not_cross_or_overlap]) *)
Definition are_segments_non_crossing_non_overlapping (segments : list segment) : bool :=
  negb (some_segments_cross_or_overlap segments).
(** utils.py:92-106 [contours_do_not_cross_or_overlap] *)
Definition contours_do_not_cross_or_overlap (contours : list contour) : bool :=
  are_segments_non_crossing_non_overlapping (flat_map contour_segments contours).
(** contracts.py:83-111 *)
Definition angle_contains_point (vertex first_ray_point second_ray_point p : point) : bool :=
  let angle := angle_orientation vertex first_ray_point second_ray_point in
  let first_half := angle_orientation vertex first_ray_point p in
  let second_half := angle_orientation second_ray_point vertex p in
  match first_half with
  | COLLINEAR => orientation_eqb second_half angle
  | _ =>
      match second_half with
      | COLLINEAR => orientation_eqb first_half angle
      | _ =>
          orientation_eqb first_half second_half
          && orientation_eqb second_half
               (match angle with COLLINEAR => COUNTERCLOCKWISE | o => o end)
      end
  end.
(** contracts.py:137-147 [to_contour_orientations]:
    [orienteer(v[i], v[i - 1], v[(i + 1) % len(v)])] for every index. *)
Definition to_contour_orientations (vs : list point) : list orientation :=
  match vs with
  | [] => []
  | x :: tl_ =>
      map (fun abc => angle_orientation (snd (fst abc)) (fst (fst abc)) (snd abc))
          (combine (combine (last vs x :: vs) vs) (tl_ ++ [x]))
  end.
(** contracts.py:114-123 *)
Definition are_vertices_non_convex (vs : list point) : res bool :=
  match to_contour_orientations vs with
  | [] => Raise StopIteration
  | base :: rest => Ok (existsb (fun o => negb (orientation_eqb o base)) rest)
  end.
(** contracts.py:126-134 *)
Definition are_vertices_strict (vs : list point) : bool :=
  forallb (fun o => negb (orientation_eqb o COLLINEAR)) (to_contour_orientations vs).
(** triangular.py:129-147 [_to_left_candidate]; lines 135-146 are the loop. *)
Definition to_left_candidate (fuel : positive) (h : heap) (base : edge)
  : res (option edge * heap) :=
  let result := left_from_start h (opposite base) in
  if negb (orientation_eqb (orientation_of h base (end_ h result)) CLOCKWISE)
  then Ok (None, h)
  else while_ fuel (fun st : edge * heap =>
         let '(result, h) := st in
         let nxt := left_from_start h result in
         if in_circle_interior (end_ h nxt) (end_ h base) (start h base) (end_ h result)
            && orientation_eqb (orientation_of h base (end_ h nxt)) CLOCKWISE
         then Ok (inl (nxt, delete h result))
         else Ok (inr (Some result, h))) (result, h).
(** triangular.py:149-167 [_to_right_candidate] *)
Definition to_right_candidate (fuel : positive) (h : heap) (base : edge)
  : res (option edge * heap) :=
  let result := right_from_start h base in
  if negb (orientation_eqb (orientation_of h base (end_ h result)) CLOCKWISE)
  then Ok (None, h)
  else while_ fuel (fun st : edge * heap =>
         let '(result, h) := st in
         let nxt := right_from_start h result in
         if in_circle_interior (end_ h nxt) (end_ h base) (start h base) (end_ h result)
            && orientation_eqb (orientation_of h base (end_ h nxt)) CLOCKWISE
         then Ok (inl (nxt, delete h result))
         else Ok (inr (Some result, h))) (result, h).
(** triangular.py:95-118 [_connect]; the [assert right_candidate is not None] of line 115
    holds because the first disjunct excludes both being [None]. *)
Definition connect_parts (fuel : positive) (h : heap) (base : edge) : res heap :=
  while_ fuel (fun st : edge * heap =>
    let '(base, h) := st in
    let* (lc, h1) := to_left_candidate fuel h base in
    let* (rc, h2) := to_right_candidate fuel h1 base in
    match lc, rc with
    | None, None => Ok (inr h2)
    | None, Some r =>
        let '(e, h3) := connect h2 r (opposite base) in Ok (inl (e, h3))
    | Some l, None =>
        let '(e, h3) := connect h2 (opposite base) (opposite l) in Ok (inl (e, h3))
    | Some l, Some r =>
        if in_circle_interior (end_ h2 r) (end_ h2 l) (end_ h2 base) (start h2 base)
        then let '(e, h3) := connect h2 r (opposite base) in Ok (inl (e, h3))
        else let '(e, h3) := connect h2 (opposite base) (opposite l) in Ok (inl (e, h3))
    end) (base, h).
(** triangular.py:169-188 [_find_base_edge]: returns the base edge and the two updated
    triangulations. *)
Definition find_base_edge (fuel : positive) (h : heap) (self other : tri)
  : res (edge * tri * tri * heap) :=
  let* (rs, ls) := while_ fuel (fun st : edge * edge =>
      let '(rs, ls) := st in
      if orientation_eqb (orientation_of h rs (start h ls)) COUNTERCLOCKWISE
      then Ok (inl (left_from_end h rs, ls))
      else if orientation_eqb (orientation_of h ls (start h rs)) CLOCKWISE
      then Ok (inl (rs, right_from_end h ls))
      else Ok (inr (rs, ls))) (right_side self, left_side other) in
  let '(base, h1) := connect h (opposite ls) rs in
  let self' := if point_eqb (start h1 rs) (start h1 (left_side self))
               then Tri (opposite base) rs else Tri (left_side self) rs in
  let other' := if point_eqb (start h1 ls) (start h1 (right_side other))
                then Tri ls base else Tri ls (right_side other) in
  Ok (base, self', other', h1).
(** triangular.py:190-192 [_merge] *)
Definition merge (fuel : positive) (h : heap) (self other : tri) : res (tri * heap) :=
  let* (base, self', other', h1) := find_base_edge fuel h self other in
  let* h2 := connect_parts fuel h1 base in
  Ok (Tri (left_side self') (right_side other'), h2).
(** triangular.py:205-224 [_triangulate_three_points] *)
Definition triangulate_three_points (h : heap) (p q r : point) : tri * heap :=
  let '(first_edge, h1) := from_endpoints h p q in
  let '(second_edge, h2) := from_endpoints h1 q r in
  let h3 := splice h2 (opposite first_edge) second_edge in
  match orientation_of h3 first_edge r with
  | COUNTERCLOCKWISE =>
      let '(_, h4) := connect h3 second_edge first_edge in
      (Tri first_edge (opposite second_edge), h4)
  | CLOCKWISE =>
      let '(third_edge, h4) := connect h3 second_edge first_edge in
      (Tri (opposite third_edge) third_edge, h4)
  | COLLINEAR => (Tri first_edge (opposite second_edge), h3)
  end.
(** triangular.py:120-127, 227 [_initialize_triangulation], [_base_cases]: any other size
    is a [KeyError]. *)
Definition initialize_triangulation (h : heap) (points : list point) : res (tri * heap) :=
  match points with
  | [p; q] => Ok (triangulate_two_points h p q)
  | [p; q; r] => Ok (triangulate_three_points h p q r)
  | _ => Raise KeyError
  end.
(** triangular.py:28-34: [_initialize_triangulation] of every slice, in order. *)
Fixpoint initialize_all (h : heap) (parts : list (list point)) : res (list tri * heap) :=
  match parts with
  | [] => Ok ([], h)
  | p :: parts' =>
      let* (t, h1) := initialize_triangulation h p in
      let* (ts, h2) := initialize_all h1 parts' in
      Ok (t :: ts, h2)
  end.
(** triangular.py:35-43: one round of pairwise merges. *)
Fixpoint merge_round (fuel : positive) (h : heap) (ts : list tri) : res (list tri * heap) :=
  match ts with
  | a :: b :: ts' =>
      let* (t, h1) := merge fuel h a b in
      let* (ts'', h2) := merge_round fuel h1 ts' in
      Ok (t :: ts'', h2)
  | _ => Ok (ts, h)
  end.
(** triangular.py:35-43: the rounds. *)
Fixpoint merge_rounds (fuel : positive) (rounds : nat) (h : heap) (ts : list tri)
  : res (list tri * heap) :=
  match rounds with
  | O => Ok (ts, h)
  | S k => let* (ts', h') := merge_round fuel h ts in merge_rounds fuel k h' ts'
  end.
(** triangular.py:20-44 [Triangulation.delaunay] *)
Definition delaunay (ctx : context) (points : list point) : res (tri * heap) :=
  let points := isort point_leb points in
  let* (ts, h) := initialize_all (empty_heap (hd (Pt (Q2Qc 0) (Q2Qc 0)) points))
                    (slices points (ctx_coins ctx (length points))) in
  let* (ts', h') := merge_rounds (ctx_fuel ctx) (Z.to_nat (ceil_log2 (Z.of_nat (length ts)))) h ts in
  match ts' with t :: _ => Ok (t, h') | [] => Raise IndexError end.
(** factories.py:354-356, 363-365: the test [orienteer(...) is Orientation.COLLINEAR]. *)
Definition is_collinear (v a b : point) : bool :=
  orientation_eqb (angle_orientation v a b) COLLINEAR.
(** factories.py:343-367 [compress_contour].  [compress_down] is the inner loop of lines
    351-357, [compress_up] that of lines 360-366; each iteration deletes a vertex, so
    [length vs] iterations suffice. *)
Fixpoint compress_down (fuel : nat) (index : Z) (vs : list point) : list point :=
  match fuel with
  | O => vs
  | S fuel' =>
      if ((Z.max 2 (- index) <? lenZ vs)%Z
          && is_collinear (vget vs (index + 1)) (vget vs (index + 2)) (vget vs index))%bool
      then compress_down fuel' index (py_del vs (index + 1))
      else vs
  end.
(** lines 350-358: [index] runs from [-len(vertices) + 1] to [-1]; [n = -index]. *)
Fixpoint compress_phase1 (n : nat) (vs : list point) : list point :=
  match n with
  | O => vs
  | S n' => compress_phase1 n' (compress_down (length vs) (- Z.of_nat n) vs)
  end.
(** factories.py:360-366 *)
Fixpoint compress_up (fuel : nat) (index : Z) (vs : list point) : list point :=
  match fuel with
  | O => vs
  | S fuel' =>
      if ((Z.max 2 index <? lenZ vs)%Z
          && is_collinear (vget vs (index - 1)) (vget vs (index - 2)) (vget vs index))%bool
      then compress_up fuel' index (py_del vs (index - 1))
      else vs
  end.
(** lines 359-367: [while index < len(vertices)] from [index = 0] *)
Fixpoint compress_phase2 (fuel : nat) (index : Z) (vs : list point) : list point :=
  match fuel with
  | O => vs
  | S fuel' =>
      if (index <? lenZ vs)%Z
      then compress_phase2 fuel' (index + 1) (compress_up (length vs) index vs)
      else vs
  end.
(** For an empty list [index = 1] and neither loop is entered. *)
Definition compress_contour (vs : list point) : list point :=
  let vs1 := compress_phase1 (length vs - 1) vs in
  match vs with [] => [] | _ => compress_phase2 (S (length vs1)) 0 vs1 end.
(** factories.py:379-393 [_to_sub_hull]; [result] is kept reversed (last element first). *)
Fixpoint sub_hull_pop (result : list point) (p : point) : list point :=
  match result with
  | b :: ((a :: _) as rest) =>
      if orientation_eqb (angle_orientation a b p) CLOCKWISE then sub_hull_pop rest p
      else result
  | _ => result
  end.
(** factories.py:379-393 [_to_sub_hull] *)
Definition to_sub_hull (points : list point) : list point :=
  rev (fold_left (fun result p => p :: sub_hull_pop result p) points []).
(** factories.py:370-376 [to_max_convex_hull] *)
Definition to_max_convex_hull (points : list point) : list point :=
  let points := isort point_leb points in
  let lower := to_sub_hull points in
  let upper := to_sub_hull (rev points) in
  removelast lower ++ removelast upper.
(** factories.py:225-226 [_to_segment_angle] *)
Definition to_segment_angle (ctx : context) (s e : point) : res Qc :=
  ctx_atan2 ctx (py e - py s)%rough (px e - px s)%rough.
(** factories.py:254-263: drop vertices whose angle does not contain the centroid.  The
    index is advanced after a deletion as well. *)
Fixpoint drop_bad_angles (fuel : nat) (index : Z) (c : point) (vs : list point) : list point :=
  match fuel with
  | O => vs
  | S fuel' =>
      if (Z.max index 2 <? lenZ vs)%Z then
        let vs' :=
          if angle_contains_point (vget vs index) (vget vs (index - 1))
               (vget vs ((index + 1) mod lenZ vs)) c
          then vs else py_del vs index in
        drop_bad_angles fuel' (index + 1) c vs'
      else vs
  end.
(** factories.py:239-264: one iteration of the outer loop. *)
Definition star_step (ctx : context) (centroid : point) (result : list point)
  : res (point * list point) :=
  let* keyed := mapM (fun p => let* a := to_segment_angle ctx centroid p in Ok (a, p)) result in
  let result := last_of_groups (isort angle_point_leb keyed) in
  if (2 <? lenZ result)%Z then
    let* c := region_centroid result in
    let result := drop_bad_angles (S (length result)) 0 c result in
    Ok (c, compress_contour result)
  else Ok (centroid, result).
(** factories.py:229-265 [to_star_contour_vertices] *)
Definition to_star_contour_vertices (ctx : context) (points : list point) : res (list point) :=
  while_ (Pos.of_succ_nat (length points)) (fun st : point * list point * Z =>
    let '(centroid, result, prev_size) := st in
    if ((2 <? lenZ result) && (lenZ result <? prev_size))%Z%bool then
      let* (c, result') := star_step ctx centroid result in
      Ok (inl (c, result', lenZ result))
    else Ok (inr result))
    (multipoint_centroid points, points, (lenZ points + 1)%Z).
Open Scope Qc_scope. Open Scope rough_scope.
(** factories.py:290-306 [to_vectors_coordinates]; [bits] are the results of
    [random.getrandbits(1)], one per coordinate. *)
Fixpoint vectors_coordinates (coordinates : list Qc) (bits : list bool) (last_min last_max : Qc)
  (max_coordinate : Qc) : list Qc :=
  match coordinates with
  | [] => [max_coordinate - last_min; last_max - max_coordinate]
  | c :: cs =>
      if hd true bits then (c - last_min) :: vectors_coordinates cs (tl bits) c last_max max_coordinate
      else (last_max - c) :: vectors_coordinates cs (tl bits) last_min c max_coordinate
  end.
(** factories.py:290-306 [to_vectors_coordinates] *)
Definition to_vectors_coordinates (coordinates : list Qc) (bits : list bool)
  (min_coordinate max_coordinate : Qc) : list Qc :=
  vectors_coordinates coordinates bits min_coordinate min_coordinate max_coordinate.
(** factories.py:322-329: running sums and their minima. *)
Fixpoint walk (vectors : list (Qc * Qc)) (x y mx my : Qc) : list (Qc * Qc) * (Qc * Qc) :=
  match vectors with
  | [] => ([], (mx, my))
  | (vx, vy) :: rest =>
      let x' := x + vx in let y' := y + vy in
      let '(pairs, mins) := walk rest x' y' (qmin mx x') (qmin my y') in
      ((x, y) :: pairs, mins)
  end.
(** factories.py:268-340 [to_convex_vertex_sequence].  [bits_x], [bits_y] are the random
    bits and [shuffle] the permutation performed by [random.shuffle]. *)
Definition to_convex_vertex_sequence (ctx : context) (points : list point)
  (bits_x bits_y : list bool) (shuffle : list Qc -> list Qc) : res (list point) :=
  match split_ends (isort qleb (map px points)), split_ends (isort qleb (map py points)) with
  | Some (min_x, xs, max_x), Some (min_y, ys, max_y) =>
      let vectors_xs := to_vectors_coordinates xs bits_x min_x max_x in
      let vectors_ys := shuffle (to_vectors_coordinates ys bits_y min_y max_y) in
      let* keyed := mapM (fun v : Qc * Qc => let* a := ctx_atan2 ctx (snd v) (fst v) in Ok (a, v))
                         (combine vectors_xs vectors_ys) in
      let vectors := map snd (isort (fun a b : Qc * (Qc * Qc) => qleb (fst a) (fst b)) keyed) in
      let '(pairs, (mx, my)) := walk vectors 0 0 0 0 in
      let shift_x := min_x - mx in
      let shift_y := min_y - my in
      Ok (ctx_hull ctx
            (map (fun xy => Pt (qmin (qmax (fst xy + shift_x)%rough min_x) max_x)
                               (qmin (qmax (snd xy + shift_y)%rough min_y) max_y)) pairs))
  | _, _ => Raise ValueError
  end.
Close Scope rough_scope. Close Scope Qc_scope.
(** factories.py:651-662 [_is_convex_quadrilateral_diagonal]: a chained [is], i.e. all four
    orientations are COUNTERCLOCKWISE. *)
Definition is_convex_quadrilateral_diagonal (h : heap) (e : edge) : bool :=
  orientation_eqb (orientation_of h (right_from_start h e) (end_ h e)) COUNTERCLOCKWISE
  && orientation_eqb (orientation_of h (opposite (right_from_end h e)) (end_ h (left_from_start h e)))
       COUNTERCLOCKWISE
  && orientation_eqb (orientation_of h (left_from_end h e) (start h e)) COUNTERCLOCKWISE
  && orientation_eqb (orientation_of h (opposite (left_from_start h e)) (end_ h (right_from_start h e)))
       COUNTERCLOCKWISE.
(** factories.py:665-673 [_is_ear] *)
Definition is_ear (h : heap) (e : edge) : bool :=
  orientation_eqb (orientation_of h e (end_ h (right_from_end h e))) COUNTERCLOCKWISE
  && is_convex_quadrilateral_diagonal h
       (if edge_eqb (left_from_end h e) (right_from_end h e)
        then left_from_start h e else left_from_end h e).
(** factories.py:605-624 [_mouth_to_increment] *)
Definition mouth_to_increment (h : heap) (e : edge) : Z :=
  let col f p := b2z (orientation_eqb (orientation_of h f p) COLLINEAR) in
  (1 - col (left_from_start h e) (end_ h (right_from_start h e))
     - col (left_from_end h e) (end_ h (right_from_end h e))
     + col e (end_ h (right_from_start h e))
     + col e (end_ h (right_from_end h e)))%Z.
(** factories.py:627-648 [_ear_to_increment] *)
Definition ear_to_increment (h : heap) (e : edge) : Z :=
  let col f p := b2z (orientation_eqb (orientation_of h f p) COLLINEAR) in
  (col (right_from_end h e) (end_ h (right_from_end h (right_from_end h e)))
   + col e (end_ h (right_from_start h e))
   - col (right_from_start h e) (end_ h (right_from_end h e))
   - col (right_from_end h (right_from_end h e)) (start h e)
   - 1)%Z.
(** factories.py:563-579 [_edge_key] *)
Definition edge_key (fuel : positive) (h : heap) (e : edge) : res key :=
  let* weight := while_ fuel (fun st : edge * Z =>
    let '(cursor, weight) := st in
    let diagonal := is_convex_quadrilateral_diagonal h (left_from_end h cursor) in
    let* _ := assert_ (negb diagonal
                       || negb (edge_eqb (left_from_end h cursor) (right_from_end h cursor))) in
    let weight' := (weight + b2z diagonal)%Z in
    let cursor' := left_from_start h cursor in
    if edge_eqb cursor' e then Ok (inr weight') else Ok (inl (cursor', weight'))) (e, 0%Z) in
  Ok (weight, start h e, end_ h e).
(** [set_.add(e)]. *)
Definition kset_add (fuel : positive) (h : heap) (s : kset) (e : edge) : res kset :=
  let* k := edge_key fuel h e in
  Ok (if existsb (fun ke => key_eqb (fst ke) k) s then s else (k, e) :: s).
(** [increments[i].add(e)]. *)
Definition increments_add (fuel : positive) (h : heap) (sets : list kset) (i : Z) (e : edge)
  : res (list kset) :=
  match py_index sets i with
  | None => Raise IndexError
  | Some k =>
      let* s := kset_add fuel h (nth k sets []) e in
      Ok (set_nth k s sets)
  end.
(** factories.py:693-696, 711-713: the loop over the edges. *)
Fixpoint fold_increments (fuel : positive) (h : heap) (to_increment : heap -> edge -> Z)
  (offset : Z) (es : list edge) (sets : list kset) : res (list kset) :=
  match es with
  | [] => Ok sets
  | e :: es' =>
      let* sets' := increments_add fuel h sets (to_increment h e + offset) e in
      fold_increments fuel h to_increment offset es' sets'
  end.
(** factories.py:704-714 [_to_mouths_increments] *)
Definition to_mouths_increments (fuel : positive) (h : heap) (es : list edge) : res (list kset) :=
  fold_increments fuel h mouth_to_increment MAX_MOUTH_DECREMENT es
    (repeat [] (Z.to_nat (MAX_MOUTH_INCREMENT + 1 + MAX_MOUTH_DECREMENT))).
(** factories.py:687-697 [_to_ears_increments] *)
Definition to_ears_increments (fuel : positive) (h : heap) (es : list edge) : res (list kset) :=
  fold_increments fuel h ear_to_increment MAX_EAR_DECREMENT es
    (repeat [] (Z.to_nat (MAX_EAR_INCREMENT + 1 + MAX_EAR_DECREMENT))).
(** factories.py:467-471, 486-490: the diagonal of a candidate and whether it can be
    flipped. *)
Definition flippable (h : heap) (points : list point) (diagonal : edge) : bool :=
  negb (mem_point (end_ h (right_from_start h diagonal)) points)
  && is_convex_quadrilateral_diagonal h diagonal.
(** factories.py:462-478: the [for ... else] over the mouths of increment -1.  Returns
    [None] when the loop is exhausted (the [else: break]). *)
Fixpoint negative_mouths (n : nat) (h : heap) (points : list point) (s : kset) (cands : list edge)
  : res (option (edge * Z * heap) * kset * list edge) :=
  match n with
  | O => Ok (None, s, cands)
  | S n' =>
      let* (candidate, s') := kset_popmax s in
      let actual := mouth_to_increment h candidate in
      let* _ := assert_ (actual =? -1)%Z in
      let* mouth := is_mouth h candidate points in
      if mouth then
        let diagonal := left_from_end h candidate in
        if flippable h points diagonal then
          let h' := flip h diagonal in
          Ok (Some (candidate, mouth_to_increment h' candidate, h'), s', cands)
        else
          let* cands' := remove_edge candidate cands in
          negative_mouths n' h points s' cands'
      else negative_mouths n' h points s' cands
  end.
(** factories.py:483-505: the [for ... else] over the mouths recorded with [target]. *)
Fixpoint target_mouths (n : nat) (fuel : positive) (target : Z) (h : heap) (points : list point)
  (sets : list kset) (cands : list edge)
  : res (option (edge * Z) * heap * list kset * list edge) :=
  match n with
  | O => Ok (None, h, sets, cands)
  | S n' =>
      let k := Z.to_nat (target + MAX_MOUTH_DECREMENT) in
      let* (candidate, s') := kset_popmax (nth k sets []) in
      let sets' := set_nth k s' sets in
      let* mouth := is_mouth h candidate points in
      let diagonal := left_from_end h candidate in
      if (negb mouth && negb (flippable h points diagonal))%bool then
        let* cands' := remove_edge candidate cands in
        target_mouths n' fuel target h points sets' cands'
      else
        let h' := if mouth then h else flip h diagonal in
        let actual := mouth_to_increment h' candidate in
        if (actual =? target)%Z then Ok (Some (candidate, actual), h', sets', cands)
        else
          let* sets'' := increments_add fuel h' sets' (actual + MAX_MOUTH_DECREMENT) candidate in
          target_mouths n' fuel target h' points sets'' cands
  end.
(** factories.py:513-516: register the two new boundary edges. *)
Fixpoint register_neighbours (fuel : positive) (h : heap) (es : list edge) (cands : list edge)
  (sets : list kset) : res (list edge * list kset) :=
  match es with
  | [] => Ok (cands, sets)
  | e :: es' =>
      let* sets' := increments_add fuel h sets (mouth_to_increment h e + MAX_MOUTH_DECREMENT) e in
      register_neighbours fuel h es' (add_edge e cands) sets'
  end.
(** factories.py:506-516: remove the mouth [candidate]. *)
Definition remove_mouth (fuel : positive) (st : vstate) (candidate : edge) (actual target : Z)
  : res vstate :=
  let h := vs_heap st in
  let* _ := assert_ (actual =? target)%Z in
  let* mouth := is_mouth h candidate (vs_points st) in
  let* _ := assert_ mouth in
  let points := add_point (end_ h (left_from_start h candidate)) (vs_points st) in
  let neighbours := to_edge_neighbours h candidate in
  let* cands := remove_edge candidate (vs_cands st) in
  let* (t, h') := tri_delete h (vs_tri st) candidate in
  let* (cands', sets') := register_neighbours fuel h' neighbours cands (vs_sets st) in
  Ok (VState h' t points sets' cands' (vs_left st - actual)).
(** factories.py:448-516: one iteration of the mouth loop; [inr] leaves the loop. *)
Definition mouth_step (fuel : positive) (st : vstate) : res (vstate + vstate) :=
  if (vs_left st >? 0)%Z then
    match best_increment (skipn (Z.to_nat MAX_MOUTH_DECREMENT) (vs_sets st)) 0 (vs_left st) None with
    | None =>
        let s := nth 0 (vs_sets st) [] in
        let* (found, s', cands) :=
          negative_mouths (length s) (vs_heap st) (vs_points st) s (vs_cands st) in
        let sets := set_nth 0 s' (vs_sets st) in
        match found with
        | None => Ok (inr (VState (vs_heap st) (vs_tri st) (vs_points st) sets cands (vs_left st)))
        | Some (candidate, actual, h') =>
            let* st' := remove_mouth fuel (VState h' (vs_tri st) (vs_points st) sets cands (vs_left st))
                          candidate actual 1 in
            Ok (inl st')
        end
    | Some target =>
        let n := length (nth (Z.to_nat (target + MAX_MOUTH_DECREMENT)) (vs_sets st) []) in
        let* (found, h', sets, cands) :=
          target_mouths n fuel target (vs_heap st) (vs_points st) (vs_sets st) (vs_cands st) in
        match found with
        | None =>
            let* sets' := to_mouths_increments fuel h' cands in
            Ok (inl (VState h' (vs_tri st) (vs_points st) sets' cands (vs_left st)))
        | Some (candidate, actual) =>
            let* st' := remove_mouth fuel (VState h' (vs_tri st) (vs_points st) sets cands (vs_left st))
                          candidate actual target in
            Ok (inl st')
        end
    end
  else Ok (inr st).
(** factories.py:535-550: the [for ... else] over the ears recorded with [target]. *)
Fixpoint target_ears (n : nat) (fuel : positive) (target : Z) (h : heap) (sets : list kset)
  (cands : list edge) : res (option (edge * Z) * list kset * list edge) :=
  match n with
  | O => Ok (None, sets, cands)
  | S n' =>
      let k := Z.to_nat (target + MAX_EAR_DECREMENT) in
      let* (candidate, s') := kset_popmax (nth k sets []) in
      let sets' := set_nth k s' sets in
      if negb (is_ear h candidate) then
        let* cands' := remove_edge candidate cands in
        target_ears n' fuel target h sets' cands'
      else
        let actual := ear_to_increment h candidate in
        if (actual =? target)%Z then Ok (Some (candidate, actual), sets', cands)
        else
          let* sets'' := increments_add fuel h sets' (actual + MAX_EAR_DECREMENT) candidate in
          target_ears n' fuel target h sets'' cands
  end.
(** factories.py:521-559: one iteration of the ear loop. *)
Definition ear_step (fuel : positive) (st : vstate) : res (vstate + vstate) :=
  if (vs_left st >? 0)%Z then
    match best_increment (skipn (Z.to_nat MAX_EAR_DECREMENT) (vs_sets st)) 0 (vs_left st) None with
    | None => Ok (inr st)
    | Some target =>
        let n := length (nth (Z.to_nat (target + MAX_EAR_DECREMENT)) (vs_sets st) []) in
        let* (found, sets, cands) :=
          target_ears n fuel target (vs_heap st) (vs_sets st) (vs_cands st) in
        match found with
        | None =>
            let* sets' := to_ears_increments fuel (vs_heap st) cands in
            Ok (inl (VState (vs_heap st) (vs_tri st) (vs_points st) sets' cands (vs_left st)))
        | Some (candidate, actual) =>
            let* h := flip_fan fuel (vs_heap st) candidate in
            let* _ := assert_ (actual =? target)%Z in
            let* cands1 := remove_edge candidate cands in
            let ear_base := left_from_start h candidate in
            let* (t, h1) := tri_delete h (vs_tri st) candidate in
            let h2 := flip h1 (right_from_end h1 candidate) in
            Ok (inl (VState h2 t (vs_points st) sets (add_edge ear_base cands1) (vs_left st - actual)))
        end
    end
  else Ok (inr st).
(** factories.py:717-722 [_triangulation_to_border_vertices] *)
Definition triangulation_to_border_vertices (fuel : positive) (h : heap) (t : tri)
  : res (list point) :=
  let* edges := to_boundary_edges fuel h t in
  Ok (compress_contour (map (start h) edges)).
(** factories.py:432-560 [_to_vertex_sequence] *)
Definition to_vertex_sequence_ (fuel : positive) (h : heap) (t : tri) (boundary_edges : list edge)
  (size : Z) : res (list point) :=
  let boundary_points := points_set (map (start h) boundary_edges) in
  let boundary_vertices := compress_contour (map (start h) boundary_edges) in
  if (lenZ boundary_vertices <? MIN_CONTOUR_SIZE)%Z then Ok boundary_vertices
  else
    let* sets := to_mouths_increments fuel h boundary_edges in
    let* st := while_ fuel (mouth_step fuel)
      (VState h t boundary_points sets boundary_edges (size - lenZ boundary_vertices)) in
    let* ears := if (vs_left st >? 0)%Z then to_boundary_edges fuel (vs_heap st) (vs_tri st)
                 else Ok [] in
    let* ear_sets := to_ears_increments fuel (vs_heap st) ears in
    let* st' := while_ fuel (ear_step fuel)
      (VState (vs_heap st) (vs_tri st) (vs_points st) ear_sets ears (vs_left st)) in
    triangulation_to_border_vertices fuel (vs_heap st') (vs_tri st').
(** factories.py:408-429 [to_vertex_sequence] *)
Definition to_vertex_sequence (ctx : context) (points : list point) (size : Z) : res (list point) :=
  let* (t, h) := delaunay ctx points in
  let* boundary_edges := to_boundary_edges (ctx_fuel ctx) h t in
  to_vertex_sequence_ (ctx_fuel ctx) h t boundary_edges size.
(** factories.py:36-73 [to_multicontour].  [choices] are the successive results of the
    chooser, one per size ([zip] stops at the shorter list; the strategy draws one choice
    per size).  Re-sorting only when the key changes (line 56) is part of the model. *)
Fixpoint multicontour_loop (ctx : context) (sizes : list Z) (choices : list bool)
  (prior : option bool) (points : list point) (result : list contour) : res (list contour) :=
  match sizes, choices with
  | size :: sizes', k :: choices' =>
      let points :=
        if match prior with Some k' => Bool.eqb k k' | None => false end
        then points else sort_points k points in
      let* vertices := to_vertex_sequence ctx (py_take points size) size in
      if (MIN_CONTOUR_SIZE <=? lenZ vertices)%Z then
        let* touch := touch_predicate k (contour_segments vertices) in
        multicontour_loop ctx sizes' choices' (Some k) (py_drop points (size - b2z touch))
          (result ++ [vertices])
      else multicontour_loop ctx sizes' choices' (Some k) points result
  | _, _ => Ok result
  end.
(** factories.py:36-73 [to_multicontour] *)
Definition to_multicontour (ctx : context) (points : list point) (sizes : list Z)
  (choices : list bool) : res (list contour) :=
  multicontour_loop ctx sizes choices None points [].
(** factories.py:100-129: the hole loop of [to_polygon].  Returns the holes and the
    updated boundary points. *)
Fixpoint hole_loop (ctx : context) (sizes : list Z) (choices : list bool)
  (prior : option bool) (inner : list point) (holes : list contour) (boundary_points : list point)
  : res (list contour * list point) :=
  match sizes, choices with
  | size :: sizes', k :: choices' =>
      let inner :=
        if match prior with Some k' => Bool.eqb k k' | None => false end
        then inner else sort_points k inner in
      let hole_points := py_take inner size in
      let* vertices := to_vertex_sequence ctx hole_points size in
      if (MIN_CONTOUR_SIZE <=? lenZ vertices)%Z then
        let hole := reverse_vertices vertices in
        let* _ := assert_ (contours_do_not_cross_or_overlap (holes ++ [hole])) in
        let boundary_points := fold_left (fun acc p => add_point p acc) hole_points boundary_points in
        let* touch := touch_predicate k (contour_segments hole) in
        hole_loop ctx sizes' choices' (Some k)
          (py_drop inner (lenZ hole_points - b2z touch)) (holes ++ [hole]) boundary_points
      else hole_loop ctx sizes' choices' (Some k) inner holes boundary_points
  | _, _ => Ok (holes, boundary_points)
  end.
(** factories.py:131-152 [to_cross_or_overlap_segment_detector] *)
Definition cross_or_overlap_holes (ctx : context) (hole_edges : list segment) (s : segment) : bool :=
  match hole_edges with
  | [] => false
  | _ => segments_cross_or_overlap (ctx_nearest ctx hole_edges s) s
  end.
(** factories.py:154-170 [is_mouth] of [to_polygon] *)
Definition polygon_is_mouth (ctx : context) (hole_edges : list segment) (h : heap)
  (boundary_points : list point) (e : edge) : bool :=
  let neighbour_end := end_ h (left_from_start h e) in
  negb (mem_point neighbour_end boundary_points)
  && negb (cross_or_overlap_holes ctx hole_edges (Seg (start h e) neighbour_end))
  && negb (cross_or_overlap_holes ctx hole_edges (Seg (end_ h e) neighbour_end)).
(** factories.py:186-195: the set of the removable boundary edges. *)
Fixpoint kset_of_list (fuel : positive) (h : heap) (es : list edge) (s : kset) : res kset :=
  match es with
  | [] => Ok s
  | e :: es' => let* s' := kset_add fuel h s e in kset_of_list fuel h es' s'
  end.
(** factories.py:211-213 *)
Fixpoint add_neighbours (fuel : positive) (h : heap) (es : list edge) (cands : kset)
  (d : list (edge * list edge)) : res (kset * list (edge * list edge)) :=
  match es with
  | [] => Ok (cands, d)
  | e :: es' =>
      let d' := dict_set d e (to_edge_neighbours h e) in
      let* cands' := kset_add fuel h cands e in
      add_neighbours fuel h es' cands' d'
  end.
(** factories.py:199-213: one iteration of the border loop. *)
Definition border_step (fuel : positive) (ctx : context) (hole_edges : list segment)
  (border_size : Z) (st : pstate) : res (pstate + pstate) :=
  if (p_size st <? border_size)%Z then
    match kset_popmax (p_cands st) with
    | Raise ValueError => Ok (inr st)
    | Raise e => Raise e
    | Ok (e, cands) =>
        let h := p_heap st in
        if negb (polygon_is_mouth ctx hole_edges h (p_points st) e) then
          Ok (inl (PState h (p_tri st) (p_points st) cands (p_neighbours st) (p_size st)))
        else
          let points := add_point (end_ h (left_from_start h e)) (p_points st) in
          let* (t, h') := tri_delete h (p_tri st) e in
          let* (neighbours, d) := dict_pop (p_neighbours st) e in
          let* (cands', d') := add_neighbours fuel h' neighbours cands d in
          Ok (inl (PState h' t points cands' d' (p_size st + 1)))
    end
  else Ok (inr st).
(** factories.py:76-216 [to_polygon] *)
Definition to_polygon (ctx : context) (points : list point) (border_size : Z)
  (hole_sizes : list Z) (choices : list bool) : res polygon :=
  let fuel := ctx_fuel ctx in
  let* (t, h) := delaunay ctx points in
  let* boundary_edges := to_boundary_edges fuel h t in
  let boundary_points := points_set (map (start h) boundary_edges) in
  let inner := filter (fun p => negb (mem_point p boundary_points)) (points_set points) in
  let* (hs, boundary_points) := hole_loop ctx hole_sizes choices None inner [] boundary_points in
  let hole_edges := flat_map contour_segments hs in
  let d := map (fun e => (e, to_edge_neighbours h e)) boundary_edges in
  let* cands := kset_of_list fuel h
    (filter (polygon_is_mouth ctx hole_edges h boundary_points) boundary_edges) [] in
  let boundary_vertices := compress_contour (map (start h) boundary_edges) in
  let* st := while_ fuel (border_step fuel ctx hole_edges border_size)
    (PState h t boundary_points cands d (lenZ boundary_vertices)) in
  let* border_vertices := triangulation_to_border_vertices fuel (p_heap st) (p_tri st) in
  let* _ := assert_ (MIN_CONTOUR_SIZE <=? lenZ border_vertices)%Z in
  Ok (Poly border_vertices hs).
End Rough.
