(** Model of hypothesis_geometry/_core/triangular.py.

    Every [while] loop takes an iteration bound [fuel]; exceeding it is [OutOfFuel]. *)
From Verif Require Import Base Geometry Ctx QuadEdge Utils.

(** triangular.py:46-59: the two mutable sides of a [Triangulation]. *)
Record tri := Tri { left_side : edge; right_side : edge }.

(** triangular.py:74-84 [Triangulation.delete] (with its two assertions). *)
Definition tri_delete (h : heap) (t : tri) (e : edge) : res (tri * heap) :=
  let* t1 :=
    if edge_eqb e (right_side t) || edge_eqb (opposite e) (right_side t) then
      let r := opposite (right_from_end h (right_side t)) in
      let* _ := assert_ (negb (edge_eqb (right_side t) r)) in
      Ok (Tri (left_side t) r)
    else Ok t in
  let* t2 :=
    if edge_eqb e (left_side t1) || edge_eqb (opposite e) (left_side t1) then
      let l := left_from_start h (left_side t1) in
      let* _ := assert_ (negb (edge_eqb (left_side t1) l)) in
      Ok (Tri l (right_side t1))
    else Ok t1 in
  Ok (t2, delete h e).

(** triangular.py:129-147 [_to_left_candidate]; lines 135-146 are the loop. *)
Definition to_left_candidate (fuel : positive) (h : heap) (base : edge)
  : res (option edge * heap) :=
  let result := left_from_start h (opposite base) in
  if negb (orientation_eqb (orientation_of h base (end_ h result)) CLOCKWISE)
  then Ok (None, h)
  else while_ fuel (fun st : edge * heap =>
         let '(result, h) := st in
         let nxt := left_from_start h result in
         if in_circle_interior (end_ h nxt) (end_ h base) (start h base) (end_ h result)
            && orientation_eqb (orientation_of h base (end_ h nxt)) CLOCKWISE
         then Ok (inl (nxt, delete h result))
         else Ok (inr (Some result, h))) (result, h).

(** triangular.py:149-167 [_to_right_candidate] *)
Definition to_right_candidate (fuel : positive) (h : heap) (base : edge)
  : res (option edge * heap) :=
  let result := right_from_start h base in
  if negb (orientation_eqb (orientation_of h base (end_ h result)) CLOCKWISE)
  then Ok (None, h)
  else while_ fuel (fun st : edge * heap =>
         let '(result, h) := st in
         let nxt := right_from_start h result in
         if in_circle_interior (end_ h nxt) (end_ h base) (start h base) (end_ h result)
            && orientation_eqb (orientation_of h base (end_ h nxt)) CLOCKWISE
         then Ok (inl (nxt, delete h result))
         else Ok (inr (Some result, h))) (result, h).

(** triangular.py:95-118 [_connect]; the [assert right_candidate is not None] of line 115
    holds because the first disjunct excludes both being [None]. *)
Definition connect_parts (fuel : positive) (h : heap) (base : edge) : res heap :=
  while_ fuel (fun st : edge * heap =>
    let '(base, h) := st in
    let* (lc, h1) := to_left_candidate fuel h base in
    let* (rc, h2) := to_right_candidate fuel h1 base in
    match lc, rc with
    | None, None => Ok (inr h2)
    | None, Some r =>
        let '(e, h3) := connect h2 r (opposite base) in Ok (inl (e, h3))
    | Some l, None =>
        let '(e, h3) := connect h2 (opposite base) (opposite l) in Ok (inl (e, h3))
    | Some l, Some r =>
        if in_circle_interior (end_ h2 r) (end_ h2 l) (end_ h2 base) (start h2 base)
        then let '(e, h3) := connect h2 r (opposite base) in Ok (inl (e, h3))
        else let '(e, h3) := connect h2 (opposite base) (opposite l) in Ok (inl (e, h3))
    end) (base, h).

(** triangular.py:169-188 [_find_base_edge]: returns the base edge and the two updated
    triangulations. *)
Definition find_base_edge (fuel : positive) (h : heap) (self other : tri)
  : res (edge * tri * tri * heap) :=
  let* (rs, ls) := while_ fuel (fun st : edge * edge =>
      let '(rs, ls) := st in
      if orientation_eqb (orientation_of h rs (start h ls)) COUNTERCLOCKWISE
      then Ok (inl (left_from_end h rs, ls))
      else if orientation_eqb (orientation_of h ls (start h rs)) CLOCKWISE
      then Ok (inl (rs, right_from_end h ls))
      else Ok (inr (rs, ls))) (right_side self, left_side other) in
  let '(base, h1) := connect h (opposite ls) rs in
  let self' := if point_eqb (start h1 rs) (start h1 (left_side self))
               then Tri (opposite base) rs else Tri (left_side self) rs in
  let other' := if point_eqb (start h1 ls) (start h1 (right_side other))
                then Tri ls base else Tri ls (right_side other) in
  Ok (base, self', other', h1).

(** triangular.py:190-192 [_merge] *)
Definition merge (fuel : positive) (h : heap) (self other : tri) : res (tri * heap) :=
  let* (base, self', other', h1) := find_base_edge fuel h self other in
  let* h2 := connect_parts fuel h1 base in
  Ok (Tri (left_side self') (right_side other'), h2).

(** triangular.py:195-202 [_triangulate_two_points] *)
Definition triangulate_two_points (h : heap) (p q : point) : tri * heap :=
  let '(first_edge, h1) := from_endpoints h p q in
  (Tri first_edge (opposite first_edge), h1).

(** triangular.py:205-224 [_triangulate_three_points] *)
Definition triangulate_three_points (h : heap) (p q r : point) : tri * heap :=
  let '(first_edge, h1) := from_endpoints h p q in
  let '(second_edge, h2) := from_endpoints h1 q r in
  let h3 := splice h2 (opposite first_edge) second_edge in
  match orientation_of h3 first_edge r with
  | COUNTERCLOCKWISE =>
      let '(_, h4) := connect h3 second_edge first_edge in
      (Tri first_edge (opposite second_edge), h4)
  | CLOCKWISE =>
      let '(third_edge, h4) := connect h3 second_edge first_edge in
      (Tri (opposite third_edge) third_edge, h4)
  | COLLINEAR => (Tri first_edge (opposite second_edge), h3)
  end.

(** triangular.py:120-127, 227 [_initialize_triangulation], [_base_cases]: any other size
    is a [KeyError]. *)
Definition initialize_triangulation (h : heap) (points : list point) : res (tri * heap) :=
  match points with
  | [p; q] => Ok (triangulate_two_points h p q)
  | [p; q; r] => Ok (triangulate_three_points h p q r)
  | _ => Raise KeyError
  end.

(** triangular.py:28-34: slices [points[start:stop]] of the sorted points. *)
Fixpoint slices {A} (l : list A) (sizes : list nat) : list (list A) :=
  match sizes with
  | [] => []
  | n :: sizes' => firstn n l :: slices (skipn n l) sizes'
  end.
(** triangular.py:28-34: [_initialize_triangulation] of every slice, in order. *)
Fixpoint initialize_all (h : heap) (parts : list (list point)) : res (list tri * heap) :=
  match parts with
  | [] => Ok ([], h)
  | p :: parts' =>
      let* (t, h1) := initialize_triangulation h p in
      let* (ts, h2) := initialize_all h1 parts' in
      Ok (t :: ts, h2)
  end.

(** triangular.py:35-43: one round of pairwise merges. *)
Fixpoint merge_round (fuel : positive) (h : heap) (ts : list tri) : res (list tri * heap) :=
  match ts with
  | a :: b :: ts' =>
      let* (t, h1) := merge fuel h a b in
      let* (ts'', h2) := merge_round fuel h1 ts' in
      Ok (t :: ts'', h2)
  | _ => Ok (ts, h)
  end.
(** triangular.py:35-43: the rounds. *)
Fixpoint merge_rounds (fuel : positive) (rounds : nat) (h : heap) (ts : list tri)
  : res (list tri * heap) :=
  match rounds with
  | O => Ok (ts, h)
  | S k => let* (ts', h') := merge_round fuel h ts in merge_rounds fuel k h' ts'
  end.

(** triangular.py:20-44 [Triangulation.delaunay] *)
Definition delaunay (ctx : context) (points : list point) : res (tri * heap) :=
  let points := isort point_leb points in
  let* (ts, h) := initialize_all (empty_heap (hd (Pt (Q2Qc 0) (Q2Qc 0)) points))
                    (slices points (ctx_coins ctx (length points))) in
  let* (ts', h') := merge_rounds (ctx_fuel ctx) (Z.to_nat (ceil_log2 (Z.of_nat (length ts)))) h ts in
  match ts' with t :: _ => Ok (t, h') | [] => Raise IndexError end.

(** triangular.py:235-251 [to_boundary_edges] *)
Definition to_boundary_edges (fuel : positive) (h : heap) (t : tri) : res (list edge) :=
  let s := left_side t in
  let* r := while_ fuel (fun st : edge * list edge =>
    let '(cursor, acc) := st in
    let acc' := cursor :: acc in
    let nxt := right_from_end h cursor in
    if edge_eqb nxt s then Ok (inr acc') else Ok (inl (nxt, acc'))) (s, []) in
  Ok (rev r).
