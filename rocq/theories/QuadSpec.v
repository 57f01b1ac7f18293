(** Specification vocabulary of the quad-edge structure and of triangulations.

    A quad-edge structure is read through three functions only: [rotated], which turns an edge
    by a quarter, [left_from_start], the next edge counterclockwise around the start, and
    [start].  Edges of rotation 0 and 2 are the two directions of a primal edge. *)
From Verif Require Import Base Geometry Ctx QuadEdge Triangulation Factories.

(** [e] is one of the four rotations of an edge that has been created in [h]. *)
Definition exists_in (h : heap) (e : edge) : Prop := fst e < h_count h.
(** [e] is a direction of a primal edge that has been created in [h]. *)
Definition directed_in (h : heap) (e : edge) : Prop := exists_in h e /\ (snd e = R0 \/ snd e = R2).

(** Structures obtained from the empty one by any sequence of operations of the module. *)
Inductive built : heap -> Prop :=
| built_empty p : built (empty_heap p)
| built_from_endpoints h s e : built h -> built (snd (from_endpoints h s e))
| built_splice h a b : built h -> directed_in h a -> directed_in h b -> built (splice h a b)
| built_connect h e o : built h -> directed_in h e -> directed_in h o -> built (snd (connect h e o))
| built_delete h e : built h -> directed_in h e -> built (delete h e)
| built_flip h e : built h -> directed_in h e -> built (flip h e).

(** The same, except that splicing joins edges with the same start and that only diagonals of
    strictly convex quadrilaterals are flipped. *)
Inductive drawn_built : heap -> Prop :=
| drawn_empty p : drawn_built (empty_heap p)
| drawn_from_endpoints h s e : drawn_built h -> drawn_built (snd (from_endpoints h s e))
| drawn_splice h a b : drawn_built h -> directed_in h a -> directed_in h b -> start h a = start h b ->
    drawn_built (splice h a b)
| drawn_connect h e o : drawn_built h -> directed_in h e -> directed_in h o -> drawn_built (snd (connect h e o))
| drawn_delete h e : drawn_built h -> directed_in h e -> drawn_built (delete h e)
| drawn_flip h e : drawn_built h -> directed_in h e -> is_convex_quadrilateral_diagonal h e = true ->
    drawn_built (flip h e).

(** Triangulations obtained from the one of [pts] by deleting edges and flipping edges that
    satisfy [may_flip]. *)
Inductive triangulation_of (may_flip : heap -> edge -> Prop) (ctx : context) (pts : list point)
  : tri -> heap -> Prop :=
| triangulation_delaunay t h : delaunay ctx pts = Ok (t, h) -> triangulation_of may_flip ctx pts t h
| triangulation_delete t h e t' h' : triangulation_of may_flip ctx pts t h -> directed_in h e ->
    tri_delete h t e = Ok (t', h') -> triangulation_of may_flip ctx pts t' h'
| triangulation_flip t h e : triangulation_of may_flip ctx pts t h -> directed_in h e -> may_flip h e ->
    triangulation_of may_flip ctx pts t (flip h e).
Definition any_flip : heap -> edge -> Prop := fun _ _ => True.
Definition convex_flip : heap -> edge -> Prop := fun h e => is_convex_quadrilateral_diagonal h e = true.

(** [es] is a closed walk without repetition that follows [next]. *)
Definition edge_cycle (next : edge -> edge) (es : list edge) : Prop :=
  es <> [] /\ NoDup es /\
  forall i e, nth_error es i = Some e -> nth_error es (S i mod length es) = Some (next e).
