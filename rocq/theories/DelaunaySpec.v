(** What it means that a quad-edge structure is the Delaunay triangulation of some points. *)
From Verif Require Import Base Geometry QuadEdge Triangulation Spec.

(** The edges that can be reached from [e] by going around starts and by reversing edges. *)
Inductive reaches (h : heap) (e : edge) : edge -> Prop :=
| reaches_self : reaches h e e
| reaches_next d : reaches h e d -> reaches h e (left_from_start h d)
| reaches_opposite d : reaches h e d -> reaches h e (opposite d).

Definition squared_distance (p q : point) : Qc :=
  ((px p - px q) * (px p - px q) + (py p - py q) * (py p - py q))%Qc.
(** The circle through [a], [b], [c] has none of the points strictly inside. *)
Definition empty_circle (points : list point) (a b c : point) : Prop :=
  exists o, squared_distance o a = squared_distance o b /\ squared_distance o b = squared_distance o c
    /\ forall q, In q points -> (squared_distance o a <= squared_distance o q)%Qc.

(** Lexicographic order. *)
Definition point_before (p q : point) : Prop :=
  (px p < px q)%Qc \/ (px p = px q /\ (py p < py q)%Qc).

Record is_delaunay (points : list point) (t : tri) (h : heap) : Prop := {
  (** Edges join two different points, and are determined by them. *)
  dt_ends : forall e, reaches h (left_side t) e ->
    In (start h e) points /\ In (end_ h e) points /\ start h e <> end_ h e;
  dt_unique : forall e e', reaches h (left_side t) e -> reaches h (left_side t) e' ->
    start h e = start h e' -> end_ h e = end_ h e' -> e = e';
  (** Going around a start keeps the start. *)
  dt_ring : forall e, reaches h (left_side t) e -> start h (left_from_start h e) = start h e;
  (** Every point is used. *)
  dt_points : forall p, In p points -> exists e, reaches h (left_side t) e /\ start h e = p;
  (** No point is inside an edge, and edges do not cross or overlap. *)
  dt_clean : forall e q, reaches h (left_side t) e -> In q points -> ~ inside q (start h e) (end_ h e);
  dt_planar : forall e e', reaches h (left_side t) e -> reaches h (left_side t) e' ->
    interiors_meet (Seg (start h e) (end_ h e)) (Seg (start h e') (end_ h e')) -> e' = e \/ e' = opposite e;
  (** On the left of an edge there is a triangle with an empty circumcircle, or nothing at all. *)
  dt_faces : forall e, reaches h (left_side t) e ->
    let a := start h e in let b := end_ h e in let c := end_ h (left_from_start h e) in
    (left_turn a b c /\ (exists f, reaches h (left_side t) f /\ start h f = b /\ end_ h f = c)
       /\ empty_circle points a b c)
    \/ (forall q, In q points -> ~ left_turn a b q);
  (** The two sides that are kept start at the first and at the last point in lexicographic order and
      have all points on one side. *)
  dt_left : forall q, In q points ->
    (q = start h (left_side t) \/ point_before (start h (left_side t)) q)
    /\ ~ right_turn (start h (left_side t)) (end_ h (left_side t)) q;
  dt_right : reaches h (left_side t) (right_side t) /\ forall q, In q points ->
    (q = start h (right_side t) \/ point_before q (start h (right_side t)))
    /\ ~ left_turn (start h (right_side t)) (end_ h (right_side t)) q
}.
