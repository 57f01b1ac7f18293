(** Corners of a contour. *)
From Coq Require Import List.
From Verif Require Import Base Geometry Ctx Spec QuadEdge Triangulation Factories.
Import ListNotations.
Local Open Scope Z_scope.

(** One for an angle that is not straight. *)
Definition bend (a b c : point) : Z := if Qc_eq_dec (cross a b c) 0 then 0 else 1.
(** The number of angles that are not straight along a path, and around a contour. *)
Fixpoint bends (l : list point) : Z :=
  match l with
  | a :: ((b :: c :: _) as r) => bend a b c + bends r
  | _ => 0
  end.
Definition corners (vs : contour) : Z :=
  match vs with
  | a :: b :: _ => bends (vs ++ [a; b])
  | _ => 0
  end.

(** What is left to carve when the loop over the mouths of [_to_vertex_sequence] (factories.py:432-516) ends, i.e. the number of
    vertices still missing; if positive, the loop over the ears follows. *)
Definition mouths_left (ctx : context) (points : list point) (size : Z) : res Z :=
  let* (t, h) := delaunay ctx points in
  let* es := to_boundary_edges (ctx_fuel ctx) h t in
  let vs := map (start h) es in
  let* sets := to_mouths_increments (ctx_fuel ctx) h es in
  let* st := while_ (ctx_fuel ctx) (mouth_step (ctx_fuel ctx))
    (VState h t (points_set vs) sets es (size - lenZ (compress_contour vs))) in
  Ok (vs_left st).
