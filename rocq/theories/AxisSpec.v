(** Vertices on lines parallel to the axes. *)
From Verif Require Import Base Geometry Spec.
Import List ListNotations.

(** Different points of the list differ in the coordinate. *)
Definition told_apart (coordinate : point -> Qc) (l : list point) : Prop :=
  forall u v, In u l -> In v l -> coordinate u = coordinate v -> u = v.
(** No vertical line passes through two points of the list, or no horizontal line does; and no line of either direction
    passes through three. *)
Definition sparse_vertices (l : list point) : Prop :=
  (told_apart px l \/ told_apart py l) /\ at_most_twice px l /\ at_most_twice py l.
(** The vertices of the border and of the holes. *)
Definition all_vertices (p : polygon) : list point := border p ++ concat (holes p).
