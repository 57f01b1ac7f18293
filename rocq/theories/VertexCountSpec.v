(** Numbers of vertices and numbers of coordinates. *)
From Verif Require Import Base Prog Geometry Spec.
From Coq Require Import Znumtheory.
Import List ListNotations.
Local Open Scope Z_scope.

(** The number of different points of the list is at most some prime number from 5 to [n]. *)
Definition few_points (n : Z) (l : list point) : Prop :=
  exists r, prime r /\ 5 <= r <= n /\ forall m, NoDup m -> incl m l -> lenZ m <= r.
(** All abscissas that can be drawn are in the list, or all ordinates that can be drawn are. *)
Definition only_coordinates (xs : scalars) (ys : option scalars) (l : list Qc) : Prop :=
  (forall x, drawable xs x -> In x l) \/ (forall y, drawable (ordinates xs ys) y -> In y l).
