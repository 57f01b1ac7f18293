(** Vocabulary for the properties on what happens when the arguments of a call are relaxed. *)
From Coq Require Import Znumtheory.
From Verif Require Import Base Prog Spec.

(** Every size allowed by the bounds [mn, mx] is allowed by the bounds [mn', mx']. *)
Definition wider (mn : Z) (mx : option Z) (mn' : Z) (mx' : option Z) : Prop :=
  (mn' <= mn)%Z /\ forall m', mx' = Some m' -> exists m, mx = Some m /\ (m <= m')%Z.
(** There is no maximum, or there is a prime number greater than 3 between the two numbers. *)
Definition prime_between (mn : Z) (mx : option Z) : Prop :=
  forall m, mx = Some m -> exists q, prime q /\ (3 < q)%Z /\ (mn <= q <= m)%Z.
(** Every scalar that can be drawn from the first strategy can be drawn from the second one. *)
Definition richer (s s' : scalars) : Prop := forall q, drawable s q -> drawable s' q.
(** Every value that the first strategy can produce, the second one can produce as well. *)
Definition covered {A} (p p' : prog A) : Prop := forall a, generates p a -> generates p' a.

(** The product of two maxima, if there are both; the largest number of vertices of a polygon. *)
Definition max_product (a b : option Z) : option Z :=
  match a, b with Some a, Some b => Some (a * b)%Z | _, _ => None end.
Definition max_vertices (border holes hole : option Z) : option Z :=
  match border, max_product holes hole with Some m, Some k => Some (m + k)%Z | _, _ => None end.

(** At most a prime number that is at most [m]. *)
Definition prime_capped (m n : Z) : Prop := exists q, prime q /\ (q <= m)%Z /\ (n <= q)%Z.
