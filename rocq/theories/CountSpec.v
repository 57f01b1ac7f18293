(** Vocabulary for the properties on the numbers of contours and holes that can be reached. *)
From Coq Require Import Znumtheory.
From Verif Require Import Base Prog Geometry Ctx Spec.

(** Points are drawn in prime numbers (greater than 3).  With bounds [mn] and [mx] on the number of points,
    there may be [n] points or more if some prime number, not less than [n], does not exceed [mx], or
    else is the least one that reaches [mn]. *)
Definition enough_points (mn : Z) (mx : option Z) (n : Z) : Prop :=
  exists q, prime q /\ (3 < q)%Z /\ (n <= q)%Z /\
    forall m, mx = Some m -> (q <= m)%Z \/ smallest_prime_above mn q.
