(** Vocabulary for the property on the sizes of contours that can be reached. *)
From Coq Require Import List.
From Verif Require Import Base Prog Geometry Ctx Spec.
Import List.

(** The whole numbers from 0 to [k] can be drawn both as abscissas and as ordinates. *)
Definition draws_upto (xs : scalars) (ys : option scalars) (k : Z) : Prop :=
  forall z, (0 <= z <= k)%Z -> drawable xs (Qc_of_Z z) /\ drawable (ordinates xs ys) (Qc_of_Z z).
(** The convex hull of points that are not on one line is not degenerate. *)
Definition spans_hulls (ctx : context) : Prop :=
  (forall l, is_hull l (ctx_hull ctx l)) /\
  forall l a b c, In a l -> In b l -> In c l -> ~ collinear a b c -> 3 <= length (ctx_hull ctx l).
(** [math.atan2] never raises an exception. *)
Definition total_directions (ctx : context) : Prop := forall y x, exists a, ctx_atan2 ctx y x = Ok a.
