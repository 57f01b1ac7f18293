(** What is required of the function that tells the angle of a vector, for the theorems on the
    shape of star contours. *)
From Verif Require Import Base Geometry Ctx.
Open Scope Qc_scope.

(** The direction of the vector [(x, y)] is smaller than the direction of [(x', y')], both taken in
    the half-open range from minus half a turn (excluded) to half a turn (included).  Directions
    below the horizontal axis come first.  In the same half of the plane the second vector is
    to the left of the first one.  The first may also point to the right (or be zero, a vector
    whose angle is 0) when the second does not. *)
Definition smaller_direction (x y x' y' : Qc) : Prop :=
  (y < 0 /\ 0 <= y')
  \/ (y < 0 /\ y' < 0 /\ 0 < x * y' - x' * y)
  \/ (0 <= y /\ 0 <= y' /\ (0 < x * y' - x' * y \/ (y = 0 /\ 0 <= x /\ (0 < y' \/ x' < 0)))).

(** When the computed angle of a vector is smaller than that of another one, so is its
    direction.  Vectors of different directions may get equal angles, as rounding does. *)
Definition orders_directions (ctx : context) : Prop :=
  forall x y x' y' a a', ctx_atan2 ctx y x = Ok a -> ctx_atan2 ctx y' x' = Ok a' -> a < a' ->
    smaller_direction x y x' y'.
