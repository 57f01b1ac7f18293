(** Vocabulary for the bounding box of convex contours. *)
From Verif Require Import Base Prog Geometry Ctx Spec.
Open Scope Qc_scope.

(** Vectors that point to different sides of the vertical, or of the horizontal axis, never get
    the same angle. *)
Definition tells_sides (ctx : context) : Prop :=
  forall x y x' y' a, ctx_atan2 ctx y x = Ok a -> ctx_atan2 ctx y' x' = Ok a -> ~ (x < 0 /\ 0 < x') /\ ~ (y < 0 /\ 0 < y').

(** The bounds of the points in both directions are values which can be drawn. *)
Definition drawable_bounds (xs : scalars) (ys : option scalars) (vs : list point) : Prop :=
  (exists v, In v vs /\ drawable xs (px v) /\ forall w, In w vs -> px v <= px w) /\
  (exists v, In v vs /\ drawable xs (px v) /\ forall w, In w vs -> px w <= px v) /\
  (exists v, In v vs /\ drawable (ordinates xs ys) (py v) /\ forall w, In w vs -> py v <= py w) /\
  (exists v, In v vs /\ drawable (ordinates xs ys) (py v) /\ forall w, In w vs -> py w <= py v).
