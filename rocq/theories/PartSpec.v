(** Vocabulary for C96: what the parts of a value are values of. *)
From Verif Require Import Base Prog Geometry Spec.

(** The contour turns in one direction at all of its vertices, or is straight at all of them. *)
Definition turns_agree (vs : list point) : Prop :=
  (forall a b c, contour_turn vs a b c -> left_turn a b c) \/
  (forall a b c, contour_turn vs a b c -> right_turn a b c) \/
  (forall a b c, contour_turn vs a b c -> collinear a b c).
