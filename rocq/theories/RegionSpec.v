(** Vocabulary for the properties on the regions bounded by contours. *)
From Verif Require Import Base Geometry Spec WindSpec.

(** The contour goes around the point, or it does not; the point is not on the contour. *)
Definition inside_of (vs : contour) (q : point) : Prop := winding q vs <> 0%Z /\ ~ on_contour q vs.
Definition outside_of (vs : contour) (q : point) : Prop := winding q vs = 0%Z /\ ~ on_contour q vs.
(** No point inside one of the contours is inside the other or on it. *)
Definition regions_apart (vs ws : contour) : Prop :=
  (forall q, inside_of vs q -> outside_of ws q) /\ (forall q, inside_of ws q -> outside_of vs q).
