(** Vocabulary about convex hulls for the properties of [to_max_convex_hull]. *)
From Verif Require Import Base Geometry.

(** [v] is one of the points and lies on the boundary of their convex hull: some line through
    [v] has no point of the list on its positive side. *)
Definition on_hull_boundary (l : list point) (v : point) : Prop :=
  In v l /\ exists dx dy : Qc, (dx <> 0 \/ dy <> 0)%Qc /\
    forall p, In p l -> (dx * px p + dy * py p <= dx * px v + dy * py v)%Qc.
(** [v] is a vertex of the convex hull: some line through [v] has every other point strictly on
    its negative side. *)
Definition hull_vertex (l : list point) (v : point) : Prop :=
  In v l /\ exists dx dy : Qc,
    forall p, In p l -> p <> v -> (dx * px p + dy * py p < dx * px v + dy * py v)%Qc.
