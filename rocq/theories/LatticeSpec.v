(** Sets of numbers that differences of members belong to: integers, multiples of a step, ... *)
From Verif Require Import Base Prog Geometry Spec.

Definition closed_by_differences (G : Qc -> Prop) : Prop := forall a b, G a -> G b -> G (a - b)%Qc.
(** All values of the strategy, or of the sample, are in [G]. *)
Definition draws_from (G : Qc -> Prop) (s : scalars) : Prop := forall q, drawable s q -> G q.
Definition point_in (G H : Qc -> Prop) (p : point) : Prop := G (px p) /\ H (py p).
