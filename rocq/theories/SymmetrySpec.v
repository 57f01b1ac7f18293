(** Vocabulary for C97: the symmetries of the square. *)
From Verif Require Import Base Prog Geometry Spec.

(** The point seen after exchanging the axes; after reversing the axis of abscissas. *)
Definition transpose (p : point) : point := Pt (py p) (px p).
Definition mirror (p : point) : point := Pt (- px p)%Qc (py p).

(** Two strategies with the same values; with opposite values. *)
Definition same_scalars (s t : scalars) : Prop := forall q, drawable s q <-> drawable t q.
Definition opposite_scalars (s t : scalars) : Prop := forall q, drawable s q <-> drawable t (- q)%Qc.

(** The second pair of strategies is the first one after exchanging the axes; after reversing the axis
    of abscissas. *)
Definition exchanged (xs : scalars) (ys : option scalars) (xs' : scalars) (ys' : option scalars) : Prop :=
  same_scalars xs (ordinates xs' ys') /\ same_scalars (ordinates xs ys) xs'.
Definition reversed (xs : scalars) (ys : option scalars) (xs' : scalars) (ys' : option scalars) : Prop :=
  opposite_scalars xs xs' /\ same_scalars (ordinates xs ys) (ordinates xs' ys').
