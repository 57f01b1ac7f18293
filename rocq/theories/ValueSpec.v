(** Vocabulary for the property that nothing but the set of drawable coordinates matters. *)
From Verif Require Import Base Prog Spec Planar.

(** The same scalars can be drawn from both strategies. *)
Definition same_values (s s' : scalars) : Prop := forall q, drawable s q <-> drawable s' q.
(** Two calls raise the same exception, or both succeed, give the same warnings and return
    strategies that can produce the same values. *)
Definition alike {A} (c c' : call A) : Prop :=
  match c, c' with
  | Ok (w, s), Ok (w', s') => w = w' /\ forall v, generates s v <-> generates s' v
  | Raise e, Raise e' => e = e'
  | _, _ => False
  end.
