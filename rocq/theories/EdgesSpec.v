(** Specification vocabulary of the traversal of edges. *)
From Verif Require Import Base QuadEdge.

(** [f] is reached from [e] by turning around starts and reversing. *)
Inductive linked (h : heap) (e : edge) : edge -> Prop :=
| linked_same : linked h e e
| linked_turn f : linked h e f -> linked h e (left_from_start h f)
| linked_reverse f : linked h e f -> linked h e (opposite f).
