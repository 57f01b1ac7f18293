(** Model of hypothesis_geometry/_core/factories.py, continued: the traversal of all edges. *)
From Verif Require Import Base QuadEdge Factories.

(** factories.py:588-600: one iteration of the loop of [to_edges] over [queue], [visited_edges] and
    the edges yielded so far (last first).  The end of the Python list, where [pop] takes from
    and [extend] adds to, is the head of [queue]. *)
Definition to_edges_step (h : heap) (st : list edge * list edge * list edge)
  : res (list edge * list edge * list edge + list edge) :=
  let '(queue, visited, yielded) := st in
  match queue with
  | [] => Ok (inr yielded)
  | e :: queue' =>
      if mem_edge e visited then Ok (inl (queue', visited, yielded))
      else Ok (inl (right_from_end h e :: right_from_start h e :: left_from_end h e :: left_from_start h e :: queue',
                    e :: opposite e :: visited, e :: yielded))
  end.
(** factories.py:582-600 [to_edges]: the list of everything the generator yields, provided that it
    is exhausted. *)
Definition to_edges (fuel : positive) (h : heap) (e : edge) : res (list edge) :=
  let* yielded := while_ fuel (to_edges_step h) ([e], [], []) in Ok (rev yielded).
