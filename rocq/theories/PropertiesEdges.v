(** C84: the traversal of the edges of a structure. *)
From Verif Require Import Base Geometry Ctx QuadEdge Triangulation Factories Edges QuadSpec EdgesSpec EdgesProofs
  QuadApiProofs PropertiesTriangulation.

(** ** C84: on every structure built by any sequence of operations, the traversal ends and yields
    exactly one direction of every edge that is linked with the given one, and nothing else. *)
Theorem C84_to_edges : forall h e fuel, built h -> directed_in h e -> 4 * h_count h + 1 < Pos.to_nat fuel ->
  exists es, to_edges fuel h e = Ok es /\ NoDup es /\ (forall f, In f es -> linked h e f) /\
    (forall f, linked h e f -> In f es \/ In (opposite f) es) /\ (forall f, In f es -> ~ In (opposite f) es).
Proof. intros h e fuel B D. exact (to_edges_ok h e B D fuel). Qed.
Print Assumptions C84_to_edges.
Example C84_applies : built two_triangles /\ directed_in two_triangles diagonal
  /\ to_edges 100 two_triangles diagonal = Ok [(2, R0); (4, R2); (3, R2); (1, R2); (0, R2)].
Proof. split; [apply C41_applies|]. split; [apply C41_applies|]. vm_compute. reflexivity. Qed.
