(** C75: bounding boxes of contours. *)
From Verif Require Import Base Prog Geometry Ctx Utils Contracts Planar Spec StarSpec ValtrSpec Factories Strategies
  ProgProofs StarOrder ValtrProofs Reference ReferenceProofs PropertiesContours.
Import List ListNotations.
Local Open Scope Z_scope.

(** ** C75: the least and the greatest abscissa and ordinate of a convex contour can be drawn, although
    those in between need not. *)
Theorem C75_convex_contours_bounds : forall ctx xs ys mn mx w s vs,
  (forall l, is_hull l (ctx_hull ctx l)) -> orders_directions ctx -> tells_sides ctx ->
  convex_contours ctx xs ys mn mx = Ok (w, s) -> generates s vs -> drawable_bounds xs ys vs.
Proof. exact convex_contours_bounds. Qed.
Print Assumptions C75_convex_contours_bounds.
Theorem C75_contours_bounds : forall ctx xs ys mn mx w s vs,
  (forall l, is_hull l (ctx_hull ctx l)) -> orders_directions ctx -> tells_sides ctx ->
  contours ctx xs ys mn mx = Ok (w, s) -> generates s vs -> drawable_bounds xs ys vs.
Proof. exact contours_bounds. Qed.
Print Assumptions C75_contours_bounds.
(** ** The points of which a convex contour is the hull have the bounds of the drawn points: shifting
    them back into the drawn range moves none of them (factories.py:330-340). *)
Theorem C75_bounds_kept : forall ctx points bits_x bits_y shuffle vs, orders_directions ctx -> tells_sides ctx ->
  (forall l, length l = length points -> Permutation.Permutation l (shuffle l)) ->
  to_convex_vertex_sequence ctx points bits_x bits_y shuffle = Ok vs ->
  exists l, vs = ctx_hull ctx l /\ forall f, f = px \/ f = py ->
    exists lo hi, In lo points /\ In hi points /\ (exists p, In p l /\ f p = f lo) /\ (exists p, In p l /\ f p = f hi) /\
      forall p, In p l -> Qcle (f lo) (f p) /\ Qcle (f p) (f hi).
Proof. exact convex_sequence_kept. Qed.
Print Assumptions C75_bounds_kept.
(** The angle function of the reference context has the properties; in the contour an abscissa is 5,
    which is not among the ones given. *)
Example C75_occurs : orders_directions reference /\ tells_sides reference /\ (forall l, is_hull l (ctx_hull reference l)) /\
  (exists w s, convex_contours reference seven_xs (Some seven_ys) 5 None = Ok (w, s)
     /\ generates s (ints [(1, 6); (4, 2); (7, 0); (11, 0); (10, 2); (5, 8)])) /\
  ~ drawable seven_xs (Qc_of_Z 5).
Proof.
  split; [exact reference_directions|]. split; [exact reference_sides|]. split; [exact reference_hull|]. split; [apply C12_C14_occur|].
  intros H. apply gen_sampled_from in H. repeat destruct H as [H|H]; discriminate H || contradiction H.
Qed.
