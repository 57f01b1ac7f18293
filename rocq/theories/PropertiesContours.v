(** C12-C17: convex and star contours. *)
From Verif Require Import Base Prog Geometry Ctx Factories Planar Spec ProgProofs StarProofs ContourProofs Reference ReferenceProofs.
Local Open Scope Z_scope.

(** ** C12: convex contours are strictly convex, counterclockwise, simple. *)
Theorem C12_convex_contours : forall ctx xs ys mn mx w s vs,
  (forall l, is_hull l (ctx_hull ctx l)) ->
  convex_contours ctx xs ys mn mx = Ok (w, s) -> generates s vs ->
  convex_ccw vs /\ simple vs /\ forall a b c, contour_turn vs a b c -> left_turn a b c.
Proof. exact convex_contours_shape. Qed.
Print Assumptions C12_convex_contours.
(** ** C13 *)
Theorem C13_convex_contours_sizes : forall ctx xs ys mn mx w s vs,
  (forall l, is_hull l (ctx_hull ctx l)) ->
  convex_contours ctx xs ys mn mx = Ok (w, s) -> generates s vs -> size_ok (lenZ vs) (Z.max mn 3) mx.
Proof. exact convex_contours_sizes. Qed.
Print Assumptions C13_convex_contours_sizes.
(** ** C14 *)
Theorem C14_convex_contours_range : forall ctx xs ys mn mx w s vs,
  (forall l, is_hull l (ctx_hull ctx l)) ->
  convex_contours ctx xs ys mn mx = Ok (w, s) -> generates s vs ->
  forall p, In p vs -> in_drawable_range xs (px p) /\ in_drawable_range (ordinates xs ys) (py p).
Proof. exact convex_contours_range. Qed.
Print Assumptions C14_convex_contours_range.

Definition seven_xs : scalars := Sampled (map Qc_of_Z [1; 4; 6; 7; 9; 10; 11]).
Definition seven_ys : scalars := Sampled (map Qc_of_Z [0; 1; 2; 4; 5; 6; 8]).
Definition ints (l : list (Z * Z)) : list point := map (fun xy => Pt (Qc_of_Z (fst xy)) (Qc_of_Z (snd xy))) l.
(** The hypothesis on the hull can be met, and a hexagon is generated. *)
Example C12_C14_occur :
  (forall l, is_hull l (ctx_hull reference l))
  /\ exists w s, convex_contours reference seven_xs (Some seven_ys) 5 None = Ok (w, s)
     /\ generates s (ints [(1, 6); (4, 2); (7, 0); (11, 0); (10, 2); (5, 8)]).
Proof.
  split; [exact reference_hull|]. eexists; eexists; split; [reflexivity|].
  apply (run_sound _ [7; 0; 1; 2; 3; 4; 5; 6; 7; 0; 1; 2; 3; 4; 5; 6; 0; 0; 3; 0; 1; 0; 0; 1; 1; 1; 0; 1; 1;
                      0; 1; 2; 3; 1; 0; 0]).
  vm_compute. reflexivity.
Qed.

(** ** C15 *)
Theorem C15_star_contours_sizes : forall ctx xs ys mn mx w s vs,
  star_contours ctx xs ys mn mx = Ok (w, s) -> generates s vs ->
  size_ok (lenZ vs) (Z.max mn 3) mx /\ NoDup vs /\ forall p, In p vs -> drawable_point xs ys p.
Proof. exact star_contours_sizes. Qed.
Print Assumptions C15_star_contours_sizes.
(** ** C16: no straight angles, and the centroid of the region is in the angle at every vertex
    (and is not that vertex), whatever [atan2] returns. *)
Theorem C16_star_contours_angles : forall ctx xs ys mn mx w s vs,
  star_contours ctx xs ys mn mx = Ok (w, s) -> generates s vs ->
  strict vs /\ exists c, region_centroid vs = Ok c
    /\ forall a b d, contour_turn vs a b d -> c <> b /\ in_angle b a d c.
Proof. exact star_contours_angles. Qed.
Print Assumptions C16_star_contours_angles.
(** ** C17: all turns have one direction, unless the centroid is on the line of an edge. *)
Theorem C17_star_contours_turns : forall ctx xs ys mn mx w s vs c,
  star_contours ctx xs ys mn mx = Ok (w, s) -> generates s vs -> region_centroid vs = Ok c ->
  (forall a b, contour_edge vs a b -> ~ collinear a b c) ->
  (forall a b d, contour_turn vs a b d -> left_turn a b d)
  \/ (forall a b d, contour_turn vs a b d -> right_turn a b d).
Proof. exact star_contours_turns. Qed.
Print Assumptions C17_star_contours_turns.
Example C15_C17_occur :
  exists w s, star_contours reference seven_xs (Some seven_ys) 3 None = Ok (w, s)
  /\ generates s (ints [(1, 0); (11, 4); (9, 8); (7, 8)])
  /\ exists c, region_centroid (ints [(1, 0); (11, 4); (9, 8); (7, 8)]) = Ok c
     /\ forall a b, contour_edge (ints [(1, 0); (11, 4); (9, 8); (7, 8)]) a b -> ~ collinear a b c.
Proof.
  eexists; eexists; split; [reflexivity|]. split.
  - apply (run_sound _ [7; 0; 1; 2; 3; 4; 5; 6; 7; 0; 1; 2; 3; 4; 5; 6; 0; 0; 3]). vm_compute. reflexivity.
  - eexists. split; [vm_compute; reflexivity|]. intros a b He.
    apply EdgeProofs.segments_edge in He. vm_compute in He.
    repeat (destruct He as [He|He]; [injection He as <- <-; intros E; vm_compute in E; discriminate|]).
    destruct He.
Qed.

(** ** C49: the loop that makes a star contour ends: the modelled loop does not run out of its
    [1 + length points] iterations. *)
Theorem C49_star_terminates : forall ctx points, (forall y x, ctx_atan2 ctx y x <> Raise OutOfFuel) ->
  to_star_contour_vertices ctx points <> Raise OutOfFuel.
Proof. exact star_terminates. Qed.
Print Assumptions C49_star_terminates.
Example C49_occurs : forall y x, ctx_atan2 reference y x <> Raise OutOfFuel.
Proof. intros y x. discriminate. Qed.
