(** C69-C72: star contours are convex, and what this means for contours, concave contours, multisegments and mixes. *)
From Verif Require Import Base Prog Geometry Ctx Utils Contracts Planar Spec RangeSpec WindSpec MixSpec GeneralSpec StarSpec HullSpec QuadEdge Triangulation
  Factories Strategies ProgProofs StarOrder StarApi StarGeneral Reference ReferenceProofs
  PropertiesContours PropertiesGeometries PropertiesMixes PropertiesGeneral.
Import List ListNotations.
Local Open Scope Z_scope.

(** ** C69: a star contour is strictly convex, in one of the two directions; so it does not meet itself. *)
Theorem C69_star_contours_convex : forall ctx xs ys mn mx w s vs, orders_directions ctx ->
  star_contours ctx xs ys mn mx = Ok (w, s) -> generates s vs ->
  convex_ccw vs \/ convex_ccw (reverse_vertices vs).
Proof. exact star_contours_convex. Qed.
Print Assumptions C69_star_contours_convex.
Theorem C69_star_contours_simple : forall ctx xs ys mn mx w s vs, orders_directions ctx ->
  star_contours ctx xs ys mn mx = Ok (w, s) -> generates s vs -> counterclockwise vs \/ clockwise vs.
Proof. exact star_contours_wound. Qed.
Print Assumptions C69_star_contours_simple.
Definition zs (l : list Z) : scalars := Sampled (map Qc_of_Z l).
(** The angle function of the reference context orders directions; star contours of both directions. *)
Example C69_angles : orders_directions reference.
Proof. exact reference_directions. Qed.
Example C69_clockwise_occurs : exists w s,
  star_contours reference (zs [0; 1; 3; 4; 6; 7; 8]) (Some (zs [2; 4; 5; 6; 7; 10; 13])) 3 None = Ok (w, s)
  /\ generates s (ints [(0, 2); (3, 7); (6, 5)]) /\ Qclt (signed_area (ints [(0, 2); (3, 7); (6, 5)])) 0%Qc.
Proof.
  do 2 eexists. split; [reflexivity|]. split; [|reflexivity].
  apply (run_sound _ [7; 0; 1; 2; 3; 4; 5; 6; 7; 0; 1; 2; 3; 4; 5; 6; 1; 0; 1]). vm_compute. reflexivity.
Qed.

(** ** C70: no star contour is concave. *)
Theorem C70_star_never_concave : forall ctx xs ys mn mx w s vs, orders_directions ctx ->
  star_contours ctx xs ys mn mx = Ok (w, s) -> generates s vs ->
  forall ctx' xs' ys' mn' mx' w' s', concave_contours ctx' xs' ys' mn' mx' = Ok (w', s') -> ~ generates s' vs.
Proof. exact star_not_concave. Qed.
Print Assumptions C70_star_never_concave.
(** ** C70: concave contours of coordinates in general position: simple, counterclockwise, turning both ways. *)
Theorem C70_concave_contours_general : forall ctx,
  (forall n, (2 <= n)%nat -> is_change n (ctx_coins ctx n)) -> (forall l s, l <> [] -> is_nearest l s (ctx_nearest ctx l s)) ->
  orders_directions ctx ->
  forall xs ys mn mx w s vs, general_coordinates xs ys ->
  concave_contours ctx xs ys mn mx = Ok (w, s) -> generates s vs ->
  counterclockwise vs /\ (exists a b c, contour_turn vs a b c /\ left_turn a b c) /\ (exists a b c, contour_turn vs a b c /\ right_turn a b c).
Proof. exact (fun ctx coins near => concave_contours_general ctx (conj coins near)). Qed.
Print Assumptions C70_concave_contours_general.
Definition dented : contour := ints [(0, 1); (9, 3375); (11, 38443359375); (13, 576650390625); (10, 8649755859375); (8, 1946195068359375); (7, 1946195068359375)].
Example C70_occurs : general_coordinates (upto 13) (Some (steep 13)) /\
  exists w s, concave_contours reference (upto 13) (Some (steep 13)) 5 None = Ok (w, s) /\ generates s dented.
Proof.
  split; [apply steep_general|]. do 2 eexists. split; [reflexivity|].
  apply (run_sound _ [1; 11; 2; 6; 10; 0; 1; 8; 9; 13; 4; 11; 7; 11; 0; 1; 6; 11; 12; 3; 9; 4; 8; 13; 10; 0; 9; 106; 7]). vm_compute. reflexivity.
Qed.

(** ** C71: contours of coordinates in general position are simple and have no straight angle;
    the only clockwise ones are convex. *)
Theorem C71_contours_general : forall ctx,
  (forall n, (2 <= n)%nat -> is_change n (ctx_coins ctx n)) -> (forall l s, l <> [] -> is_nearest l s (ctx_nearest ctx l s)) ->
  orders_directions ctx -> (forall l, is_hull l (ctx_hull ctx l)) ->
  forall xs ys mn mx w s vs, general_coordinates xs ys ->
  contours ctx xs ys mn mx = Ok (w, s) -> generates s vs ->
  counterclockwise vs \/ (clockwise vs /\ convex_ccw (reverse_vertices vs)).
Proof. exact (fun ctx coins near => contours_wound ctx (conj coins near)). Qed.
Print Assumptions C71_contours_general.
Example C71_occurs : general_coordinates (upto 13) (Some (steep 13)) /\
  exists w s, contours reference (upto 13) (Some (steep 13)) 5 None = Ok (w, s) /\ generates s dented.
Proof.
  split; [apply steep_general|]. do 2 eexists. split; [reflexivity|].
  apply (run_sound _ [1; 1; 11; 2; 6; 10; 0; 1; 8; 9; 13; 4; 11; 7; 11; 0; 1; 6; 11; 12; 3; 9; 4; 8; 13; 10; 0; 9; 106; 7]). vm_compute. reflexivity.
Qed.

(** ** C72: segments of multisegments of coordinates in general position neither cross nor overlap ... *)
Theorem C72_multisegments_general : forall ctx,
  (forall n, (2 <= n)%nat -> is_change n (ctx_coins ctx n)) -> (forall l s, l <> [] -> is_nearest l s (ctx_nearest ctx l s)) ->
  orders_directions ctx -> (forall l, is_hull l (ctx_hull ctx l)) ->
  forall xs ys mn mx w s l, general_coordinates xs ys ->
  multisegments ctx xs ys mn mx = Ok (w, s) -> generates s l -> pairwise_apart l.
Proof. exact (fun ctx coins near => multisegments_general ctx (conj coins near)). Qed.
Print Assumptions C72_multisegments_general.
Example C72_occurs : general_coordinates (upto 13) (Some (steep 13)) /\
  exists w s l, multisegments reference (upto 13) (Some (steep 13)) 5 None = Ok (w, s) /\ generates s l /\ lenZ l = 6 /\
    (forall t, In t l -> contour_edge dented (seg_start t) (seg_end t)).
Proof.
  split; [apply steep_general|].
  exists [], (to_multisegment_strategy reference (upto 13) (Some (steep 13)) 5 None),
    [sgm 7 1946195068359375 0 1; sgm 10 8649755859375 8 1946195068359375; sgm 0 1 9 3375; sgm 11 38443359375 13 576650390625;
     sgm 9 3375 11 38443359375; sgm 13 576650390625 10 8649755859375].
  split; [reflexivity|]. split; [|split; [reflexivity|]].
  - apply (run_sound _ [0; 1; 1; 1; 11; 2; 6; 10; 0; 1; 8; 9; 13; 4; 11; 7; 11; 0; 1; 6; 11; 12; 3; 9; 4; 8; 13; 10; 0; 9; 106; 7; 0; 4; 0; 1; 0; 0; 0; 6]).
    vm_compute. reflexivity.
  - intros t H. repeat destruct H as [<- |H]; [exists 6%nat|exists 4%nat|exists 0%nat|exists 2%nat|exists 1%nat|exists 3%nat|destruct H]; split; reflexivity.
Qed.
(** ** ... and neither do the segments of a mix. *)
Theorem C72_mixes_general : forall ctx,
  (forall n, (2 <= n)%nat -> is_change n (ctx_coins ctx n)) -> (forall l s, l <> [] -> is_nearest l s (ctx_nearest ctx l s)) ->
  orders_directions ctx -> (forall l, is_hull l (ctx_hull ctx l)) ->
  forall xs ys pmn pmx gmn gmx qmn qmx mn mx hmn hmx smn smx w s m, general_coordinates xs ys ->
  mixes ctx xs ys pmn pmx gmn gmx qmn qmx mn mx hmn hmx smn smx = Ok (w, s) -> generates s m ->
  pairwise_apart (elements (linear m)).
Proof. exact (fun ctx coins near => mixes_linear_general ctx (conj coins near)). Qed.
Print Assumptions C72_mixes_general.
Example C72_mixes_occur : general_coordinates (upto 15) (Some (steep 15)) /\
  exists w s, mixes reference (upto 15) (Some (steep 15)) 1 None 2 None 0 None 3 None 0 None 3 None = Ok (w, s) /\
    generates s (Mix (MultiPart (ints [(10, 1)])) (MultiPart [sgm 0 289 9 289; sgm 9 24137569 7 24137569; sgm 7 24137569 1 83521; sgm 0 1419857 2 118587876497]) EmptyPart).
Proof.
  split; [apply steep_general|]. do 2 eexists. split; [reflexivity|].
  apply (run_sound _ [0; 0; 1; 9; 13; 3; 5; 2; 4; 0; 6; 14; 9; 0; 2; 1; 1; 3; 0; 0; 0; 1; 10; 0; 0; 0; 9; 0; 1; 3; 9; 2; 7; 2; 7; 2; 1; 0; 0; 1; 2; 3]).
  vm_compute. reflexivity.
Qed.
