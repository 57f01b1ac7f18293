(** C39, C40: nothing impossible is ever requested; the two convex hulls agree. *)
From Verif Require Import Base Prog Geometry Ctx Contracts Factories Strategies Planar Spec MixSpec RangeSpec HullSpec ProgProofs
  HullProofs RangeApiProofs Reference ReferenceProofs PropertiesContours PropertiesMixes.
Local Open Scope Z_scope.

(** ** C39.  [InvalidArgument] is what Hypothesis raises for an integer range, a sample or a range
    of list sizes which is empty.  The coordinates are supplied by strategies which do not
    themselves raise it, or by samples which are large enough. *)
Theorem C39_points : forall xs ys w s, supplies_both xs ys 1 -> points xs ys = Ok (w, s) -> ~ can_raise s InvalidArgument.
Proof. exact no_invalid_points. Qed.
Print Assumptions C39_points.
Theorem C39_multipoints : forall xs ys mn mx w s, supplies_both xs ys 1 -> multipoints xs ys mn mx = Ok (w, s) ->
  ~ can_raise s InvalidArgument.
Proof. exact no_invalid_multipoints. Qed.
Print Assumptions C39_multipoints.
Theorem C39_segments : forall xs ys w s, supplies_both xs ys 1 -> segments xs ys = Ok (w, s) -> ~ can_raise s InvalidArgument.
Proof. exact no_invalid_segments. Qed.
Print Assumptions C39_segments.
Theorem C39_boxes : forall xs ys w s, supplies_both xs ys 2 -> boxes xs ys = Ok (w, s) -> ~ can_raise s InvalidArgument.
Proof. exact no_invalid_boxes. Qed.
Print Assumptions C39_boxes.
Theorem C39_rectangular_contours : forall xs ys w s, supplies_both xs ys 2 -> rectangular_contours xs ys = Ok (w, s) ->
  ~ can_raise s InvalidArgument.
Proof. exact no_invalid_rectangular. Qed.
Print Assumptions C39_rectangular_contours.
Theorem C39_triangular_contours : forall xs ys w s, supplies_both xs ys 1 -> triangular_contours xs ys = Ok (w, s) ->
  ~ can_raise s InvalidArgument.
Proof. exact no_invalid_triangular. Qed.
Print Assumptions C39_triangular_contours.
Theorem C39_multisegments : forall ctx xs ys, (forall y x, ctx_atan2 ctx y x <> Raise InvalidArgument) ->
  (forall l, is_hull l (ctx_hull ctx l)) -> forall mn mx w s, supplies_both xs ys (2 * Z.max mn 3) ->
  multisegments ctx xs ys mn mx = Ok (w, s) -> ~ can_raise s InvalidArgument.
Proof. exact no_invalid_multisegments. Qed.
Print Assumptions C39_multisegments.
Theorem C39_contours : forall ctx xs ys, (forall y x, ctx_atan2 ctx y x <> Raise InvalidArgument) ->
  forall mn mx w s, supplies_both xs ys (2 * Z.max mn 3) ->
  contours ctx xs ys mn mx = Ok (w, s) -> ~ can_raise s InvalidArgument.
Proof. exact no_invalid_contours. Qed.
Print Assumptions C39_contours.
Theorem C39_convex_contours : forall ctx xs ys, (forall y x, ctx_atan2 ctx y x <> Raise InvalidArgument) ->
  forall mn mx w s, supplies_both xs ys (2 * Z.max mn 3) ->
  convex_contours ctx xs ys mn mx = Ok (w, s) -> ~ can_raise s InvalidArgument.
Proof. exact no_invalid_convex. Qed.
Print Assumptions C39_convex_contours.
Theorem C39_concave_contours : forall ctx xs ys, (forall y x, ctx_atan2 ctx y x <> Raise InvalidArgument) ->
  forall mn mx w s, supplies_both xs ys (2 * Z.max mn 4) ->
  concave_contours ctx xs ys mn mx = Ok (w, s) -> ~ can_raise s InvalidArgument.
Proof. exact no_invalid_concave. Qed.
Print Assumptions C39_concave_contours.
Theorem C39_star_contours : forall ctx xs ys, (forall y x, ctx_atan2 ctx y x <> Raise InvalidArgument) ->
  forall mn mx w s, supplies_both xs ys (2 * Z.max mn 3) ->
  star_contours ctx xs ys mn mx = Ok (w, s) -> ~ can_raise s InvalidArgument.
Proof. exact no_invalid_star. Qed.
Print Assumptions C39_star_contours.
Theorem C39_multicontours : forall ctx xs ys mn mx cmn cmx w s, supplies_both xs ys (2 * (Z.max mn 2 * Z.max cmn 3)) ->
  multicontours ctx xs ys mn mx cmn cmx = Ok (w, s) -> ~ can_raise s InvalidArgument.
Proof. exact no_invalid_multicontours. Qed.
Print Assumptions C39_multicontours.
Theorem C39_polygons : forall ctx xs ys, (forall l, is_hull l (ctx_hull ctx l)) ->
  forall mn mx hmn hmx smn smx w s, supplies_both xs ys (2 * (Z.max mn 3 + Z.max hmn 0 * Z.max smn 3)) ->
  polygons ctx xs ys mn mx hmn hmx smn smx = Ok (w, s) -> ~ can_raise s InvalidArgument.
Proof. exact no_invalid_polygons. Qed.
Print Assumptions C39_polygons.
(** Multipolygons and mixes cut samples out of the coordinates they draw, of any size: here the
    caller gives strategies of their own.  A negative [min_holes_size] is the subject of
    [C03_multipolygons_negative_refuted]. *)
Theorem C39_multipolygons : forall ctx xs ys, (forall l, is_hull l (ctx_hull ctx l)) ->
  (forall n, supplies xs n) -> (forall s n, ys = Some s -> supplies s n) ->
  forall mn mx bmn bmx hmn hmx smn smx w s, 0 <= hmn ->
  multipolygons ctx xs ys mn mx bmn bmx hmn hmx smn smx = Ok (w, s) -> ~ can_raise s InvalidArgument.
Proof. exact no_invalid_multipolygons. Qed.
Print Assumptions C39_multipolygons.
Theorem C39_mixes : forall ctx xs ys, (forall y x, ctx_atan2 ctx y x <> Raise InvalidArgument) ->
  (forall l, is_hull l (ctx_hull ctx l)) ->
  (forall n, supplies xs n) -> (forall s n, ys = Some s -> supplies s n) ->
  forall pmn pmx smn smx gmn gmx bmn bmx hmn hmx zmn zmx w s,
  mixes ctx xs ys pmn pmx smn smx gmn gmx bmn bmx hmn hmx zmn zmx = Ok (w, s) -> ~ can_raise s InvalidArgument.
Proof. exact no_invalid_mixes. Qed.
Print Assumptions C39_mixes.
(** The hypotheses are met and something is generated. *)
Definition between (n : Z) : scalars := Drawn (pmap Qc_of_Z (integers 0 (Some n))).
Lemma between_supplies k n : 0 <= k -> supplies (between k) n.
Proof. intros Hk H. apply raise_pmap, raise_integers in H. destruct H as (_ & h & E & H). injection E as <-. lia. Qed.
Lemma reference_atan2 y x : ctx_atan2 reference y x <> Raise InvalidArgument.
Proof. discriminate. Qed.
Example C39_occur : exists w s,
  (forall n, supplies (between 15) n) /\ (forall y x, ctx_atan2 reference y x <> Raise InvalidArgument) /\
  (forall l, is_hull l (ctx_hull reference l)) /\
  mixes reference (between 15) None 1 None 2 None 1 None 3 None 0 None 3 None = Ok (w, s)
  /\ generates s (Mix (MultiPart (ints [(13, 11); (13, 10)])) (MultiPart [sgm 9 2 11 2; sgm 11 2 12 2])
                      (SinglePart (Poly (ints [(0, 0); (4, 2); (6, 7); (2, 7)]) []))).
Proof.
  do 2 eexists. split; [intros n; apply between_supplies; lia|]. split; [exact reference_atan2|]. split; [exact reference_hull|]. split; [reflexivity|].
  apply (run_sound _ [1; 0; 11; 9; 15; 6; 2; 0; 13; 3; 11; 14; 4; 12; 1; 5; 0; 2; 2; 2; 1; 0; 5; 1; 2; 4; 3; 0; 5; 0; 7; 2; 1; 15; 0; 0; 3; 4;
    0; 1; 3; 2; 3; 1; 2; 2; 0; 11; 0; 10]). vm_compute. reflexivity.
Qed.
(** A sample which is too small does end with [InvalidArgument]. *)
Example C39_needs_supplies : exists w s, polygons reference (upto 3) None 3 None 0 None 3 None = Ok (w, s) /\ can_raise s InvalidArgument.
Proof. do 2 eexists. split; [reflexivity|]. apply (run_sound _ []). vm_compute. reflexivity. Qed.

(** ** C40.  [to_max_convex_hull] gives exactly the points on the boundary of the convex hull; the
    vertices are among them; it is never shorter than the hull of [Context.points_convex_hull]. *)
Theorem C40_max_hull_is_boundary : forall l v, NoDup l -> (2 <= List.length l)%nat ->
  (In v (to_max_convex_hull l) <-> on_hull_boundary l v).
Proof. exact max_hull_boundary. Qed.
Print Assumptions C40_max_hull_is_boundary.
Theorem C40_max_hull_has_vertices : forall l v, NoDup l -> (2 <= List.length l)%nat -> hull_vertex l v -> In v (to_max_convex_hull l).
Proof. exact max_hull_vertices. Qed.
Print Assumptions C40_max_hull_has_vertices.
Theorem C40_hull_at_most_max : forall l h, NoDup l -> (2 <= List.length l)%nat -> is_hull l h ->
  (List.length h <= List.length (to_max_convex_hull l))%nat.
Proof. exact hull_at_most_max. Qed.
Print Assumptions C40_hull_at_most_max.
Example C40_occur : let l := ints [(0, 0); (2, 0); (1, 1); (4, 0); (0, 4); (4, 4); (4, 2)] in
  NoDup l /\ (2 <= List.length l)%nat /\
  to_max_convex_hull l = ints [(0, 0); (2, 0); (4, 0); (4, 2); (4, 4); (0, 4)] /\
  ctx_hull reference l = ints [(0, 0); (4, 0); (4, 4); (0, 4)].
Proof.
  split; [|split; [cbn; lia|split; vm_compute; reflexivity]].
  repeat constructor; cbn; intros H; repeat (destruct H as [H|H]; [discriminate H|]); exact H.
Qed.
