(** C51-C53: members of multicontours; exceptions. *)
From Verif Require Import Base Prog Geometry Ctx Contracts Planar Spec RangeSpec ProgProofs EdgeProofs SeparationProofs
  GeometryApiProofs FaultProofs MemberProofs Reference ReferenceProofs PropertiesContours PropertiesGeometries PropertiesMixes PropertiesRanges.
Local Open Scope Z_scope.

(** ** C51: contours of a multicontour need not be simple: the strategy generates one with a
    contour whose edges (3,10)-(11,1) and (10,3)-(9,3) cross. *)
Definition zs (l : list Z) : scalars := Sampled (map Qc_of_Z l).
Definition twisted : contour := ints [(2, 13); (3, 10); (11, 1); (10, 3); (9, 3); (6, 11)].
Theorem C51_multicontours_simple_refuted : exists w s mc vs a b c d,
  (forall l, is_hull l (ctx_hull reference l)) /\
  multicontours reference (zs [0; 2; 3; 5; 6; 7; 9; 10; 11; 12; 13; 14; 15])
    (Some (zs [0; 1; 2; 3; 4; 5; 6; 7; 8; 10; 11; 12; 13])) 2 None 3 None = Ok (w, s) /\ generates s mc /\ In vs mc
  /\ contour_edge vs a b /\ contour_edge vs c d /\ (a, b) <> (c, d) /\ interiors_meet (Seg a b) (Seg c d).
Proof.
  do 2 eexists. exists [ints [(0, 0); (11, 1); (7, 1)]; twisted], twisted, (Pt (Qc_of_Z 3) (Qc_of_Z 10)), (Pt (Qc_of_Z 11) (Qc_of_Z 1)),
    (Pt (Qc_of_Z 10) (Qc_of_Z 3)), (Pt (Qc_of_Z 9) (Qc_of_Z 3)).
  split; [exact reference_hull|]. split; [reflexivity|]. split; [|split; [|split; [|split; [|split]]]].
  - apply (run_sound _ [13; 0; 1; 2; 3; 4; 5; 6; 7; 8; 9; 10; 11; 12; 13; 0; 1; 2; 3; 4; 5; 6; 7; 8; 9; 10; 11; 12; 0; 0; 12; 2; 7; 3; 1; 0; 1; 0]).
    vm_compute. reflexivity.
  - right. left. reflexivity.
  - exists 1%nat. split; reflexivity.
  - exists 3%nat. split; reflexivity.
  - intros E. injection E as E. discriminate E.
  - apply cross_or_overlap_spec. vm_compute. reflexivity.
Qed.
Print Assumptions C51_multicontours_simple_refuted.
(** Full statement: all contours are simple, whatever their size; it is refuted above. *)
Theorem C51_multicontours_simple_partial : forall ctx xs ys mn mx cmn cmx w s mc,
  multicontours ctx xs ys mn mx cmn cmx = Ok (w, s) -> generates s mc ->
  forall vs, In vs mc -> lenZ vs = 3 -> simple vs.
Proof. exact multicontours_three. Qed.
Print Assumptions C51_multicontours_simple_partial.
Example C51_occurs : exists w s mc, multicontours reference seven_xs (Some seven_ys) 2 None 3 None = Ok (w, s) /\ generates s mc
  /\ exists vs, In vs mc /\ lenZ vs = 3.
Proof.
  do 2 eexists. exists [ints [(1, 0); (4, 4); (4, 5)]; ints [(4, 5); (6, 2); (6, 6)]]. split; [reflexivity|]. split; [|eexists; split; [left; reflexivity|]].
  - apply (run_sound _ [7; 2; 0; 5; 4; 3; 1; 6; 7; 4; 1; 6; 0; 3; 2; 5; 1; 3; 25; 2; 3; 3; 1; 0; 0; 0]). vm_compute. reflexivity.
  - reflexivity.
Qed.

(** ** C52.  The coordinates are drawn from strategies which raise nothing, or from samples which
    are large enough. *)
Theorem C52_points : forall xs ys w s e, harmless_both xs ys 1 -> points xs ys = Ok (w, s) -> ~ can_raise s e.
Proof. exact silent_points. Qed.
Print Assumptions C52_points.
Theorem C52_multipoints : forall xs ys mn mx w s e, harmless_both xs ys 1 -> multipoints xs ys mn mx = Ok (w, s) -> ~ can_raise s e.
Proof. exact silent_multipoints. Qed.
Print Assumptions C52_multipoints.
Theorem C52_segments : forall xs ys w s e, harmless_both xs ys 1 -> segments xs ys = Ok (w, s) -> ~ can_raise s e.
Proof. exact silent_segments. Qed.
Print Assumptions C52_segments.
Theorem C52_boxes : forall xs ys w s e, harmless_both xs ys 2 -> boxes xs ys = Ok (w, s) -> ~ can_raise s e.
Proof. exact silent_boxes. Qed.
Print Assumptions C52_boxes.
Theorem C52_rectangular_contours : forall xs ys w s e, harmless_both xs ys 2 -> rectangular_contours xs ys = Ok (w, s) -> ~ can_raise s e.
Proof. exact silent_rectangular. Qed.
Print Assumptions C52_rectangular_contours.
Theorem C52_triangular_contours : forall xs ys w s e, harmless_both xs ys 1 -> triangular_contours xs ys = Ok (w, s) -> ~ can_raise s e.
Proof. exact silent_triangular. Qed.
Print Assumptions C52_triangular_contours.
(** Twice the least number of vertices is always enough (a prime is to be reached). *)
Theorem C52_convex_contours : forall ctx xs ys mn mx w s e, harmless_both xs ys (2 * Z.max mn 3) ->
  convex_contours ctx xs ys mn mx = Ok (w, s) -> can_raise s e -> exists y x, ctx_atan2 ctx y x = Raise e.
Proof. exact convex_raises. Qed.
Print Assumptions C52_convex_contours.
(** Star contours: the centroid of a region without an area is asked for, after vertices have been
    dropped and the rest sorted around a centroid that is outside all of them. *)
Theorem C52_star_contours_refuted : exists w s,
  (forall y x e, ctx_atan2 reference y x <> Raise e) /\
  star_contours reference (zs [0; 1; 2; 15; 16; 17; 23]) (Some (zs [2; 5; 11; 12; 13; 16; 21])) 3 None = Ok (w, s)
  /\ can_raise s ZeroDivisionError.
Proof.
  do 2 eexists. split; [discriminate|]. split; [reflexivity|].
  apply (run_sound _ [7; 0; 1; 2; 3; 4; 5; 6; 7; 0; 1; 2; 3; 4; 5; 6; 1; 0; 6]). vm_compute. reflexivity.
Qed.
Print Assumptions C52_star_contours_refuted.
(** Nothing else can be raised. *)
Theorem C52_star_contours_partial : forall ctx xs ys mn mx w s e, (forall y x e, ctx_atan2 ctx y x <> Raise e) ->
  harmless_both xs ys (2 * Z.max mn 3) -> star_contours ctx xs ys mn mx = Ok (w, s) -> can_raise s e -> e = ZeroDivisionError.
Proof. exact star_raises. Qed.
Print Assumptions C52_star_contours_partial.
Lemma between_harmless k n : 0 <= k -> harmless (between k) n.
Proof. intros Hk e H. apply raise_pmap, raise_integers in H. destruct H as (_ & h & E & H). injection E as <-. lia. Qed.
Example C52_occur : exists w s,
  harmless_both (between 9) (Some seven_ys) (2 * Z.max 3 3) /\ (forall y x e, ctx_atan2 reference y x <> Raise e) /\
  convex_contours reference (between 9) (Some seven_ys) 3 None = Ok (w, s) /\ exists vs, generates s vs.
Proof.
  do 2 eexists. split; [|split; [discriminate|split; [reflexivity|]]].
  - split; [apply between_harmless; lia|]. intros t E. injection E as <-. vm_compute. discriminate.
  - exists (ints [(0, 0); (1, 0); (1, 1)]). apply (run_sound _ [0; 0; 0; 1; 0; 1; 1]). vm_compute. reflexivity.
Qed.

(** ** C53: drawing a polygon can fail with [AssertionError]: a hole crosses itself, and the check
    that no two holes cross or overlap fails for this hole alone. *)
Theorem C53_polygons_assertion_refuted : exists w s,
  (forall l, is_hull l (ctx_hull reference l)) /\
  polygons reference (zs [1; 2; 3; 4; 5; 12; 13; 14; 15; 16; 21; 22; 23; 24; 26; 27; 28; 29; 30; 34; 37; 38; 40])
    (Some (zs [0; 3; 4; 5; 7; 9; 10; 11; 12; 13; 14; 15; 16; 17; 19; 20; 21; 22; 23; 24; 27; 28; 29])) 3 None 0 None 3 None = Ok (w, s)
  /\ can_raise s AssertionError.
Proof.
  do 2 eexists. split; [exact reference_hull|]. split; [reflexivity|].
  apply (run_sound _ [23; 0; 1; 2; 3; 4; 5; 6; 7; 8; 9; 10; 11; 12; 13; 14; 15; 16; 17; 18; 19; 20; 21; 22;
    23; 0; 1; 2; 3; 4; 5; 6; 7; 8; 9; 10; 11; 12; 13; 14; 15; 16; 17; 18; 19; 20; 21; 22; 1; 0; 5; 18; 1; 0; 9; 0]).
  vm_compute. reflexivity.
Qed.
Print Assumptions C53_polygons_assertion_refuted.
