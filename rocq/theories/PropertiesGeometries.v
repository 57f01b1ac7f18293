(** C18-C28: contours, multisegments, multicontours, polygons. *)
From Verif Require Import Base Prog Geometry Ctx Contracts Planar Spec ProgProofs EdgeProofs SeparationProofs MultiProofs
  GeometryApiProofs Reference ReferenceProofs PropertiesContours.
Local Open Scope Z_scope.

(** ** C18 *)
Theorem C18_contours_sizes : forall ctx xs ys mn mx w s vs,
  (forall l, is_hull l (ctx_hull ctx l)) ->
  contours ctx xs ys mn mx = Ok (w, s) -> generates s vs ->
  size_ok (lenZ vs) (Z.max mn 3) mx
  /\ (forall p, In p vs -> in_drawable_range xs (px p) /\ in_drawable_range (ordinates xs ys) (py p))
  /\ (convex_ccw vs \/ forall p, In p vs -> drawable_point xs ys p).
Proof. exact contours_sizes. Qed.
Print Assumptions C18_contours_sizes.
(** ** C19.  Full statement: [strict vs].  Proved here: no edge is degenerate, and no angle is
    straight except possibly those at the first and at the last vertex.  Star contours
    (C16), convex contours (C12) and contours without repeated vertices (C45) are strict. *)
Theorem C19_contours_angles_partial : forall ctx xs ys mn mx w s vs,
  (forall l, is_hull l (ctx_hull ctx l)) ->
  contours ctx xs ys mn mx = Ok (w, s) -> generates s vs ->
  (forall a b, contour_edge vs a b -> a <> b) /\ inner_strict vs.
Proof. exact contours_angles. Qed.
Print Assumptions C19_contours_angles_partial.
(** ** C20: contours need not be simple: the strategy generates one in which the edges
    (10,6)-(9,8)-(4,4)-(11,4)-(6,6) cross. *)
Definition crossing : contour := ints [(6, 6); (10, 6); (9, 8); (4, 4); (11, 4)].
Theorem C20_contours_simple_refuted : exists w s vs a b c d,
  (forall l, is_hull l (ctx_hull reference l)) /\
  contours reference seven_xs (Some seven_ys) 3 None = Ok (w, s) /\ generates s vs
  /\ contour_edge vs a b /\ contour_edge vs c d /\ (a, b) <> (c, d) /\ interiors_meet (Seg a b) (Seg c d).
Proof.
  do 2 eexists. exists crossing, (Pt (Qc_of_Z 9) (Qc_of_Z 8)), (Pt (Qc_of_Z 4) (Qc_of_Z 4)), (Pt (Qc_of_Z 11) (Qc_of_Z 4)), (Pt (Qc_of_Z 6) (Qc_of_Z 6)).
  split; [exact reference_hull|]. split; [reflexivity|]. split; [|split; [|split; [|split]]].
  - apply (run_sound _ [1; 1; 7; 0; 1; 2; 3; 4; 5; 6; 7; 0; 1; 2; 3; 4; 5; 6; 0; 0; 3; 7]). vm_compute. reflexivity.
  - exists 2%nat. split; reflexivity.
  - exists 4%nat. split; reflexivity.
  - intros E. injection E as E. discriminate E.
  - apply cross_or_overlap_spec. vm_compute. reflexivity.
Qed.
Print Assumptions C20_contours_simple_refuted.
(** Triangles are simple ([convex_contours] too: C12). *)
Theorem C20_contours_simple_partial : forall ctx xs ys mn mx w s vs,
  (forall l, is_hull l (ctx_hull ctx l)) ->
  contours ctx xs ys mn mx = Ok (w, s) -> generates s vs -> lenZ vs = 3 -> simple vs.
Proof. exact contours_three. Qed.
Print Assumptions C20_contours_simple_partial.
(** A carved pentagon and a carved triangle. *)
Example C18_C20_occur :
  (forall l, is_hull l (ctx_hull reference l)) /\
  exists w s, contours reference seven_xs (Some seven_ys) 3 None = Ok (w, s) /\ generates s crossing
  /\ exists tri, generates s tri /\ lenZ tri = 3.
Proof.
  split; [exact reference_hull|]. do 2 eexists. split; [reflexivity|]. split; [|eexists; split].
  - apply (run_sound _ [1; 1; 7; 0; 1; 2; 3; 4; 5; 6; 7; 0; 1; 2; 3; 4; 5; 6; 0; 0; 3; 7]). vm_compute. reflexivity.
  - apply (run_sound _ [1; 1; 5; 1; 5; 6; 0; 4; 5; 3; 2; 6; 5; 0; 1; 1; 8; 3]). vm_compute. reflexivity.
  - reflexivity.
Qed.

(** ** C21.  Full statement: a left and a right turn, unconditionally.  Proved here: the contour is
    not convex, and it has a left and a right turn if it has no straight angle (by C16 it
    has none if it comes from the star alternative; for the other alternative C19 is partial). *)
Theorem C21_concave_contours_partial : forall ctx xs ys mn mx w s vs,
  concave_contours ctx xs ys mn mx = Ok (w, s) -> generates s vs ->
  size_ok (lenZ vs) (Z.max mn 4) mx /\ (forall p, In p vs -> drawable_point xs ys p)
  /\ ~ convex_ccw vs
  /\ (strict vs -> (exists a b c, contour_turn vs a b c /\ left_turn a b c) /\
                   (exists a b c, contour_turn vs a b c /\ right_turn a b c)).
Proof. exact concave_contours_spec. Qed.
Print Assumptions C21_concave_contours_partial.
Example C21_occurs : exists w s, concave_contours reference seven_xs (Some seven_ys) 4 None = Ok (w, s)
  /\ generates s (ints [(1, 0); (7, 4); (7, 8); (6, 6)]) /\ strict (ints [(1, 0); (7, 4); (7, 8); (6, 6)]).
Proof.
  do 2 eexists. split; [reflexivity|]. split.
  - apply (run_sound _ [1; 5; 1; 6; 0; 2; 3; 5; 5; 0; 4; 3; 6; 1; 0; 3; 4]). vm_compute. reflexivity.
  - apply HelperProofs.vertices_strict_spec. vm_compute. reflexivity.
Qed.

(** ** C22 *)
Theorem C22_multisegments_sizes : forall ctx xs ys mn mx w s l,
  (forall l, is_hull l (ctx_hull ctx l)) ->
  multisegments ctx xs ys mn mx = Ok (w, s) -> generates s l -> size_ok (lenZ l) (Z.max mn 2) mx.
Proof. exact multisegments_sizes. Qed.
Print Assumptions C22_multisegments_sizes.
(** ** C23 *)
Theorem C23_multisegments_ends : forall ctx xs ys mn mx w s l,
  (forall l, is_hull l (ctx_hull ctx l)) ->
  multisegments ctx xs ys mn mx = Ok (w, s) -> generates s l ->
  forall s, In s l -> seg_start s <> seg_end s
    /\ in_drawable_range xs (px (seg_start s)) /\ in_drawable_range xs (px (seg_end s))
    /\ in_drawable_range (ordinates xs ys) (py (seg_start s)) /\ in_drawable_range (ordinates xs ys) (py (seg_end s)).
Proof. exact multisegments_ends. Qed.
Print Assumptions C23_multisegments_ends.
(** ** C24: the segments may cross, because the edges of a contour that is not simple (C20) are
    taken; there is no other reason. *)
Theorem C24_multisegments_apart_refuted : exists w s l a b,
  (forall l, is_hull l (ctx_hull reference l)) /\
  multisegments reference seven_xs (Some seven_ys) 3 None = Ok (w, s) /\ generates s l
  /\ In a l /\ In b l /\ a <> b /\ interiors_meet a b.
Proof.
  do 2 eexists. exists (map (fun abcd => match abcd with (a, b, c, d) => Seg (Pt (Qc_of_Z a) (Qc_of_Z b)) (Pt (Qc_of_Z c) (Qc_of_Z d)) end)
    [(10, 6, 9, 8); (4, 4, 11, 4); (6, 6, 10, 6); (9, 8, 4, 4)]).
  do 2 eexists. split; [exact reference_hull|]. split; [reflexivity|]. split; [|split; [|split; [|split]]].
  - apply (run_sound _ [0; 1; 1; 1; 7; 0; 5; 6; 4; 1; 3; 2; 7; 1; 2; 0; 3; 6; 4; 5; 0; 2; 17; 7; 2; 3; 1; 1; 0; 4]). vm_compute. reflexivity.
  - right. right. left. reflexivity.
  - right. right. right. left. reflexivity.
  - intros E. injection E as E. discriminate E.
  - apply cross_or_overlap_spec. vm_compute. reflexivity.
Qed.
Print Assumptions C24_multisegments_apart_refuted.
Theorem C24_multisegments_apart_partial : forall ctx xs ys mn mx w s l,
  (forall l, is_hull l (ctx_hull ctx l)) ->
  multisegments ctx xs ys mn mx = Ok (w, s) -> generates s l ->
  pairwise_apart l
  \/ exists w' s' vs, contours ctx xs ys (Z.max mn 3) mx = Ok (w', s') /\ generates s' vs
       /\ ~ simple vs /\ exists rest, Permutation (contour_segments vs) (l ++ rest).
Proof. exact multisegments_apart. Qed.
Print Assumptions C24_multisegments_apart_partial.
Example C22_C24_occur :
  (forall l, is_hull l (ctx_hull reference l)) /\
  exists w s, multisegments reference seven_xs (Some seven_ys) 2 None = Ok (w, s)
  /\ generates s (map (fun ab => Seg (Pt (Qc_of_Z (fst ab)) (Qc_of_Z 1)) (Pt (Qc_of_Z (snd ab)) (Qc_of_Z 1))) [(1, 7); (7, 9); (9, 10)]).
Proof.
  split; [exact reference_hull|]. do 2 eexists. split; [reflexivity|].
  apply (run_sound _ [0; 0; 1; 4; 3; 0; 4; 5; 1]). vm_compute. reflexivity.
Qed.

(** ** C25 *)
Theorem C25_multicontours_sizes : forall ctx xs ys mn mx cmn cmx w s mc,
  multicontours ctx xs ys mn mx cmn cmx = Ok (w, s) -> generates s mc ->
  size_ok (lenZ mc) (Z.max mn 2) mx /\ (forall vs : contour, In vs mc -> size_ok (lenZ vs) (Z.max cmn 3) cmx) /\
  forall vs p, In vs mc -> In p vs -> drawable_point xs ys p.
Proof. exact multicontours_sizes. Qed.
Print Assumptions C25_multicontours_sizes.
(** ** C26 *)
Theorem C26_multicontours_apart : forall ctx xs ys mn mx cmn cmx w s mc,
  multicontours ctx xs ys mn mx cmn cmx = Ok (w, s) -> generates s mc ->
  forall i j vs ws, nth_error mc i = Some vs -> nth_error mc j = Some ws -> i <> j ->
    edges_apart vs ws /\ meet_at_most_once vs ws.
Proof. exact multicontours_apart. Qed.
Print Assumptions C26_multicontours_apart.
(** Two triangles with a common vertex. *)
Example C25_C26_occur : exists w s, multicontours reference seven_xs (Some seven_ys) 2 None 3 None = Ok (w, s)
  /\ generates s [ints [(1, 0); (4, 4); (4, 5)]; ints [(4, 5); (6, 2); (6, 6)]].
Proof.
  do 2 eexists. split; [reflexivity|].
  apply (run_sound _ [7; 2; 0; 5; 4; 3; 1; 6; 7; 4; 1; 6; 0; 3; 2; 5; 1; 3; 25; 2; 3; 3; 1; 0; 0; 0]). vm_compute. reflexivity.
Qed.

(** ** C27 *)
Theorem C27_polygons_sizes : forall ctx xs ys mn mx hmn hmx smn smx w s p,
  polygons ctx xs ys mn mx hmn hmx smn smx = Ok (w, s) -> generates s p ->
  size_ok (lenZ (border p)) (Z.max mn 3) mx /\ size_ok (lenZ (holes p)) (Z.max hmn 0) hmx /\
  (forall vs : contour, In vs (holes p) -> size_ok (lenZ vs) (Z.max smn 3) smx) /\
  (forall q, In q (border p) -> drawable_point xs ys q) /\
  forall vs q, In vs (holes p) -> In q vs -> drawable_point xs ys q.
Proof. exact polygons_sizes. Qed.
Print Assumptions C27_polygons_sizes.
(** ** C28 *)
Theorem C28_polygons_holes_apart : forall ctx xs ys mn mx hmn hmx smn smx w s p,
  polygons ctx xs ys mn mx hmn hmx smn smx = Ok (w, s) -> generates s p ->
  forall i j vs ws, nth_error (holes p) i = Some vs -> nth_error (holes p) j = Some ws -> i <> j ->
    edges_apart vs ws /\ meet_at_most_once vs ws.
Proof. exact polygons_holes_apart. Qed.
Print Assumptions C28_polygons_holes_apart.
(** The check of the holes: if no edges of different holes cross, it fails only when two edges of
    one hole cross. *)
Theorem C28_holes_check : forall hs : list contour,
  ForallOrdPairs edges_apart hs -> contours_do_not_cross_or_overlap hs = false ->
  exists c i j s t, In c hs /\ (i < j)%nat /\ nth_error (contour_segments c) i = Some s
    /\ nth_error (contour_segments c) j = Some t /\ interiors_meet s t.
Proof. exact holes_check_fails. Qed.
Print Assumptions C28_holes_check.
(** A polygon with two holes, and holes that fail the check. *)
Definition upto_twelve : scalars := Sampled (map (fun n => Qc_of_Z (Z.of_nat n)) (seq 0 13)).
Example C27_C28_occur : exists w s, polygons reference upto_twelve None 4 None 2 None 3 None = Ok (w, s)
  /\ generates s (Poly (ints [(0, 1); (10, 3); (12, 12); (2, 12)])
                       [ints [(3, 9); (5, 8); (7, 10); (4, 3)]; ints [(8, 10); (11, 9); (9, 8)]])
  /\ ForallOrdPairs edges_apart [crossing] /\ contours_do_not_cross_or_overlap [crossing] = false.
Proof.
  do 2 eexists. split; [reflexivity|]. split; [|split].
  - apply (run_sound _ [11; 10; 7; 11; 3; 8; 4; 2; 12; 0; 9; 5; 11; 2; 10; 11; 4; 12; 8; 1; 5; 7; 9; 3; 0; 1; 21; 4; 2; 0; 0; 4; 3; 0; 0]).
    vm_compute. reflexivity.
  - repeat constructor.
  - vm_compute. reflexivity.
Qed.
