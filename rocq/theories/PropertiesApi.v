(** C01-C11: argument handling and the strategies with an exact description. *)
From Verif Require Import Base Prog Geometry Ctx Planar Spec PlanarProofs ApiProofs.
Local Open Scope string_scope.
Local Open Scope Z_scope.

(** ** C01: size bounds are rejected exactly when inconsistent.  A call that does not raise
    returns a strategy, since [Ok] and [Raise] are the only results. *)
Theorem C01_multipoints : forall xs ys mn mx e,
  multipoints xs ys mn mx = Raise e <-> e = ValueError /\ bad_sizes mn mx 1.
Proof. exact multipoints_raise. Qed.
Print Assumptions C01_multipoints.
Theorem C01_multisegments : forall ctx xs ys mn mx e,
  multisegments ctx xs ys mn mx = Raise e <-> e = ValueError /\ bad_sizes mn mx 2.
Proof. exact multisegments_raise. Qed.
Print Assumptions C01_multisegments.
Theorem C01_contours : forall ctx xs ys mn mx e,
  contours ctx xs ys mn mx = Raise e <-> e = ValueError /\ bad_sizes mn mx 3.
Proof. exact contours_raise. Qed.
Print Assumptions C01_contours.
Theorem C01_convex_contours : forall ctx xs ys mn mx e,
  convex_contours ctx xs ys mn mx = Raise e <-> e = ValueError /\ bad_sizes mn mx 3.
Proof. exact convex_contours_raise. Qed.
Print Assumptions C01_convex_contours.
Theorem C01_concave_contours : forall ctx xs ys mn mx e,
  concave_contours ctx xs ys mn mx = Raise e <-> e = ValueError /\ bad_sizes mn mx 4.
Proof. exact concave_contours_raise. Qed.
Print Assumptions C01_concave_contours.
Theorem C01_star_contours : forall ctx xs ys mn mx e,
  star_contours ctx xs ys mn mx = Raise e <-> e = ValueError /\ bad_sizes mn mx 3.
Proof. exact star_contours_raise. Qed.
Print Assumptions C01_star_contours.
Theorem C01_multicontours : forall ctx xs ys mn mx cmn cmx e,
  multicontours ctx xs ys mn mx cmn cmx = Raise e <->
  e = ValueError /\ (bad_sizes mn mx 2 \/ bad_sizes cmn cmx 3).
Proof. exact multicontours_raise. Qed.
Print Assumptions C01_multicontours.
Theorem C01_polygons : forall ctx xs ys mn mx hmn hmx smn smx e,
  polygons ctx xs ys mn mx hmn hmx smn smx = Raise e <->
  e = ValueError /\ (bad_sizes mn mx 3 \/ bad_sizes hmn hmx 0 \/ bad_sizes smn smx 3).
Proof. exact polygons_raise. Qed.
Print Assumptions C01_polygons.
Theorem C01_multipolygons : forall ctx xs ys mn mx bmn bmx hmn hmx smn smx e,
  multipolygons ctx xs ys mn mx bmn bmx hmn hmx smn smx = Raise e <->
  e = ValueError /\
  (bad_sizes mn mx 2 \/ bad_sizes bmn bmx 3 \/ bad_sizes hmn hmx 0 \/ bad_sizes smn smx 3).
Proof. exact multipolygons_raise. Qed.
Print Assumptions C01_multipolygons.
(** The last disjuncts: at most one kind of component is allowed (C04). *)
Theorem C01_mixes : forall ctx xs ys pmn pmx smn smx gmn gmx bmn bmx hmn hmx zmn zmx e,
  mixes ctx xs ys pmn pmx smn smx gmn gmx bmn bmx hmn hmx zmn zmx = Raise e <->
  e = ValueError /\
  ((bad_sizes pmn pmx 0 \/ bad_sizes smn smx 0 \/ bad_sizes gmn gmx 0 \/ bad_sizes bmn bmx 3
    \/ bad_sizes hmn hmx 0 \/ bad_sizes zmn zmx 3)
   \/ (pmx = Some 0 /\ smx = Some 0 \/ pmx = Some 0 /\ gmx = Some 0 \/ smx = Some 0 /\ gmx = Some 0)).
Proof. exact mixes_raise. Qed.
Print Assumptions C01_mixes.

(** Both sides occur. *)
Example C01_occurs :
  bad_sizes 5 (Some 4) 3 /\ bad_sizes 1 (Some 2) 3 /\ bad_sizes (-1) (Some 9) 3
  /\ ~ bad_sizes (-1) None 3 /\ ~ bad_sizes 2 (Some 3) 3.
Proof.
  unfold bad_sizes. repeat split.
  - exists 4. split; [reflexivity|]. right; left. reflexivity.
  - exists 2. split; [reflexivity|]. left. reflexivity.
  - exists 9. split; [reflexivity|]. right; right. reflexivity.
  - intros (m & E & _). discriminate.
  - intros (m & E & H). injection E as <-. lia.
Qed.

(** ** C02: a too small minimum only warns, once per argument. *)
Theorem C02_multipoints : forall xs ys mn mx w s, multipoints xs ys mn mx = Ok (w, s) ->
  warned_exactly w [("min_size", mn, 1)].
Proof. exact multipoints_warn. Qed.
Print Assumptions C02_multipoints.
Theorem C02_multisegments : forall ctx xs ys mn mx w s, multisegments ctx xs ys mn mx = Ok (w, s) ->
  warned_exactly w [("min_size", mn, 2)].
Proof. exact multisegments_warn. Qed.
Print Assumptions C02_multisegments.
Theorem C02_contours : forall ctx xs ys mn mx w s, contours ctx xs ys mn mx = Ok (w, s) ->
  warned_exactly w [("min_size", mn, 3)].
Proof. exact contours_warn. Qed.
Print Assumptions C02_contours.
Theorem C02_convex_contours : forall ctx xs ys mn mx w s, convex_contours ctx xs ys mn mx = Ok (w, s) ->
  warned_exactly w [("min_size", mn, 3)].
Proof. exact convex_contours_warn. Qed.
Print Assumptions C02_convex_contours.
Theorem C02_concave_contours : forall ctx xs ys mn mx w s, concave_contours ctx xs ys mn mx = Ok (w, s) ->
  warned_exactly w [("min_size", mn, 4)].
Proof. exact concave_contours_warn. Qed.
Print Assumptions C02_concave_contours.
Theorem C02_star_contours : forall ctx xs ys mn mx w s, star_contours ctx xs ys mn mx = Ok (w, s) ->
  warned_exactly w [("min_size", mn, 3)].
Proof. exact star_contours_warn. Qed.
Print Assumptions C02_star_contours.
Theorem C02_multicontours : forall ctx xs ys mn mx cmn cmx w s,
  multicontours ctx xs ys mn mx cmn cmx = Ok (w, s) ->
  warned_exactly w [("min_size", mn, 2); ("min_contour_size", cmn, 3)].
Proof. exact multicontours_warn. Qed.
Print Assumptions C02_multicontours.
Theorem C02_polygons : forall ctx xs ys mn mx hmn hmx smn smx w s,
  polygons ctx xs ys mn mx hmn hmx smn smx = Ok (w, s) ->
  warned_exactly w [("min_size", mn, 3); ("min_holes_size", hmn, 0); ("min_hole_size", smn, 3)].
Proof. exact polygons_warn. Qed.
Print Assumptions C02_polygons.
Theorem C02_multipolygons : forall ctx xs ys mn mx bmn bmx hmn hmx smn smx w s,
  multipolygons ctx xs ys mn mx bmn bmx hmn hmx smn smx = Ok (w, s) ->
  warned_exactly w [("min_size", mn, 2); ("min_border_size", bmn, 3);
                    ("min_holes_size", hmn, 0); ("min_hole_size", smn, 3)].
Proof. exact multipolygons_warn. Qed.
Print Assumptions C02_multipolygons.
Theorem C02_mixes : forall ctx xs ys pmn pmx smn smx gmn gmx bmn bmx hmn hmx zmn zmx w s,
  mixes ctx xs ys pmn pmx smn smx gmn gmx bmn bmx hmn hmx zmn zmx = Ok (w, s) ->
  warned_exactly w [("min_points_size", pmn, 0); ("min_segments_size", smn, 0);
                    ("min_polygons_size", gmn, 0); ("min_polygon_border_size", bmn, 3);
                    ("min_polygon_holes_size", hmn, 0); ("min_polygon_hole_size", zmn, 3)].
Proof. exact mixes_warn. Qed.
Print Assumptions C02_mixes.
Example C02_occurs : exists w s, multipoints (Sampled [Q2Qc 1]) None (-3) None = Ok (w, s) /\ w = ["min_size"].
Proof. eexists; eexists; split; reflexivity. Qed.

(** ** C03: a minimum below the legal size builds the same strategy as the legal size. *)
Theorem C03_multipoints : forall xs ys mn mx w s, multipoints xs ys mn mx = Ok (w, s) ->
  multipoints xs ys (Z.max mn 1) mx = Ok ([], s).
Proof. exact multipoints_clamp. Qed.
Print Assumptions C03_multipoints.
Theorem C03_multisegments : forall ctx xs ys mn mx w s, multisegments ctx xs ys mn mx = Ok (w, s) ->
  multisegments ctx xs ys (Z.max mn 2) mx = Ok ([], s).
Proof. exact multisegments_clamp. Qed.
Print Assumptions C03_multisegments.
Theorem C03_contours : forall ctx xs ys mn mx w s, contours ctx xs ys mn mx = Ok (w, s) ->
  contours ctx xs ys (Z.max mn 3) mx = Ok ([], s).
Proof. exact contours_clamp. Qed.
Print Assumptions C03_contours.
Theorem C03_convex_contours : forall ctx xs ys mn mx w s, convex_contours ctx xs ys mn mx = Ok (w, s) ->
  convex_contours ctx xs ys (Z.max mn 3) mx = Ok ([], s).
Proof. exact convex_contours_clamp. Qed.
Print Assumptions C03_convex_contours.
Theorem C03_concave_contours : forall ctx xs ys mn mx w s, concave_contours ctx xs ys mn mx = Ok (w, s) ->
  concave_contours ctx xs ys (Z.max mn 4) mx = Ok ([], s).
Proof. exact concave_contours_clamp. Qed.
Print Assumptions C03_concave_contours.
Theorem C03_star_contours : forall ctx xs ys mn mx w s, star_contours ctx xs ys mn mx = Ok (w, s) ->
  star_contours ctx xs ys (Z.max mn 3) mx = Ok ([], s).
Proof. exact star_contours_clamp. Qed.
Print Assumptions C03_star_contours.
Theorem C03_multicontours : forall ctx xs ys mn mx cmn cmx w s,
  multicontours ctx xs ys mn mx cmn cmx = Ok (w, s) ->
  multicontours ctx xs ys (Z.max mn 2) mx (Z.max cmn 3) cmx = Ok ([], s).
Proof. exact multicontours_clamp. Qed.
Print Assumptions C03_multicontours.
Theorem C03_polygons : forall ctx xs ys mn mx hmn hmx smn smx w s,
  polygons ctx xs ys mn mx hmn hmx smn smx = Ok (w, s) ->
  polygons ctx xs ys (Z.max mn 3) mx (Z.max hmn 0) hmx (Z.max smn 3) smx = Ok ([], s).
Proof. exact polygons_clamp. Qed.
Print Assumptions C03_polygons.
Theorem C03_mixes : forall ctx xs ys pmn pmx smn smx gmn gmx bmn bmx hmn hmx zmn zmx w s,
  mixes ctx xs ys pmn pmx smn smx gmn gmx bmn bmx hmn hmx zmn zmx = Ok (w, s) ->
  mixes ctx xs ys (Z.max pmn 0) pmx (Z.max smn 0) smx (Z.max gmn 0) gmx (Z.max bmn 3) bmx
    (Z.max hmn 0) hmx (Z.max zmn 3) zmx = Ok ([], s).
Proof. exact mixes_clamp. Qed.
Print Assumptions C03_mixes.
(** For [multipolygons] the statement without [0 <= hmn] is false
    (see [C03_multipolygons_negative_refuted]). *)
Theorem C03_multipolygons_nonnegative_holes : forall ctx xs ys mn mx bmn bmx hmn hmx smn smx w s,
  0 <= hmn ->
  multipolygons ctx xs ys mn mx bmn bmx hmn hmx smn smx = Ok (w, s) ->
  multipolygons ctx xs ys (Z.max mn 2) mx (Z.max bmn 3) bmx (Z.max hmn 0) hmx (Z.max smn 3) smx
  = Ok ([], s).
Proof. exact multipolygons_clamp. Qed.
Print Assumptions C03_multipolygons_nonnegative_holes.
(** With -1 the call is accepted (with a warning), but every draw fails with [AssertionError]:
    nothing can be generated. *)
Theorem C03_multipolygons_negative_refuted : forall ctx xs ys, exists s,
  multipolygons ctx xs ys 2 None 3 None (-1) None 3 None = Ok (["min_holes_size"%string], s)
  /\ can_raise s AssertionError /\ forall l, ~ generates s l.
Proof. exact multipolygons_negative. Qed.
Print Assumptions C03_multipolygons_negative_refuted.
(** Calls of C02 and C03 with minima which are too small: they are accepted, with warnings. *)
Example C02_C03_occur : forall ctx xs ys,
  (exists s, multisegments ctx xs ys 1 (Some 4) = Ok (["min_size"], s))
  /\ (exists s, contours ctx xs ys (-2) None = Ok (["min_size"], s))
  /\ (exists s, convex_contours ctx xs ys 2 None = Ok (["min_size"], s))
  /\ (exists s, concave_contours ctx xs ys 3 (Some 7) = Ok (["min_size"], s))
  /\ (exists s, star_contours ctx xs ys 0 (Some 6) = Ok (["min_size"], s))
  /\ (exists s, multicontours ctx xs ys 1 None 2 (Some 5) = Ok (["min_size"; "min_contour_size"], s))
  /\ (exists s, polygons ctx xs ys 4 (Some 6) (-1) None 1 (Some 3) = Ok (["min_holes_size"; "min_hole_size"], s))
  /\ (exists s, multipolygons ctx xs ys 0 (Some 2) 2 None 1 (Some 2) 3 None = Ok (["min_size"; "min_border_size"], s))
  /\ (exists s, mixes ctx xs ys (-1) None 0 (Some 3) 1 None 2 None 0 (Some 1) 3 (Some 3)
        = Ok (["min_points_size"; "min_polygon_border_size"], s)).
Proof. intros ctx xs ys. repeat split; eexists; reflexivity. Qed.

(** ** C04: a mix needs two kinds of components. *)
Theorem C04_mix_needs_two_kinds :
  forall ctx xs ys pmn pmx smn smx gmn gmx bmn bmx hmn hmx zmn zmx,
  (pmx = Some 0 /\ smx = Some 0 \/ pmx = Some 0 /\ gmx = Some 0 \/ smx = Some 0 /\ gmx = Some 0) ->
  mixes ctx xs ys pmn pmx smn smx gmn gmx bmn bmx hmn hmx zmn zmx = Raise ValueError.
Proof. exact mixes_two_kinds. Qed.
Print Assumptions C04_mix_needs_two_kinds.

(** ** C05 *)
Theorem C05_points : forall xs ys w s, points xs ys = Ok (w, s) ->
  forall p, generates s p <-> drawable xs (px p) /\ drawable (ordinates xs ys) (py p).
Proof. exact points_exact. Qed.
Print Assumptions C05_points.
Example C05_occurs : exists w s, points (Sampled [Q2Qc 1; Q2Qc 2]) None = Ok (w, s)
  /\ generates s (Pt (Q2Qc 2) (Q2Qc 1)).
Proof.
  eexists; eexists; split; [reflexivity|].
  apply (C05_points _ _ [] _ eq_refl). split; apply ProgProofs.gen_sampled_from; cbn; auto.
Qed.

(** ** C06: omitted ordinates are drawn like the abscissas. *)
Theorem C06_omitted_ordinates : forall ctx xs,
  points xs None = points xs (Some xs)
  /\ segments xs None = segments xs (Some xs)
  /\ boxes xs None = boxes xs (Some xs)
  /\ triangular_contours xs None = triangular_contours xs (Some xs)
  /\ rectangular_contours xs None = rectangular_contours xs (Some xs)
  /\ (forall mn mx, multipoints xs None mn mx = multipoints xs (Some xs) mn mx)
  /\ (forall mn mx, multisegments ctx xs None mn mx = multisegments ctx xs (Some xs) mn mx)
  /\ (forall mn mx, contours ctx xs None mn mx = contours ctx xs (Some xs) mn mx)
  /\ (forall mn mx, convex_contours ctx xs None mn mx = convex_contours ctx xs (Some xs) mn mx)
  /\ (forall mn mx, concave_contours ctx xs None mn mx = concave_contours ctx xs (Some xs) mn mx)
  /\ (forall mn mx, star_contours ctx xs None mn mx = star_contours ctx xs (Some xs) mn mx)
  /\ (forall mn mx a b, multicontours ctx xs None mn mx a b = multicontours ctx xs (Some xs) mn mx a b)
  /\ (forall mn mx a b c d, polygons ctx xs None mn mx a b c d = polygons ctx xs (Some xs) mn mx a b c d)
  /\ (forall mn mx a b c d e f, multipolygons ctx xs None mn mx a b c d e f
                              = multipolygons ctx xs (Some xs) mn mx a b c d e f)
  /\ (forall mn mx a b c d e f g h i j, mixes ctx xs None mn mx a b c d e f g h i j
                              = mixes ctx xs (Some xs) mn mx a b c d e f g h i j).
Proof. exact y_none. Qed.
Print Assumptions C06_omitted_ordinates.

(** ** C07 *)
Theorem C07_multipoints : forall xs ys mn mx w s, multipoints xs ys mn mx = Ok (w, s) ->
  forall l, generates s l <->
    NoDup l /\ size_ok (lenZ l) (Z.max mn 1) mx /\ forall p, In p l -> drawable_point xs ys p.
Proof. exact multipoints_exact. Qed.
Print Assumptions C07_multipoints.

(** ** C08 *)
Theorem C08_segments : forall xs ys w s, segments xs ys = Ok (w, s) ->
  forall g, generates s g <->
    seg_start g <> seg_end g /\ drawable_point xs ys (seg_start g) /\ drawable_point xs ys (seg_end g).
Proof. exact segments_exact. Qed.
Print Assumptions C08_segments.

(** ** C09 *)
Theorem C09_boxes : forall xs ys w s, boxes xs ys = Ok (w, s) ->
  forall b, generates s b <->
    (min_x b < max_x b)%Qc /\ (min_y b < max_y b)%Qc
    /\ drawable xs (min_x b) /\ drawable xs (max_x b)
    /\ drawable (ordinates xs ys) (min_y b) /\ drawable (ordinates xs ys) (max_y b).
Proof. exact boxes_exact. Qed.
Print Assumptions C09_boxes.

(** ** C10 *)
Theorem C10_rectangular_contours : forall xs ys w s, rectangular_contours xs ys = Ok (w, s) ->
  forall vs, generates s vs <->
    exists x1 x2 y1 y2, vs = [Pt x1 y1; Pt x2 y1; Pt x2 y2; Pt x1 y2]
      /\ (x1 < x2)%Qc /\ (y1 < y2)%Qc /\ drawable xs x1 /\ drawable xs x2
      /\ drawable (ordinates xs ys) y1 /\ drawable (ordinates xs ys) y2.
Proof. exact rectangular_exact. Qed.
Print Assumptions C10_rectangular_contours.
Theorem C10_rectangular_contours_convex : forall xs ys w s vs,
  rectangular_contours xs ys = Ok (w, s) -> generates s vs -> convex_ccw vs.
Proof. exact rectangular_convex. Qed.
Print Assumptions C10_rectangular_contours_convex.

(** ** C11 *)
Theorem C11_triangular_contours : forall xs ys w s, triangular_contours xs ys = Ok (w, s) ->
  forall vs, generates s vs <->
    exists a b c, vs = [a; b; c] /\ left_turn a b c /\ drawable_point xs ys a
      /\ drawable_point xs ys b /\ drawable_point xs ys c.
Proof. exact triangular_exact. Qed.
Print Assumptions C11_triangular_contours.

(** Values of C07-C11 that are really produced, by executing the strategies on a list of
    choices. *)
Definition three : scalars := Sampled [Q2Qc 0; Q2Qc 1; Q2Qc 2].
Example C07_C11_occur :
  (exists w s, multipoints three None 0 (Some 3) = Ok (w, s)
     /\ generates s [Pt (Q2Qc 0) (Q2Qc 1); Pt (Q2Qc 2) (Q2Qc 2)])
  /\ (exists w s, segments three None = Ok (w, s)
     /\ generates s (Seg (Pt (Q2Qc 0) (Q2Qc 1)) (Pt (Q2Qc 2) (Q2Qc 2))))
  /\ (exists w s, boxes three None = Ok (w, s)
     /\ generates s (Box (Q2Qc 0) (Q2Qc 2) (Q2Qc 1) (Q2Qc 2)))
  /\ (exists w s, rectangular_contours three None = Ok (w, s)
     /\ generates s [Pt (Q2Qc 0) (Q2Qc 1); Pt (Q2Qc 2) (Q2Qc 1); Pt (Q2Qc 2) (Q2Qc 2); Pt (Q2Qc 0) (Q2Qc 2)])
  /\ (exists w s, triangular_contours three None = Ok (w, s)
     /\ generates s [Pt (Q2Qc 0) (Q2Qc 0); Pt (Q2Qc 2) (Q2Qc 1); Pt (Q2Qc 1) (Q2Qc 2)]).
Proof.
  repeat split; eexists; eexists; (split; [reflexivity|]).
  - apply (ProgProofs.run_sound _ [2; 0; 1; 2; 2]). vm_compute. reflexivity.
  - apply (ProgProofs.run_sound _ [0; 1; 2; 2]). vm_compute. reflexivity.
  - apply (ProgProofs.run_sound _ [2; 2; 0; 2; 1; 2]). vm_compute. reflexivity.
  - apply (ProgProofs.run_sound _ [2; 2; 0; 2; 1; 2]). vm_compute. reflexivity.
  - apply (ProgProofs.run_sound _ [0; 0; 2; 1; 1; 2]). vm_compute. reflexivity.
Qed.
