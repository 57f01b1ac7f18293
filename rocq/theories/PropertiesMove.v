(** Moved and rescaled coordinates give the moved and rescaled geometries. *)
From Verif Require Import Base Prog ProgProofs Geometry Ctx Strategies Planar Reference Spec MoveSpec MoveProofs MoveReference PropertiesContours PropertiesGeometries.
Open Scope Z_scope.

(** ** C90.  The second strategy of coordinates is optional; the only one there is can be moved in
    one way only. *)
Theorem C90_points : forall k a b xs ys, (0 < k)%Qc -> (ys = None -> a = b) ->
  moved (move_point k a b) (points xs ys) (points (move_scalars k a xs) (option_map (move_scalars k b) ys)).
Proof. intros k a b xs ys _. exact (points_moved k a b xs ys). Qed.
Print Assumptions C90_points.
Theorem C90_multipoints : forall k a b xs ys mn mx, (0 < k)%Qc -> (ys = None -> a = b) ->
  moved (map (move_point k a b)) (multipoints xs ys mn mx)
    (multipoints (move_scalars k a xs) (option_map (move_scalars k b) ys) mn mx).
Proof. intros k a b xs ys mn mx K H. exact (multipoints_moved k a b K xs ys H mn mx). Qed.
Print Assumptions C90_multipoints.
Theorem C90_segments : forall k a b xs ys, (0 < k)%Qc -> (ys = None -> a = b) ->
  moved (move_segment k a b) (segments xs ys) (segments (move_scalars k a xs) (option_map (move_scalars k b) ys)).
Proof. intros k a b xs ys K. exact (segments_moved k a b K xs ys). Qed.
Print Assumptions C90_segments.
Theorem C90_boxes : forall k a b xs ys, (0 < k)%Qc -> (ys = None -> a = b) ->
  moved (move_box k a b) (boxes xs ys) (boxes (move_scalars k a xs) (option_map (move_scalars k b) ys)).
Proof. intros k a b xs ys K. exact (boxes_moved k a b K xs ys). Qed.
Print Assumptions C90_boxes.
Theorem C90_rectangular_contours : forall k a b xs ys, (0 < k)%Qc -> (ys = None -> a = b) ->
  moved (move_contour k a b) (rectangular_contours xs ys)
    (rectangular_contours (move_scalars k a xs) (option_map (move_scalars k b) ys)).
Proof. intros k a b xs ys K. exact (rectangular_moved k a b K xs ys). Qed.
Print Assumptions C90_rectangular_contours.
Theorem C90_triangular_contours : forall k a b xs ys, (0 < k)%Qc -> (ys = None -> a = b) ->
  moved (move_contour k a b) (triangular_contours xs ys)
    (triangular_contours (move_scalars k a xs) (option_map (move_scalars k b) ys)).
Proof. intros k a b xs ys K. exact (triangular_moved k a b K xs ys). Qed.
Print Assumptions C90_triangular_contours.
Theorem C90_multisegments : forall ctx k a b xs ys mn mx, (0 < k)%Qc -> (ys = None -> a = b) -> follows_motion ctx k a b ->
  moved (map (move_segment k a b)) (multisegments ctx xs ys mn mx)
    (multisegments ctx (move_scalars k a xs) (option_map (move_scalars k b) ys) mn mx).
Proof. intros ctx k a b xs ys mn mx K H F. exact (multisegments_moved ctx k a b K xs ys H F mn mx). Qed.
Print Assumptions C90_multisegments.
Theorem C90_contours : forall ctx k a b xs ys mn mx, (0 < k)%Qc -> (ys = None -> a = b) -> follows_motion ctx k a b ->
  moved (move_contour k a b) (contours ctx xs ys mn mx)
    (contours ctx (move_scalars k a xs) (option_map (move_scalars k b) ys) mn mx).
Proof. intros ctx k a b xs ys mn mx K H F. exact (contours_moved ctx k a b K xs ys H F mn mx). Qed.
Print Assumptions C90_contours.
Theorem C90_convex_contours : forall ctx k a b xs ys mn mx, (0 < k)%Qc -> (ys = None -> a = b) -> follows_motion ctx k a b ->
  moved (move_contour k a b) (convex_contours ctx xs ys mn mx)
    (convex_contours ctx (move_scalars k a xs) (option_map (move_scalars k b) ys) mn mx).
Proof. intros ctx k a b xs ys mn mx K H F. exact (convex_moved ctx k a b K xs ys H F mn mx). Qed.
Print Assumptions C90_convex_contours.
Theorem C90_concave_contours : forall ctx k a b xs ys mn mx, (0 < k)%Qc -> (ys = None -> a = b) -> follows_motion ctx k a b ->
  moved (move_contour k a b) (concave_contours ctx xs ys mn mx)
    (concave_contours ctx (move_scalars k a xs) (option_map (move_scalars k b) ys) mn mx).
Proof. intros ctx k a b xs ys mn mx K H F. exact (concave_moved ctx k a b K xs ys H F mn mx). Qed.
Print Assumptions C90_concave_contours.
Theorem C90_star_contours : forall ctx k a b xs ys mn mx, (0 < k)%Qc -> (ys = None -> a = b) -> follows_motion ctx k a b ->
  moved (move_contour k a b) (star_contours ctx xs ys mn mx)
    (star_contours ctx (move_scalars k a xs) (option_map (move_scalars k b) ys) mn mx).
Proof. intros ctx k a b xs ys mn mx K H F. exact (star_moved ctx k a b K xs ys H F mn mx). Qed.
Print Assumptions C90_star_contours.
Theorem C90_multicontours : forall ctx k a b xs ys mn mx cmn cmx, (0 < k)%Qc -> (ys = None -> a = b) ->
  moved (map (move_contour k a b)) (multicontours ctx xs ys mn mx cmn cmx)
    (multicontours ctx (move_scalars k a xs) (option_map (move_scalars k b) ys) mn mx cmn cmx).
Proof. intros ctx k a b xs ys mn mx cmn cmx K H. exact (multicontours_moved ctx k a b K xs ys H mn mx cmn cmx). Qed.
Print Assumptions C90_multicontours.
Theorem C90_polygons : forall ctx k a b xs ys mn mx hmn hmx smn smx, (0 < k)%Qc -> (ys = None -> a = b) -> follows_motion ctx k a b ->
  moved (move_polygon k a b) (polygons ctx xs ys mn mx hmn hmx smn smx)
    (polygons ctx (move_scalars k a xs) (option_map (move_scalars k b) ys) mn mx hmn hmx smn smx).
Proof. intros ctx k a b xs ys mn mx hmn hmx smn smx K H F. exact (polygons_moved ctx k a b K xs ys H F mn mx hmn hmx smn smx). Qed.
Print Assumptions C90_polygons.
Theorem C90_multipolygons : forall ctx k a b xs ys mn mx bmn bmx hmn hmx smn smx, (0 < k)%Qc -> (ys = None -> a = b) -> follows_motion ctx k a b ->
  moved (map (move_polygon k a b)) (multipolygons ctx xs ys mn mx bmn bmx hmn hmx smn smx)
    (multipolygons ctx (move_scalars k a xs) (option_map (move_scalars k b) ys) mn mx bmn bmx hmn hmx smn smx).
Proof. intros ctx k a b xs ys mn mx bmn bmx hmn hmx smn smx K H F. exact (multipolygons_moved ctx k a b K xs ys H F mn mx bmn bmx hmn hmx smn smx). Qed.
Print Assumptions C90_multipolygons.
Theorem C90_mixes : forall ctx k a b xs ys pmn pmx gmn gmx qmn qmx bmn bmx hmn hmx smn smx,
  (0 < k)%Qc -> (ys = None -> a = b) -> follows_motion ctx k a b ->
  moved (move_mix k a b) (mixes ctx xs ys pmn pmx gmn gmx qmn qmx bmn bmx hmn hmx smn smx)
    (mixes ctx (move_scalars k a xs) (option_map (move_scalars k b) ys) pmn pmx gmn gmx qmn qmx bmn bmx hmn hmx smn smx).
Proof.
  intros ctx k a b xs ys pmn pmx gmn gmx qmn qmx bmn bmx hmn hmx smn smx K H F.
  exact (mixes_moved ctx k a b K xs ys H F pmn pmx gmn gmx qmn qmx bmn bmx hmn hmx smn smx).
Qed.
Print Assumptions C90_mixes.
(** Translations need nothing of [math.atan2]. *)
Theorem C90_translations_keep_angles : forall ctx y x, ctx_atan2 ctx (1 * y)%Qc (1 * x)%Qc = ctx_atan2 ctx y x.
Proof. exact translation_angles. Qed.
Print Assumptions C90_translations_keep_angles.
(** The reference services follow every motion; the polygon of C27 over 0, ..., 12 becomes one
    over 3, 5, ..., 27. *)
Example C90_applies : (forall k a b, (0 < k)%Qc -> follows_motion reference k a b) /\
  exists w s, polygons reference (move_scalars (Qc_of_Z 2) (Qc_of_Z 3) upto_twelve) None 4 None 2 None 3 None = Ok (w, s)
  /\ generates s (Poly (ints [(3, 5); (23, 9); (27, 27); (7, 27)])
                       [ints [(9, 21); (13, 19); (17, 23); (11, 9)]; ints [(19, 23); (25, 21); (21, 19)]]).
Proof.
  split; [intros k a b K; apply reference_follows, K|].
  assert (P : (0 < Qc_of_Z 2)%Qc) by reflexivity.
  destruct C27_C28_occur as (w & s & E & G & _).
  pose proof (C90_polygons reference (Qc_of_Z 2) (Qc_of_Z 3) (Qc_of_Z 3) upto_twelve None 4 None 2 None 3 None P (fun _ => eq_refl) (reference_follows _ _ _ P)) as M.
  rewrite E in M. cbn [option_map] in M. destruct (polygons reference (move_scalars _ _ _) None 4 None 2 None 3 None) as [(w' & s')|]; [|contradiction M].
  destruct M as (_ & M & _). do 2 eexists. split; [reflexivity|]. apply M. eexists. split; [exact G|]. vm_compute. reflexivity.
Qed.
