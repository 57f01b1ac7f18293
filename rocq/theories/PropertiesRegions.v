(** C85, C86: the regions bounded by different contours of a generated geometry. *)
From Verif Require Import Base Prog Geometry Ctx Strategies Planar Spec MixSpec WindSpec RegionSpec ProgProofs RegionProofs Reference ReferenceProofs
  PropertiesContours PropertiesGeometries PropertiesMixes.
Import List ListNotations.
Local Open Scope Z_scope.

(** ** C85: no point inside one contour is inside another one or on it. *)
Theorem C85_multicontours_regions : forall ctx xs ys mn mx cmn cmx w s mc,
  multicontours ctx xs ys mn mx cmn cmx = Ok (w, s) -> generates s mc ->
  forall i j vs ws, nth_error mc i = Some vs -> nth_error mc j = Some ws -> i <> j -> regions_apart vs ws.
Proof. exact multicontours_regions. Qed.
Print Assumptions C85_multicontours_regions.
Theorem C85_holes_regions : forall ctx xs ys mn mx hmn hmx smn smx w s p,
  polygons ctx xs ys mn mx hmn hmx smn smx = Ok (w, s) -> generates s p ->
  forall i j vs ws, nth_error (holes p) i = Some vs -> nth_error (holes p) j = Some ws -> i <> j -> regions_apart vs ws.
Proof. exact polygons_regions. Qed.
Print Assumptions C85_holes_regions.
Theorem C85_multipolygons_regions : forall ctx xs ys mn mx bmn bmx hmn hmx smn smx w s ps,
  multipolygons ctx xs ys mn mx bmn bmx hmn hmx smn smx = Ok (w, s) -> generates s ps ->
  forall i j p q, nth_error ps i = Some p -> nth_error ps j = Some q -> i <> j ->
  forall vs ws, In vs (border p :: holes p) -> In ws (border q :: holes q) -> regions_apart vs ws.
Proof. exact multipolygons_regions. Qed.
Print Assumptions C85_multipolygons_regions.
(** In a mix moreover no point is in a polygon (or on it), and no point of a segment is inside a polygon. *)
Theorem C85_mixes_regions : forall ctx xs ys pmn pmx gmn gmx qmn qmx mn mx hmn hmx smn smx w s m,
  (forall l, is_hull l (ctx_hull ctx l)) ->
  mixes ctx xs ys pmn pmx gmn gmx qmn qmx mn mx hmn hmx smn smx = Ok (w, s) -> generates s m ->
  (forall p q vs, In p (elements (discrete m)) -> In q (elements (shaped m)) -> In vs (border q :: holes q) -> outside_of vs p) /\
  (forall t q vs x, In t (elements (linear m)) -> In q (elements (shaped m)) -> In vs (border q :: holes q) ->
     on_segment x (seg_start t) (seg_end t) -> on_contour x vs \/ outside_of vs x) /\
  (forall i j p q, nth_error (elements (shaped m)) i = Some p -> nth_error (elements (shaped m)) j = Some q -> i <> j ->
   forall vs ws, In vs (border p :: holes p) -> In ws (border q :: holes q) -> regions_apart vs ws).
Proof. exact mixes_regions. Qed.
Print Assumptions C85_mixes_regions.

(** ** C86: the holes of a polygon are clear of the borders of all others: all their points are outside these
    (with C30 and C32: clear of all borders), and clear of the segments of a mix. *)
Theorem C86_multipolygons_holes_clear : forall ctx,
  (forall n, (2 <= n)%nat -> is_change n (ctx_coins ctx n)) -> (forall l s, l <> [] -> is_nearest l s (ctx_nearest ctx l s)) ->
  forall xs ys mn mx bmn bmx hmn hmx smn smx w s ps,
  multipolygons ctx xs ys mn mx bmn bmx hmn hmx smn smx = Ok (w, s) -> generates s ps ->
  forall i j p q vs x, nth_error ps i = Some p -> nth_error ps j = Some q -> i <> j -> In vs (holes p) -> on_contour x vs ->
  outside_of (border q) x.
Proof. exact (fun ctx coins nearest => proj1 (others_clear ctx (conj coins nearest))). Qed.
Print Assumptions C86_multipolygons_holes_clear.
Theorem C86_mixes_holes_clear : forall ctx,
  (forall n, (2 <= n)%nat -> is_change n (ctx_coins ctx n)) -> (forall l s, l <> [] -> is_nearest l s (ctx_nearest ctx l s)) ->
  forall xs ys pmn pmx gmn gmx qmn qmx mn mx hmn hmx smn smx w s m, (forall l, is_hull l (ctx_hull ctx l)) ->
  mixes ctx xs ys pmn pmx gmn gmx qmn qmx mn mx hmn hmx smn smx = Ok (w, s) -> generates s m ->
  (forall i j p q vs x, nth_error (elements (shaped m)) i = Some p -> nth_error (elements (shaped m)) j = Some q -> i <> j ->
     In vs (holes p) -> on_contour x vs -> outside_of (border q) x) /\
  (forall t q vs x, In t (elements (linear m)) -> In q (elements (shaped m)) -> In vs (holes q) -> on_contour x vs ->
     ~ on_segment x (seg_start t) (seg_end t)).
Proof. exact (fun ctx coins nearest => proj2 (others_clear ctx (conj coins nearest))). Qed.
Print Assumptions C86_mixes_holes_clear.

(** The multicontour, polygon, multipolygon and mix of the examples of C25, C27, C31 and C33 have such contours; the regions are not empty:
    a point inside the first polygon, and one of its first hole, which is outside the second polygon. *)
Example C85_C86_apply :
  (exists w s, multipolygons reference (upto 14) None 2 (Some 3) 3 None 1 None 3 None = Ok (w, s)
     /\ generates s [Poly (ints [(0, 0); (4, 2); (4, 12); (1, 13)]) [ints [(1, 1); (2, 11); (2, 7)]];
                     Poly (ints [(7, 0); (14, 3); (12, 8); (9, 8)]) [ints [(8, 3); (10, 5); (11, 5)]]])
  /\ winding (Pt (Qc_of_Z 3) (Qc_of_Z 6)) (ints [(0, 0); (4, 2); (4, 12); (1, 13)]) = 1
  /\ winding (Pt (Qc_of_Z 2) (Qc_of_Z 7)) (ints [(0, 0); (4, 2); (4, 12); (1, 13)]) = 1
  /\ winding (Pt (Qc_of_Z 2) (Qc_of_Z 7)) (ints [(7, 0); (14, 3); (12, 8); (9, 8)]) = 0
  /\ (exists w s, multicontours reference seven_xs (Some seven_ys) 2 None 3 None = Ok (w, s)
     /\ generates s [ints [(1, 0); (4, 4); (4, 5)]; ints [(4, 5); (6, 2); (6, 6)]])
  /\ winding (Pt (Qc_of_Z 5) (Qc_of_Z 4)) (ints [(4, 5); (6, 2); (6, 6)]) = 1.
Proof.
  split; [exact C31_C32_occur|]. split; [vm_compute; reflexivity|]. split; [vm_compute; reflexivity|]. split; [vm_compute; reflexivity|].
  split; [exact C25_C26_occur|vm_compute; reflexivity].
Qed.
