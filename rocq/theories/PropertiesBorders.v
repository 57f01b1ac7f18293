(** C29, C30, C54-C58: borders and holes of polygons; the triangulation they are carved from. *)
From Verif Require Import Base Prog Geometry Ctx Contracts Factories Strategies Planar Spec MixSpec WindSpec DelaunaySpec ProgProofs
  EdgeProofs SeparationProofs BorderProofs DelaunayProofs Triangulation QuadEdge Reference ReferenceProofs PropertiesContours PropertiesGeometries
  PropertiesMixes PropertiesTriangulation PropertiesFaults.
Local Open Scope Z_scope.

(** ** C29.  Full statement: borders and holes have no straight angle.  Proved: borders have none
    (in a multipolygon: if a hole is required, or the polygon has one; other polygons of a
    multipolygon may be contours, see C19); in a hole, all angles but possibly the ones
    at the first two vertices. *)
Theorem C29_borders_angles_partial : forall ctx,
  (forall n, (2 <= n)%nat -> is_change n (ctx_coins ctx n)) ->
  (forall l s, l <> [] -> is_nearest l s (ctx_nearest ctx l s)) ->
  (forall xs ys mn mx hmn hmx smn smx w s p,
     polygons ctx xs ys mn mx hmn hmx smn smx = Ok (w, s) -> generates s p ->
     strict (border p)) /\
  (forall xs ys mn mx bmn bmx hmn hmx smn smx w s ps p,
     multipolygons ctx xs ys mn mx bmn bmx hmn hmx smn smx = Ok (w, s) -> generates s ps -> In p ps ->
     hmn <> 0 \/ holes p <> [] -> strict (border p)) /\
  (forall xs ys pmn pmx gmn gmx qmn qmx mn mx hmn hmx smn smx w s m p,
     mixes ctx xs ys pmn pmx gmn gmx qmn qmx mn mx hmn hmx smn smx = Ok (w, s) -> generates s m ->
     In p (elements (shaped m)) -> strict (border p)).
Proof. exact (fun ctx coins nearest => borders_strict ctx (conj coins nearest)). Qed.
Print Assumptions C29_borders_angles_partial.
Theorem C29_holes_angles_partial : forall ctx,
  (forall xs ys mn mx hmn hmx smn smx w s p,
     polygons ctx xs ys mn mx hmn hmx smn smx = Ok (w, s) -> generates s p ->
     forall vs, In vs (holes p) ->
       (forall a b, contour_edge vs a b -> a <> b) /\ later_strict vs /\ (lenZ vs = 3 -> strict vs)) /\
  (forall xs ys mn mx bmn bmx hmn hmx smn smx w s ps p,
     multipolygons ctx xs ys mn mx bmn bmx hmn hmx smn smx = Ok (w, s) -> generates s ps -> In p ps ->
     forall vs, In vs (holes p) ->
       (forall a b, contour_edge vs a b -> a <> b) /\ later_strict vs /\ (lenZ vs = 3 -> strict vs)) /\
  (forall xs ys pmn pmx gmn gmx qmn qmx mn mx hmn hmx smn smx w s m p,
     mixes ctx xs ys pmn pmx gmn gmx qmn qmx mn mx hmn hmx smn smx = Ok (w, s) -> generates s m ->
     In p (elements (shaped m)) -> forall vs, In vs (holes p) ->
       (forall a b, contour_edge vs a b -> a <> b) /\ later_strict vs /\ (lenZ vs = 3 -> strict vs)).
Proof.
  intros ctx. split; [|split].
  - intros xs ys mn mx hmn hmx smn smx w s p H Hg vs Hv. apply clean_angles,  (polygons_clean _ _ _ _ _ _ _ _ _ _ _ _ H Hg vs Hv).
  - intros xs ys mn mx bmn bmx hmn hmx smn smx w s ps p H Hg Hp vs Hv. apply clean_angles,  (multipolygons_clean _ _ _ _ _ _ _ _ _ _ _ _ _ _ _ H Hg Hp vs Hv).
  - intros xs ys pmn pmx gmn gmx qmn qmx mn mx hmn hmx smn smx w s m p H Hg Hp vs Hv. apply clean_angles,  (mixes_clean _ _ _ _ _ _ _ _ _ _ _ _ _ _ _ _ _ _ _ H Hg Hp vs Hv).
Qed.
Print Assumptions C29_holes_angles_partial.

(** ** C30: no point of a hole is on the border. *)
Theorem C30_holes_off_border : forall ctx,
  (forall n, (2 <= n)%nat -> is_change n (ctx_coins ctx n)) ->
  (forall l s, l <> [] -> is_nearest l s (ctx_nearest ctx l s)) ->
  (forall xs ys mn mx hmn hmx smn smx w s p,
     polygons ctx xs ys mn mx hmn hmx smn smx = Ok (w, s) -> generates s p ->
     forall vs q, In vs (holes p) -> on_contour q vs -> ~ on_contour q (border p)) /\
  (forall xs ys mn mx bmn bmx hmn hmx smn smx w s ps p,
     multipolygons ctx xs ys mn mx bmn bmx hmn hmx smn smx = Ok (w, s) -> generates s ps -> In p ps ->
     forall vs q, In vs (holes p) -> on_contour q vs -> ~ on_contour q (border p)) /\
  (forall xs ys pmn pmx gmn gmx qmn qmx mn mx hmn hmx smn smx w s m p,
     mixes ctx xs ys pmn pmx gmn gmx qmn qmx mn mx hmn hmx smn smx = Ok (w, s) -> generates s m ->
     In p (elements (shaped m)) -> forall vs q, In vs (holes p) -> on_contour q vs -> ~ on_contour q (border p)).
Proof. exact (fun ctx coins nearest => holes_off_border ctx (conj coins nearest)). Qed.
Print Assumptions C30_holes_off_border.

(** ** C54: borders do not meet themselves, and are counterclockwise. *)
Theorem C54_borders_simple : forall ctx,
  (forall n, (2 <= n)%nat -> is_change n (ctx_coins ctx n)) ->
  (forall l s, l <> [] -> is_nearest l s (ctx_nearest ctx l s)) ->
  (forall xs ys mn mx hmn hmx smn smx w s p,
     polygons ctx xs ys mn mx hmn hmx smn smx = Ok (w, s) -> generates s p ->
     jordan (border p) /\ (0 < signed_area (border p))%Qc) /\
  (forall xs ys mn mx bmn bmx hmn hmx smn smx w s ps p,
     multipolygons ctx xs ys mn mx bmn bmx hmn hmx smn smx = Ok (w, s) -> generates s ps -> In p ps ->
     hmn <> 0 \/ holes p <> [] -> jordan (border p) /\ (0 < signed_area (border p))%Qc) /\
  (forall xs ys pmn pmx gmn gmx qmn qmx mn mx hmn hmx smn smx w s m p,
     mixes ctx xs ys pmn pmx gmn gmx qmn qmx mn mx hmn hmx smn smx = Ok (w, s) -> generates s m ->
     In p (elements (shaped m)) -> jordan (border p) /\ (0 < signed_area (border p))%Qc).
Proof. exact (fun ctx coins nearest => borders_simple ctx (conj coins nearest)). Qed.
Print Assumptions C54_borders_simple.

(** ** C55: all points of a hole are inside the border. *)
Theorem C55_holes_inside_border : forall ctx,
  (forall n, (2 <= n)%nat -> is_change n (ctx_coins ctx n)) ->
  (forall l s, l <> [] -> is_nearest l s (ctx_nearest ctx l s)) ->
  (forall xs ys mn mx hmn hmx smn smx w s p,
     polygons ctx xs ys mn mx hmn hmx smn smx = Ok (w, s) -> generates s p ->
     forall vs q, In vs (holes p) -> on_contour q vs -> within q (border p)) /\
  (forall xs ys mn mx bmn bmx hmn hmx smn smx w s ps p,
     multipolygons ctx xs ys mn mx bmn bmx hmn hmx smn smx = Ok (w, s) -> generates s ps -> In p ps ->
     forall vs q, In vs (holes p) -> on_contour q vs -> within q (border p)) /\
  (forall xs ys pmn pmx gmn gmx qmn qmx mn mx hmn hmx smn smx w s m p,
     mixes ctx xs ys pmn pmx gmn gmx qmn qmx mn mx hmn hmx smn smx = Ok (w, s) -> generates s m ->
     In p (elements (shaped m)) -> forall vs q, In vs (holes p) -> on_contour q vs -> within q (border p)).
Proof. exact (fun ctx coins nearest => holes_within ctx (conj coins nearest)). Qed.
Print Assumptions C55_holes_inside_border.

(** ** C57: no two edges of a hole cross or overlap. *)
Theorem C57_hole_edges_apart : forall ctx,
  (forall xs ys mn mx hmn hmx smn smx w s p,
     polygons ctx xs ys mn mx hmn hmx smn smx = Ok (w, s) -> generates s p ->
     forall vs, In vs (holes p) -> pairwise_apart (contour_segments vs)) /\
  (forall xs ys mn mx bmn bmx hmn hmx smn smx w s ps p,
     multipolygons ctx xs ys mn mx bmn bmx hmn hmx smn smx = Ok (w, s) -> generates s ps -> In p ps ->
     forall vs, In vs (holes p) -> pairwise_apart (contour_segments vs)) /\
  (forall xs ys pmn pmx gmn gmx qmn qmx mn mx hmn hmx smn smx w s m p,
     mixes ctx xs ys pmn pmx gmn gmx qmn qmx mn mx hmn hmx smn smx = Ok (w, s) -> generates s m ->
     In p (elements (shaped m)) -> forall vs, In vs (holes p) -> pairwise_apart (contour_segments vs)).
Proof.
  intros ctx. split; [|split].
  - intros xs ys mn mx hmn hmx smn smx w s p H Hg vs Hv. apply  (polygons_clean _ _ _ _ _ _ _ _ _ _ _ _ H Hg vs Hv).
  - intros xs ys mn mx bmn bmx hmn hmx smn smx w s ps p H Hg Hp vs Hv. apply  (multipolygons_clean _ _ _ _ _ _ _ _ _ _ _ _ _ _ _ H Hg Hp vs Hv).
  - intros xs ys pmn pmx gmn gmx qmn qmx mn mx hmn hmx smn smx w s m p H Hg Hp vs Hv. apply  (mixes_clean _ _ _ _ _ _ _ _ _ _ _ _ _ _ _ _ _ _ _ H Hg Hp vs Hv).
Qed.
Print Assumptions C57_hole_edges_apart.

(** The polygon with two holes of C27, a multipolygon with holes and a mix with a hole; the contracts of
    the reference services. *)
Definition hollow : polygon :=
  Poly (ints [(0, 1); (10, 3); (12, 12); (2, 12)]) [ints [(3, 9); (5, 8); (7, 10); (4, 3)]; ints [(8, 10); (11, 9); (9, 8)]].
Definition mixed : polygon := Poly (ints [(3, 2); (17, 4); (14, 11); (8, 11)]) [ints [(6, 4); (9, 7); (11, 7)]].
Example C29_C30_C54_C55_C57_occur :
  (forall n, (2 <= n)%nat -> is_change n (ctx_coins reference n)) /\
  (forall l s, l <> [] -> is_nearest l s (ctx_nearest reference l s)) /\
  (exists w s, polygons reference upto_twelve None 4 None 2 None 3 None = Ok (w, s) /\ generates s hollow) /\
  (exists w s ps p, multipolygons reference (upto 14) None 2 (Some 3) 3 None 1 None 3 None = Ok (w, s) /\ generates s ps
     /\ In p ps /\ holes p <> []) /\
  (exists w s m p, mixes reference (upto 17) None 1 None 0 None 1 None 3 None 1 None 3 None = Ok (w, s) /\ generates s m
     /\ In p (elements (shaped m)) /\ holes p <> []).
Proof.
  split; [exact reference_coins|]. split; [exact reference_nearest|]. split; [|split].
  - destruct C27_C28_occur as (w & s & H & K & _). exists w, s. split; [exact H|exact K].
  - destruct C31_C32_occur as (w & s & H & K). exists w, s. do 2 eexists. split; [exact H|]. split; [exact K|]. split; [left; reflexivity|discriminate].
  - do 2 eexists. exists (Mix (MultiPart (ints [(11, 1)])) EmptyPart (SinglePart mixed)), mixed. split; [reflexivity|].
    split; [|split; [left; reflexivity|discriminate]].
    apply (run_sound _ [0; 1; 1; 8; 16; 11; 14; 1; 8; 2; 4; 7; 1; 7; 0; 1; 0; 0; 1; 11; 0; 7; 11; 3; 8; 14; 9; 17; 6; 7; 5; 1; 3; 0; 4;
      2; 6; 0; 2; 15; 4; 1; 0; 3; 0]). vm_compute. reflexivity.
Qed.
(** The vertices of the holes of [hollow] are inside its border, its vertices and other points are not. *)
Example C55_winding :
  forallb (fun q => winding q (border hollow) =? 1) (List.concat (holes hollow)) = true
  /\ map (fun q => winding q (border hollow)) (ints [(0, 2); (11, 4); (1, 12); (13, 5); (5, 20)]) = [0; 0; 0; 0; 0]
  /\ map (fun q => winding q (List.rev (border hollow))) (ints [(5, 5); (0, 2)]) = [-1; 0].
Proof. vm_compute. auto. Qed.

(** ** C56: the triangulation of distinct points is their Delaunay triangulation. *)
Theorem C56_delaunay : forall ctx points t h,
  NoDup points -> (forall n, (2 <= n)%nat -> is_change n (ctx_coins ctx n)) ->
  delaunay ctx points = Ok (t, h) -> is_delaunay points t h.
Proof. exact delaunay_is_delaunay. Qed.
Print Assumptions C56_delaunay.
Example C56_occurs : NoDup five /\ (forall n, (2 <= n)%nat -> is_change n (ctx_coins reference n)) /\
  delaunay reference five = Ok five_tri.
Proof. split; [repeat constructor; cbn; intros H; repeat destruct H as [H|H]; try discriminate H; contradiction H|]. split; [exact reference_coins|exact five_delaunay]. Qed.

(** ** C58: borders of multipolygons need not be simple: if no holes are required, the strategy
    generates one with the border (3,10)-(11,1) and (10,3)-(9,3) of C51. *)
Theorem C58_multipolygons_simple_refuted : exists w s ps p a b c d,
  (forall n, (2 <= n)%nat -> is_change n (ctx_coins reference n)) /\
  (forall l s, l <> [] -> is_nearest l s (ctx_nearest reference l s)) /\
  multipolygons reference (zs [0; 2; 3; 5; 6; 7; 9; 10; 11; 12; 13; 14; 15])
    (Some (zs [0; 1; 2; 3; 4; 5; 6; 7; 8; 10; 11; 12; 13])) 2 None 3 None 0 None 3 None = Ok (w, s) /\ generates s ps /\ In p ps
  /\ contour_edge (border p) a b /\ contour_edge (border p) c d /\ (a, b) <> (c, d) /\ interiors_meet (Seg a b) (Seg c d).
Proof.
  do 2 eexists. exists [Poly (ints [(0, 0); (11, 1); (7, 1)]) []; Poly twisted []], (Poly twisted []), (Pt (Qc_of_Z 3) (Qc_of_Z 10)),
    (Pt (Qc_of_Z 11) (Qc_of_Z 1)), (Pt (Qc_of_Z 10) (Qc_of_Z 3)), (Pt (Qc_of_Z 9) (Qc_of_Z 3)).
  split; [exact reference_coins|]. split; [exact reference_nearest|]. split; [reflexivity|]. split; [|split; [|split; [|split; [|split]]]].
  - apply (run_sound _ [0; 13; 0; 1; 2; 3; 4; 5; 6; 7; 8; 9; 10; 11; 12; 13; 0; 1; 2; 3; 4; 5; 6; 7; 8; 9; 10; 11; 12; 0; 0; 12; 2; 7; 3; 1; 0; 1; 0]).
    vm_compute. reflexivity.
  - right. left. reflexivity.
  - exists 1%nat. split; reflexivity.
  - exists 3%nat. split; reflexivity.
  - intros E. injection E as E. discriminate E.
  - apply cross_or_overlap_spec. vm_compute. reflexivity.
Qed.
Print Assumptions C58_multipolygons_simple_refuted.
(** Full statement: [jordan (border p)] for every polygon; proved if a hole is required or present. *)
Theorem C58_multipolygons_simple_partial : forall ctx,
  (forall n, (2 <= n)%nat -> is_change n (ctx_coins ctx n)) ->
  (forall l s, l <> [] -> is_nearest l s (ctx_nearest ctx l s)) ->
  forall xs ys mn mx bmn bmx hmn hmx smn smx w s ps p,
     multipolygons ctx xs ys mn mx bmn bmx hmn hmx smn smx = Ok (w, s) -> generates s ps -> In p ps ->
     hmn <> 0 \/ holes p <> [] -> jordan (border p) /\ (0 < signed_area (border p))%Qc.
Proof. exact (fun ctx coins nearest => proj1 (proj2 (borders_simple ctx (conj coins nearest)))). Qed.
Print Assumptions C58_multipolygons_simple_partial.
Example C58_occurs : exists w s ps p, multipolygons reference (upto 14) None 2 (Some 3) 3 None 1 None 3 None = Ok (w, s) /\ generates s ps
  /\ In p ps /\ holes p <> [].
Proof. apply C29_C30_C54_C55_C57_occur. Qed.
