(** What survives inexact arithmetic. *)
From Verif Require Import Base Prog ProgProofs Geometry Ctx Utils Strategies Planar Reference ReferenceProofs Spec MixSpec
  RoughArith RoughFactories RoughStrategies RoughPlanar RoughApi RoughExact PropertiesContours PropertiesGeometries PropertiesMixes.
Open Scope Z_scope.

(** ** C91.  In the theorems [ar] is any arithmetic, with no law assumed, and [ctx_hull] any function
    whose results are among its arguments.  [drawable_point], [in_drawable_range], [size_ok] and the
    relations between geometries are those of Spec.v and MixSpec.v: comparing coordinates and the
    geometry of the plane stay exact, only what the program computes is inexact.

    With exact arithmetic the functions are those of Planar.v. *)
Theorem C91_exact :
  @RoughPlanar.multisegments exact = Planar.multisegments /\ @RoughPlanar.contours exact = Planar.contours /\
  @RoughPlanar.convex_contours exact = Planar.convex_contours /\ @RoughPlanar.concave_contours exact = Planar.concave_contours /\
  @RoughPlanar.triangular_contours exact = Planar.triangular_contours /\ @RoughPlanar.star_contours exact = Planar.star_contours /\
  @RoughPlanar.multicontours exact = Planar.multicontours /\ @RoughPlanar.polygons exact = Planar.polygons /\
  @RoughPlanar.multipolygons exact = Planar.multipolygons /\ @RoughPlanar.mixes exact = Planar.mixes.
Proof. exact exact_api. Qed.
Print Assumptions C91_exact.

Theorem C91_convex_contours : forall (ar : arith) ctx xs ys mn mx w s vs, (forall l, incl (ctx_hull ctx l) l) ->
  RoughPlanar.convex_contours ctx xs ys mn mx = Ok (w, s) -> generates s vs ->
  size_ok (lenZ vs) (Z.max mn 3) mx
  /\ (forall p, In p vs -> in_drawable_range xs (px p) /\ in_drawable_range (ordinates xs ys) (py p)).
Proof. exact @convex_contours_spec. Qed.
Print Assumptions C91_convex_contours.
Theorem C91_contours : forall (ar : arith) ctx xs ys mn mx w s vs, (forall l, incl (ctx_hull ctx l) l) ->
  RoughPlanar.contours ctx xs ys mn mx = Ok (w, s) -> generates s vs ->
  size_ok (lenZ vs) (Z.max mn 3) mx
  /\ (forall p, In p vs -> in_drawable_range xs (px p) /\ in_drawable_range (ordinates xs ys) (py p)).
Proof. exact @contours_spec. Qed.
Print Assumptions C91_contours.
Theorem C91_concave_contours : forall (ar : arith) ctx xs ys mn mx w s vs,
  RoughPlanar.concave_contours ctx xs ys mn mx = Ok (w, s) -> generates s vs ->
  size_ok (lenZ vs) (Z.max mn 4) mx /\ (forall p, In p vs -> drawable_point xs ys p).
Proof. exact @concave_contours_spec. Qed.
Print Assumptions C91_concave_contours.
Theorem C91_star_contours : forall (ar : arith) ctx xs ys mn mx w s vs,
  RoughPlanar.star_contours ctx xs ys mn mx = Ok (w, s) -> generates s vs ->
  size_ok (lenZ vs) (Z.max mn 3) mx /\ NoDup vs /\ (forall p, In p vs -> drawable_point xs ys p).
Proof. exact @star_contours_spec. Qed.
Print Assumptions C91_star_contours.
Theorem C91_triangular_contours : forall (ar : arith) xs ys w s vs,
  RoughPlanar.triangular_contours xs ys = Ok (w, s) -> generates s vs ->
  lenZ vs = 3 /\ (forall p, In p vs -> drawable_point xs ys p).
Proof. exact @triangular_contours_spec. Qed.
Print Assumptions C91_triangular_contours.
Theorem C91_multisegments : forall (ar : arith) ctx xs ys mn mx w s l, (forall l, incl (ctx_hull ctx l) l) ->
  RoughPlanar.multisegments ctx xs ys mn mx = Ok (w, s) -> generates s l ->
  size_ok (lenZ l) (Z.max mn 2) mx
  /\ (forall t, In t l ->
        in_drawable_range xs (px (seg_start t)) /\ in_drawable_range xs (px (seg_end t))
        /\ in_drawable_range (ordinates xs ys) (py (seg_start t)) /\ in_drawable_range (ordinates xs ys) (py (seg_end t))).
Proof. exact @multisegments_spec. Qed.
Print Assumptions C91_multisegments.
Theorem C91_multicontours_sizes : forall (ar : arith) ctx xs ys mn mx cmn cmx w s mc,
  RoughPlanar.multicontours ctx xs ys mn mx cmn cmx = Ok (w, s) -> generates s mc ->
  size_ok (lenZ mc) (Z.max mn 2) mx /\ (forall vs : contour, In vs mc -> size_ok (lenZ vs) (Z.max cmn 3) cmx) /\
  forall vs p, In vs mc -> In p vs -> drawable_point xs ys p.
Proof. exact @multicontours_sizes. Qed.
Print Assumptions C91_multicontours_sizes.
Theorem C91_multicontours_apart : forall (ar : arith) ctx xs ys mn mx cmn cmx w s mc,
  RoughPlanar.multicontours ctx xs ys mn mx cmn cmx = Ok (w, s) -> generates s mc ->
  forall i j vs ws, nth_error mc i = Some vs -> nth_error mc j = Some ws -> i <> j ->
    edges_apart vs ws /\ meet_at_most_once vs ws.
Proof. exact @multicontours_apart. Qed.
Print Assumptions C91_multicontours_apart.
Theorem C91_polygons_sizes : forall (ar : arith) ctx xs ys mn mx hmn hmx smn smx w s p,
  RoughPlanar.polygons ctx xs ys mn mx hmn hmx smn smx = Ok (w, s) -> generates s p ->
  size_ok (lenZ (border p)) (Z.max mn 3) mx /\ size_ok (lenZ (holes p)) (Z.max hmn 0) hmx /\
  (forall vs : contour, In vs (holes p) -> size_ok (lenZ vs) (Z.max smn 3) smx) /\
  (forall q, In q (border p) -> drawable_point xs ys q) /\
  forall vs q, In vs (holes p) -> In q vs -> drawable_point xs ys q.
Proof. exact @polygons_sizes. Qed.
Print Assumptions C91_polygons_sizes.
Theorem C91_polygons_holes_apart : forall (ar : arith) ctx xs ys mn mx hmn hmx smn smx w s p,
  RoughPlanar.polygons ctx xs ys mn mx hmn hmx smn smx = Ok (w, s) -> generates s p ->
  forall i j vs ws, nth_error (holes p) i = Some vs -> nth_error (holes p) j = Some ws -> i <> j ->
    edges_apart vs ws /\ meet_at_most_once vs ws.
Proof. exact @polygons_holes_apart. Qed.
Print Assumptions C91_polygons_holes_apart.
Theorem C91_multipolygons_sizes : forall (ar : arith) ctx xs ys mn mx bmn bmx hmn hmx smn smx w s ps,
  RoughPlanar.multipolygons ctx xs ys mn mx bmn bmx hmn hmx smn smx = Ok (w, s) -> generates s ps ->
  size_ok (lenZ ps) (Z.max mn 2) mx /\
  (forall p, In p ps -> polygon_sizes p (Z.max bmn 3) bmx hmn hmx (Z.max smn 3) smx).
Proof. exact @multipolygons_sizes. Qed.
Print Assumptions C91_multipolygons_sizes.
Theorem C91_multipolygons_drawable : forall (ar : arith) ctx xs ys mn mx bmn bmx hmn hmx smn smx w s ps,
  RoughPlanar.multipolygons ctx xs ys mn mx bmn bmx hmn hmx smn smx = Ok (w, s) -> generates s ps ->
  forall p q, In p ps -> In q (vertices p) -> drawable_point xs ys q.
Proof. exact @multipolygons_drawable. Qed.
Print Assumptions C91_multipolygons_drawable.
Theorem C91_multipolygons_apart : forall (ar : arith) ctx xs ys mn mx bmn bmx hmn hmx smn smx w s ps,
  RoughPlanar.multipolygons ctx xs ys mn mx bmn bmx hmn hmx smn smx = Ok (w, s) -> generates s ps ->
  (forall i j p q, nth_error ps i = Some p -> nth_error ps j = Some q -> i <> j ->
    edges_apart (border p) (border q) /\ (split_by_line (vertices p) (vertices q) \/ split_by_line (vertices q) (vertices p))) /\
  (forall i j p q vs, nth_error ps i = Some p -> nth_error ps j = Some q -> (i < j)%nat -> In vs (holes q) -> edges_apart (border p) vs).
Proof. exact @multipolygons_apart. Qed.
Print Assumptions C91_multipolygons_apart.
Theorem C91_mixes_sizes : forall (ar : arith) ctx xs ys pmn pmx gmn gmx qmn qmx mn mx hmn hmx smn smx w s m,
  (forall l, incl (ctx_hull ctx l) l) ->
  RoughPlanar.mixes ctx xs ys pmn pmx gmn gmx qmn qmx mn mx hmn hmx smn smx = Ok (w, s) -> generates s m ->
  size_ok (lenZ (elements (discrete m))) (Z.max pmn 0) pmx /\ size_ok (lenZ (elements (linear m))) (Z.max gmn 0) gmx /\
  size_ok (lenZ (elements (shaped m))) (Z.max qmn 0) qmx /\
  (forall q, In q (elements (shaped m)) -> polygon_sizes q (Z.max mn 3) mx (Z.max hmn 0) hmx (Z.max smn 3) smx).
Proof. exact @mixes_sizes. Qed.
Print Assumptions C91_mixes_sizes.
Theorem C91_mixes_two_components : forall (ar : arith) ctx xs ys pmn pmx gmn gmx qmn qmx mn mx hmn hmx smn smx w s m,
  (forall l, incl (ctx_hull ctx l) l) ->
  RoughPlanar.mixes ctx xs ys pmn pmx gmn gmx qmn qmx mn mx hmn hmx smn smx = Ok (w, s) -> generates s m ->
  nonempty (discrete m) /\ nonempty (linear m) \/ nonempty (discrete m) /\ nonempty (shaped m)
  \/ nonempty (linear m) /\ nonempty (shaped m).
Proof. exact @mixes_two. Qed.
Print Assumptions C91_mixes_two_components.
Theorem C91_mixes_component_types : forall (ar : arith) ctx xs ys pmn pmx gmn gmx qmn qmx mn mx hmn hmx smn smx w s m,
  (forall l, incl (ctx_hull ctx l) l) ->
  RoughPlanar.mixes ctx xs ys pmn pmx gmn gmx qmn qmx mn mx hmn hmx smn smx = Ok (w, s) -> generates s m ->
  match discrete m with EmptyPart => True | SinglePart _ => False | MultiPart l => 1 <= lenZ l end /\
  match linear m with EmptyPart => True | SinglePart _ => True | MultiPart l => 2 <= lenZ l end /\
  match shaped m with EmptyPart => True | SinglePart _ => True | MultiPart l => 2 <= lenZ l end.
Proof. exact @mixes_parts. Qed.
Print Assumptions C91_mixes_component_types.
Theorem C91_mixes_coordinates : forall (ar : arith) ctx xs ys pmn pmx gmn gmx qmn qmx mn mx hmn hmx smn smx w s m,
  (forall l, incl (ctx_hull ctx l) l) ->
  RoughPlanar.mixes ctx xs ys pmn pmx gmn gmx qmn qmx mn mx hmn hmx smn smx = Ok (w, s) -> generates s m ->
  (forall p, In p (elements (discrete m)) -> drawable_point xs ys p) /\
  (forall t, In t (elements (linear m)) ->
     (in_drawable_range xs (px (seg_start t)) /\ in_drawable_range (ordinates xs ys) (py (seg_start t))) /\
     (in_drawable_range xs (px (seg_end t)) /\ in_drawable_range (ordinates xs ys) (py (seg_end t)))) /\
  (forall q v, In q (elements (shaped m)) -> In v (vertices q) -> drawable_point xs ys v).
Proof. exact @mixes_coordinates. Qed.
Print Assumptions C91_mixes_coordinates.
Theorem C91_mixes_points_aside : forall (ar : arith) ctx xs ys pmn pmx gmn gmx qmn qmx mn mx hmn hmx smn smx w s m,
  (forall l, incl (ctx_hull ctx l) l) ->
  RoughPlanar.mixes ctx xs ys pmn pmx gmn gmx qmn qmx mn mx hmn hmx smn smx = Ok (w, s) -> generates s m ->
  NoDup (elements (discrete m)) /\
  (forall p t, In p (elements (discrete m)) -> In t (elements (linear m)) ->
     aside p [seg_start t; seg_end t] /\ ~ on_segment p (seg_start t) (seg_end t)) /\
  (forall p q, In p (elements (discrete m)) -> In q (elements (shaped m)) ->
     aside p (vertices q) /\ forall vs, In vs (border q :: holes q) -> ~ on_contour p vs).
Proof. exact @mixes_points_aside. Qed.
Print Assumptions C91_mixes_points_aside.
Theorem C91_mixes_apart : forall (ar : arith) ctx xs ys pmn pmx gmn gmx qmn qmx mn mx hmn hmx smn smx w s m,
  (forall l, incl (ctx_hull ctx l) l) ->
  RoughPlanar.mixes ctx xs ys pmn pmx gmn gmx qmn qmx mn mx hmn hmx smn smx = Ok (w, s) -> generates s m ->
  (forall t q u v, In t (elements (linear m)) -> In q (elements (shaped m)) -> contour_edge (border q) u v ->
     ~ interiors_meet t (Seg u v)) /\
  (forall t q, In t (elements (linear m)) -> In q (elements (shaped m)) ->
     split_by_line [seg_start t; seg_end t] (vertices q) \/ split_by_line (vertices q) [seg_start t; seg_end t]) /\
  (forall i j p q, nth_error (elements (shaped m)) i = Some p -> nth_error (elements (shaped m)) j = Some q -> i <> j ->
     edges_apart (border p) (border q)
     /\ (split_by_line (vertices p) (vertices q) \/ split_by_line (vertices q) (vertices p))).
Proof. exact @mixes_apart. Qed.
Print Assumptions C91_mixes_apart.

(** An inexact arithmetic: sums and differences are rounded down to even integers, and a triple of
    points is taken to be collinear if the cross product is less than 5 in absolute value. *)
Definition floor_even (x : Qc) : Qc := Qc_of_Z (2 * (Qnum (this x) / (2 * Zpos (Qden (this x))))).
Definition coarse_orientation (v f s : point) : orientation :=
  if (qleb (Qc_of_Z 5) (cross v f s)) then COUNTERCLOCKWISE
  else if (qleb (cross v f s) (Qc_of_Z (-5))) then CLOCKWISE else COLLINEAR.
Definition coarse : arith :=
  Arith (fun x y => floor_even (x + y)) (fun x y => floor_even (x - y)) coarse_orientation Geometry.in_circle_interior
    Geometry.multipoint_centroid Geometry.region_centroid Geometry.segments_cross_or_overlap
    Geometry.some_segments_cross_or_overlap.
(** It is inexact: [7 - 4] is [2], and three points that are not collinear are taken for collinear. *)
Example coarse_is_inexact :
  @rsub coarse (Qc_of_Z 7) (Qc_of_Z 4) = Qc_of_Z 2
  /\ cross (Pt 0 0) (Pt (Qc_of_Z 2) 0) (Pt 0 (Qc_of_Z 2)) <> 0%Qc
  /\ @angle_orientation coarse (Pt 0 0) (Pt (Qc_of_Z 2) 0) (Pt 0 (Qc_of_Z 2)) = COLLINEAR.
Proof. repeat split; try (apply Qc_is_canon; reflexivity). intros H. discriminate H. Qed.

(** The hypothesis on hulls is met. *)
Example C91_hull : forall l, incl (ctx_hull reference l) l.
Proof. intros l. destruct (reference_hull l) as (_ & Hi & _). exact Hi. Qed.

(** With this arithmetic every function still generates geometries. *)
Example C91_convex_contours_example : exists w s, @RoughPlanar.convex_contours coarse reference (upto 20) None 5 None = Ok (w, s) /\
  generates s (ints [(2, 2); (6, 0); (6, 2); (4, 19); (2, 10)]).
Proof.
  do 2 eexists. split; [reflexivity|].
  apply (run_sound _ [7; 13; 8; 2; 5; 6; 1; 0; 5; 0; 18; 7; 19; 16; 1; 5; 26; 0; 1; 0; 1; 0; 1; 3; 2; 2; 0; 0]).
  vm_compute. reflexivity.
Qed.
Example C91_contours_example : exists w s, @RoughPlanar.contours coarse reference (upto 30) None 5 None = Ok (w, s) /\
  generates s (ints [(2, 0); (27, 26); (25, 29); (11, 29); (8, 26)]).
Proof.
  do 2 eexists. split; [reflexivity|].
  apply (run_sound _ [1; 0; 7; 8; 12; 27; 2; 19; 11; 25; 7; 22; 0; 13; 29; 26; 7; 18; 0; 6; 47]).
  vm_compute. reflexivity.
Qed.
Example C91_concave_contours_example : exists w s, @RoughPlanar.concave_contours coarse reference (upto 30) None 5 None = Ok (w, s) /\
  generates s (ints [(7, 1); (29, 2); (25, 8); (19, 8); (10, 2)]).
Proof.
  do 2 eexists. split; [reflexivity|].
  apply (run_sound _ [1; 5; 19; 10; 7; 29; 25; 10; 12; 9; 14; 1; 10; 13; 4; 2; 7; 8; 0; 8; 41; 5]).
  vm_compute. reflexivity.
Qed.
Example C91_star_contours_example : exists w s, @RoughPlanar.star_contours coarse reference (upto 30) None 5 None = Ok (w, s) /\
  generates s (ints [(3, 2); (13, 15); (15, 21); (8, 22); (4, 21)]).
Proof.
  do 2 eexists. split; [reflexivity|].
  apply (run_sound _ [10; 14; 20; 3; 25; 15; 4; 8; 13; 24; 12; 8; 15; 16; 6; 28; 2; 22; 21; 7; 0; 5; 40]).
  vm_compute. reflexivity.
Qed.
Example C91_triangular_contours_example : exists w s, @RoughPlanar.triangular_contours coarse (upto 30) None = Ok (w, s) /\
  generates s (ints [(29, 30); (9, 16); (13, 5)]).
Proof.
  do 2 eexists. split; [reflexivity|]. apply (run_sound _ [13; 5; 9; 16; 29; 30]). vm_compute. reflexivity.
Qed.
Example C91_multicontours_example : exists w s, @RoughPlanar.multicontours coarse reference (upto 30) None 2 None 3 None = Ok (w, s) /\
  generates s [ints [(0, 1); (15, 7); (7, 7)]; ints [(3, 13); (15, 7); (20, 13)]].
Proof.
  do 2 eexists. split; [reflexivity|].
  apply (run_sound _ [10; 24; 0; 7; 15; 20; 3; 12; 21; 23; 9; 7; 15; 13; 17; 1; 20; 7; 29; 0; 0; 2; 2; 3; 3; 1; 0; 1; 1]).
  vm_compute. reflexivity.
Qed.
Example C91_polygons_example : exists w s, @RoughPlanar.polygons coarse reference (upto 30) None 4 None 1 None 3 None = Ok (w, s) /\
  generates s (Poly (ints [(2, 1); (19, 6); (21, 13); (12, 25); (10, 25); (4, 13)])
                    [ints [(6, 6); (7, 15); (18, 15); (8, 14); (17, 14)]]).
Proof.
  do 2 eexists. split; [reflexivity|].
  apply (run_sound _ [15; 21; 4; 30; 18; 12; 6; 7; 19; 10; 17; 2; 8; 28; 29; 24; 12; 25; 23; 20; 6; 27; 1; 10; 30; 14; 13; 19; 15;
                      0; 6; 69; 6; 1; 0; 5; 1]).
  vm_compute. reflexivity.
Qed.
Example C91_multipolygons_example : exists w s,
  @RoughPlanar.multipolygons coarse reference (upto 40) None 2 (Some 3) 3 None 0 None 3 None = Ok (w, s) /\
  generates s [Poly (ints [(4, 12); (6, 13); (6, 39)]) []; Poly (ints [(10, 16); (14, 15); (10, 22)]) []].
Proof.
  do 2 eexists. split; [reflexivity|].
  apply (run_sound _ [0; 10; 10; 11; 6; 37; 36; 4; 23; 20; 31; 14; 7; 12; 39; 15; 16; 13; 22; 25; 1; 1; 8; 2; 3; 3; 1; 0; 0; 1]).
  vm_compute. reflexivity.
Qed.
Example C91_mixes_example : exists w s,
  @RoughPlanar.mixes coarse reference (upto 40) None 1 None 2 None 1 None 3 None 0 None 3 None = Ok (w, s) /\
  generates s (Mix (MultiPart [Pt (Qc_of_Z 37) (Qc_of_Z 32); Pt (Qc_of_Z 32) (Qc_of_Z 36)])
                   (MultiPart [sgm 16 20 11 20; sgm 24 24 17 24])
                   (SinglePart (Poly (ints [(8, 2); (32, 9); (19, 13); (15, 13); (10, 9)]) []))).
Proof.
  do 2 eexists. split; [reflexivity|].
  apply (run_sound _ [0; 1; 1; 11; 16; 9; 13; 14; 36; 24; 20; 21; 2; 4; 32; 1; 5; 0; 2; 1; 1; 3; 1; 1; 0; 9; 38; 8; 40; 10; 33; 15; 34;
                      32; 19; 5; 4; 3; 1; 0; 2; 0; 8; 42; 5; 16; 1; 11; 1; 24; 1; 17; 1; 2; 37; 0; 32; 1]).
  vm_compute. reflexivity.
Qed.
Example C91_multisegments_example : exists w s, @RoughPlanar.multisegments coarse reference (upto 30) None 3 None = Ok (w, s) /\
  generates s [sgm 6 27 23 8; sgm 23 8 18 17; sgm 18 17 6 27].
Proof.
  do 2 eexists. split; [reflexivity|]. apply (run_sound _ [0; 1; 0; 0; 6; 27; 23; 8; 18; 17; 1; 1; 0; 3]). vm_compute. reflexivity.
Qed.
