(** C101: vertices on lines parallel to the axes. *)
From Verif Require Import Base Prog Geometry Ctx Strategies Planar Spec MixSpec AxisSpec AxisProofs Reference ReferenceProofs
  PropertiesContours PropertiesGeometries PropertiesMixes.
Import List ListNotations.
Local Open Scope Z_scope.

(** ** C101: star contours and concave contours have no two vertices on any vertical line, or no two on any horizontal line; and
    never three on a line of either direction. *)
Theorem C101_star_contours : forall ctx xs ys mn mx w s vs, star_contours ctx xs ys mn mx = Ok (w, s) -> generates s vs -> sparse_vertices vs.
Proof. exact star_sparse. Qed.
Print Assumptions C101_star_contours.
Theorem C101_concave_contours : forall ctx xs ys mn mx w s vs, concave_contours ctx xs ys mn mx = Ok (w, s) -> generates s vs -> sparse_vertices vs.
Proof. exact concave_sparse. Qed.
Print Assumptions C101_concave_contours.
(** ** Contours are like that or convex contours. *)
Theorem C101_contours : forall ctx xs ys mn mx w s vs, contours ctx xs ys mn mx = Ok (w, s) -> generates s vs ->
  sparse_vertices vs \/ exists w' s', convex_contours ctx xs ys mn mx = Ok (w', s') /\ generates s' vs.
Proof. exact contours_sparse. Qed.
Print Assumptions C101_contours.
(** ** All contours of a multicontour together. *)
Theorem C101_multicontours : forall ctx xs ys mn mx cmn cmx w s mc,
  multicontours ctx xs ys mn mx cmn cmx = Ok (w, s) -> generates s mc -> sparse_vertices (concat mc).
Proof. exact multicontours_sparse. Qed.
Print Assumptions C101_multicontours.
(** ** The border and the holes of a polygon together; every polygon of a multipolygon and of a mix. *)
Theorem C101_polygons : forall ctx xs ys mn mx hmn hmx smn smx w s p,
  polygons ctx xs ys mn mx hmn hmx smn smx = Ok (w, s) -> generates s p -> sparse_vertices (all_vertices p).
Proof. exact polygons_sparse. Qed.
Print Assumptions C101_polygons.
Theorem C101_multipolygons : forall ctx xs ys mn mx bmn bmx hmn hmx smn smx w s ps p, 0 <= hmn ->
  multipolygons ctx xs ys mn mx bmn bmx hmn hmx smn smx = Ok (w, s) -> generates s ps -> In p ps -> sparse_vertices (all_vertices p).
Proof. exact multipolygons_sparse. Qed.
Print Assumptions C101_multipolygons.
Theorem C101_mixes : forall ctx xs ys pmn pmx gmn gmx qmn qmx mn mx hmn hmx smn smx w s m p,
  mixes ctx xs ys pmn pmx gmn gmx qmn qmx mn mx hmn hmx smn smx = Ok (w, s) -> generates s m -> In p (elements (shaped m)) ->
  sparse_vertices (all_vertices p).
Proof. exact mixes_sparse. Qed.
Print Assumptions C101_mixes.
(** ** In particular the four corners of a box are never all among the vertices of a polygon. *)
Theorem C101_no_boxes : forall ctx xs ys mn mx hmn hmx smn smx w s p x1 x2 y1 y2,
  polygons ctx xs ys mn mx hmn hmx smn smx = Ok (w, s) -> generates s p -> x1 <> x2 -> y1 <> y2 ->
  ~ incl [Pt x1 y1; Pt x2 y1; Pt x2 y2; Pt x1 y2] (all_vertices p).
Proof. exact (fun ctx xs ys mn mx hmn hmx smn smx w s p x1 x2 y1 y2 H G => sparse_no_rectangle _ x1 x2 y1 y2 (polygons_sparse ctx xs ys mn mx hmn hmx smn smx w s p H G)). Qed.
Print Assumptions C101_no_boxes.

(** A polygon with two holes, two touching contours, a concave contour and two polygons with a hole each; a rectangle is a
    contour without being sparse. *)
Example C101_occurs :
  sparse_vertices (all_vertices (Poly (ints [(0, 1); (10, 3); (12, 12); (2, 12)])
                                      [ints [(3, 9); (5, 8); (7, 10); (4, 3)]; ints [(8, 10); (11, 9); (9, 8)]]))
  /\ sparse_vertices (concat [ints [(1, 0); (4, 4); (4, 5)]; ints [(4, 5); (6, 2); (6, 6)]])
  /\ sparse_vertices (ints [(1, 0); (7, 4); (7, 8); (6, 6)])
  /\ sparse_vertices (all_vertices (Poly (ints [(7, 0); (14, 3); (12, 8); (9, 8)]) [ints [(8, 3); (10, 5); (11, 5)]])).
Proof.
  split; [|split; [|split]].
  - destruct C27_C28_occur as (w & s & E & G & _). exact (C101_polygons _ _ _ _ _ _ _ _ _ _ _ _ E G).
  - destruct C25_C26_occur as (w & s & E & G). exact (C101_multicontours _ _ _ _ _ _ _ _ _ _ E G).
  - destruct C21_occurs as (w & s & E & G & _). exact (C101_concave_contours _ _ _ _ _ _ _ _ E G).
  - destruct C31_C32_occur as (w & s & E & G).
    exact (C101_multipolygons _ _ _ _ _ _ _ _ _ _ _ _ _ _ _ Z.le_0_1 E G (or_intror (or_introl eq_refl))).
Qed.
Example C101_box_not_sparse : ~ sparse_vertices (ints [(0, 0); (2, 0); (2, 1); (0, 1)]).
Proof.
  intros S. apply (sparse_no_rectangle _ (Qc_of_Z 0) (Qc_of_Z 2) (Qc_of_Z 0) (Qc_of_Z 1) S); [discriminate..|].
  intros q H. exact H.
Qed.
