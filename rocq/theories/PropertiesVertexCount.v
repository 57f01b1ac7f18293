(** C102: there are not more vertices than coordinates. *)
From Verif Require Import Base Prog Geometry Ctx Strategies Planar Spec MixSpec AxisSpec VertexCountSpec VertexCountProofs ProgProofs Reference ReferenceProofs
  PropertiesContours PropertiesGeometries PropertiesMixes.
Import List ListNotations.
Local Open Scope Z_scope.

(** ** C102: if only the abscissas (or only the ordinates) of a list can be drawn, then the number of vertices of a star contour or a
    concave contour, of a multicontour as a whole, and of a polygon with its holes is at most a prime number that is not
    greater than the length of the list. *)
Theorem C102_star_contours : forall ctx xs ys c mn mx w s vs, only_coordinates xs ys c ->
  star_contours ctx xs ys mn mx = Ok (w, s) -> generates s vs -> few_points (lenZ c) vs.
Proof. exact (fun ctx xs ys c mn mx w s vs O H G => gridded_few xs ys _ c O (star_gridded ctx xs ys mn mx w s vs H G)). Qed.
Print Assumptions C102_star_contours.
Theorem C102_concave_contours : forall ctx xs ys c mn mx w s vs, only_coordinates xs ys c ->
  concave_contours ctx xs ys mn mx = Ok (w, s) -> generates s vs -> few_points (lenZ c) vs.
Proof. exact (fun ctx xs ys c mn mx w s vs O H G => gridded_few xs ys _ c O (concave_gridded ctx xs ys mn mx w s vs H G)). Qed.
Print Assumptions C102_concave_contours.
Theorem C102_multicontours : forall ctx xs ys c mn mx cmn cmx w s mc, only_coordinates xs ys c ->
  multicontours ctx xs ys mn mx cmn cmx = Ok (w, s) -> generates s mc -> few_points (lenZ c) (concat mc).
Proof. exact (fun ctx xs ys c mn mx cmn cmx w s mc O H G => gridded_few xs ys _ c O (multicontours_gridded ctx xs ys mn mx cmn cmx w s mc H G)). Qed.
Print Assumptions C102_multicontours.
Theorem C102_polygons : forall ctx xs ys c mn mx hmn hmx smn smx w s p, only_coordinates xs ys c ->
  polygons ctx xs ys mn mx hmn hmx smn smx = Ok (w, s) -> generates s p -> few_points (lenZ c) (all_vertices p).
Proof.
  exact (fun ctx xs ys c mn mx hmn hmx smn smx w s p O H G =>
    gridded_few xs ys _ c O (polygons_gridded ctx xs ys mn mx hmn hmx smn smx w s p H G)).
Qed.
Print Assumptions C102_polygons.
(** ** The same for every polygon of a multipolygon and of a mix. *)
Theorem C102_multipolygons : forall ctx xs ys c mn mx bmn bmx hmn hmx smn smx w s ps p, only_coordinates xs ys c -> 0 <= hmn ->
  multipolygons ctx xs ys mn mx bmn bmx hmn hmx smn smx = Ok (w, s) -> generates s ps -> In p ps -> few_points (lenZ c) (all_vertices p).
Proof.
  exact (fun ctx xs ys c mn mx bmn bmx hmn hmx smn smx w s ps p O Hh H G I =>
    gridded_few xs ys _ c O (multipolygons_gridded ctx xs ys mn mx bmn bmx hmn hmx smn smx w s ps p Hh H G I)).
Qed.
Print Assumptions C102_multipolygons.
Theorem C102_mixes : forall ctx xs ys c pmn pmx gmn gmx qmn qmx mn mx hmn hmx smn smx w s m p, only_coordinates xs ys c ->
  mixes ctx xs ys pmn pmx gmn gmx qmn qmx mn mx hmn hmx smn smx = Ok (w, s) -> generates s m -> In p (elements (shaped m)) ->
  few_points (lenZ c) (all_vertices p).
Proof.
  exact (fun ctx xs ys c pmn pmx gmn gmx qmn qmx mn mx hmn hmx smn smx w s m p O H G I =>
    gridded_few xs ys _ c O (mixes_gridded ctx xs ys pmn pmx gmn gmx qmn qmx mn mx hmn hmx smn smx w s m p H G I)).
Qed.
Print Assumptions C102_mixes.
(** ** The same for contours of more than four vertices. *)
Theorem C102_convex_contours : forall ctx xs ys c mn mx w s vs, (forall l, is_hull l (ctx_hull ctx l)) -> only_coordinates xs ys c ->
  convex_contours ctx xs ys mn mx = Ok (w, s) -> generates s vs -> lenZ vs <= 4 \/ few_points (lenZ c) vs.
Proof. exact convex_few. Qed.
Print Assumptions C102_convex_contours.
Theorem C102_contours : forall ctx xs ys c mn mx w s vs, (forall l, is_hull l (ctx_hull ctx l)) -> only_coordinates xs ys c ->
  contours ctx xs ys mn mx = Ok (w, s) -> generates s vs -> lenZ vs <= 4 \/ few_points (lenZ c) vs.
Proof. exact contours_fewer. Qed.
Print Assumptions C102_contours.
(** ** Four abscissas, or four ordinates, are not enough for any polygon. *)
Theorem C102_four : forall ctx xs ys c mn mx hmn hmx smn smx w s p, only_coordinates xs ys c -> lenZ c <= 4 ->
  polygons ctx xs ys mn mx hmn hmx smn smx = Ok (w, s) -> ~ generates s p.
Proof. exact polygons_four. Qed.
Print Assumptions C102_four.

(** A polygon of eleven vertices made of thirteen coordinates; the strategy for polygons of four coordinates can be
    made. *)
Example C102_occurs : let c := map Qc_of_Z [0; 1; 2; 3; 4; 5; 6; 7; 8; 9; 10; 11; 12] in
  only_coordinates upto_twelve None c
  /\ few_points (lenZ c) (all_vertices (Poly (ints [(0, 1); (10, 3); (12, 12); (2, 12)])
                                      [ints [(3, 9); (5, 8); (7, 10); (4, 3)]; ints [(8, 10); (11, 9); (9, 8)]])).
Proof.
  intros c. assert (O : only_coordinates upto_twelve None c).
  { left. intros x H. apply gen_sampled_from in H. exact H. }
  split; [exact O|]. destruct C27_C28_occur as (w & s & E & G & _). exact (C102_polygons _ _ _ c _ _ _ _ _ _ _ _ _ O E G).
Qed.
Example C102_four_occurs : let c := map Qc_of_Z [0; 1; 2; 3] in only_coordinates (Sampled c) None c
  /\ exists w s, polygons reference (Sampled c) None 3 None 0 None 3 None = Ok (w, s) /\ forall p, ~ generates s p.
Proof.
  intros c. assert (O : only_coordinates (Sampled c) None c) by (left; intros x H; apply gen_sampled_from in H; exact H).
  split; [exact O|]. do 2 eexists. split; [reflexivity|]. intros p.
  eapply (C102_four reference (Sampled c) None c 3 None 0 None 3 None); [exact O|discriminate|reflexivity].
Qed.
Example C102_convex_occurs : let c := map Qc_of_Z [0; 1; 2; 3; 4; 5; 6] in only_coordinates (Sampled c) None c
  /\ (forall l, is_hull l (ctx_hull reference l)) /\ exists w s, convex_contours reference (Sampled c) None 3 (Some 6) = Ok (w, s)
  /\ generates s (ints [(0, 1); (2, 0); (4, 0); (6, 1); (1, 5)]).
Proof.
  intros c. split; [left; intros x H; apply gen_sampled_from in H; exact H|]. split; [exact reference_hull|]. do 2 eexists. split; [reflexivity|].
  apply (run_sound _ [1; 1; 5; 2; 6; 1; 4; 0; 6; 5; 1; 3; 2; 0; 6; 0; 4; 24; 1; 0; 0; 1; 0; 1; 2; 1; 0; 1; 0]). vm_compute. reflexivity.
Qed.
