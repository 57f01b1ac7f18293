(** C96: parts of multipolygons and mixes can be drawn alone, and special contours are contours. *)
From Verif Require Import Base Prog Geometry Ctx Contracts Planar Spec MixSpec RelaxSpec PartSpec Strategies ProgProofs
  SequenceProofs PartProofs Reference ReferenceProofs PropertiesContours PropertiesGeometries PropertiesMixes.
Import List ListNotations.
Local Open Scope Z_scope.

(** ** C96: the polygons of a multipolygon are all values of [polygons] with the bounds of a polygon, or they all have no holes and
    their borders together are a value of [multicontours]. *)
Theorem C96_multipolygons : forall ctx xs ys mn mx bmn bmx hmn hmx smn smx w s ps, 0 <= hmn ->
  multipolygons ctx xs ys mn mx bmn bmx hmn hmx smn smx = Ok (w, s) -> generates s ps ->
  (exists w' s', polygons ctx xs ys bmn bmx hmn hmx smn smx = Ok (w', s') /\ forall p, In p ps -> generates s' p) \/
  hmn = 0 /\ exists w' s' mc, multicontours ctx xs ys mn mx bmn bmx = Ok (w', s') /\ generates s' mc /\ ps = map (fun c => Poly c []) mc.
Proof. exact multipolygons_parts. Qed.
Print Assumptions C96_multipolygons.
(** ** The converse of the second case: if holes may be missing, multicontours are borders of multipolygons. *)
Theorem C96_multicontours : forall ctx xs ys mn mx bmn bmx hmx smn smx w s w' s' mc,
  multipolygons ctx xs ys mn mx bmn bmx 0 hmx smn smx = Ok (w, s) -> multicontours ctx xs ys mn mx bmn bmx = Ok (w', s') ->
  generates s' mc -> generates s (map (fun c => Poly c []) mc).
Proof. exact multicontours_multipolygons. Qed.
Print Assumptions C96_multicontours.
(** ** The polygons of a mix are values of [polygons] with the bounds of a polygon. *)
Theorem C96_mixes_polygons : forall ctx xs ys pmn pmx gmn gmx qmn qmx mn mx hmn hmx smn smx w s m,
  mixes ctx xs ys pmn pmx gmn gmx qmn qmx mn mx hmn hmx smn smx = Ok (w, s) -> generates s m ->
  exists w' s', polygons ctx xs ys mn mx hmn hmx smn smx = Ok (w', s') /\ forall p, In p (elements (shaped m)) -> generates s' p.
Proof. exact mixes_polygons_alone. Qed.
Print Assumptions C96_mixes_polygons.
(** ** The points of a mix, if there are any, are a value of [multipoints] with the bounds of the points. *)
Theorem C96_mixes_points : forall ctx xs ys pmn pmx gmn gmx qmn qmx mn mx hmn hmx smn smx w s m,
  (forall l, is_hull l (ctx_hull ctx l)) ->
  mixes ctx xs ys pmn pmx gmn gmx qmn qmx mn mx hmn hmx smn smx = Ok (w, s) -> generates s m -> discrete m <> EmptyPart ->
  exists w' s', multipoints xs ys pmn pmx = Ok (w', s') /\ generates s' (elements (discrete m)).
Proof. exact mixes_points_alone. Qed.
Print Assumptions C96_mixes_points.
(** ** Star contours are contours (convex ones are by C81). *)
Theorem C96_star_contours : forall ctx xs ys mn mx w s w' s',
  star_contours ctx xs ys mn mx = Ok (w', s') -> contours ctx xs ys mn mx = Ok (w, s) -> covered s' s.
Proof. exact (fun ctx xs ys mn mx w s w' s' => star_contours_contours ctx xs ys mn mx w s w' s'). Qed.
Print Assumptions C96_star_contours.
(** ** Concave contours are exactly the contours whose turns do not all agree. *)
Theorem C96_concave_contours : forall ctx xs ys mn mx w s w' s',
  (forall l, is_hull l (ctx_hull ctx l)) -> (forall n, (2 <= n)%nat -> is_change n (ctx_coins ctx n)) ->
  concave_contours ctx xs ys mn mx = Ok (w', s') -> contours ctx xs ys mn mx = Ok (w, s) ->
  forall vs, generates s' vs <-> generates s vs /\ ~ turns_agree vs.
Proof. exact concave_contours_contours. Qed.
Print Assumptions C96_concave_contours.

(** A polygon with a hole that is part of a multipolygon, alone; and one that is part of a mix; two triangles as polygons. *)
Example C96_occur :
  (exists w s, polygons reference (upto 14) None 3 None 1 None 3 None = Ok (w, s)
     /\ generates s (Poly (ints [(0, 0); (4, 2); (4, 12); (1, 13)]) [ints [(1, 1); (2, 11); (2, 7)]]))
  /\ (exists w s, polygons reference (upto 15) None 3 None 0 None 3 None = Ok (w, s)
     /\ generates s (Poly (ints [(0, 0); (4, 2); (6, 7); (2, 7)]) []))
  /\ (exists w s, multipoints (upto 15) None 1 None = Ok (w, s) /\ generates s (ints [(13, 11); (13, 10)]))
  /\ (exists w s, multipolygons reference seven_xs (Some seven_ys) 2 None 3 None 0 None 3 None = Ok (w, s)
     /\ generates s [Poly (ints [(1, 0); (4, 4); (4, 5)]) []; Poly (ints [(4, 5); (6, 2); (6, 6)]) []]).
Proof.
  split; [|split; [|split]].
  - destruct C31_C32_occur as (w & s & E & G).
    destruct (C96_multipolygons _ _ _ _ _ _ _ _ _ _ _ _ _ _ Z.le_0_1 E G) as [(w' & s' & E' & K)|(X & _)]; [|discriminate].
    exists w', s'. split; [exact E'|]. apply K. left. reflexivity.
  - destruct C33_C36_occur as (w & s & _ & E & G). destruct (C96_mixes_polygons _ _ _ _ _ _ _ _ _ _ _ _ _ _ _ _ _ _ E G) as (w' & s' & E' & K).
    exists w', s'. split; [exact E'|]. apply K. left. reflexivity.
  - destruct C33_C36_occur as (w & s & _ & E & G).
    destruct (C96_mixes_points _ _ _ _ _ _ _ _ _ _ _ _ _ _ _ _ _ _ reference_hull E G) as (w' & s' & E' & K); [discriminate|]. exists w', s'. auto.
  - destruct C25_C26_occur as (w & s & E & G). do 2 eexists. split; [reflexivity|].
    exact (C96_multicontours reference seven_xs (Some seven_ys) 2 None 3 None None 3 None _ _ w s _ eq_refl E G).
Qed.
(** A contour with turns of both directions is a concave contour; a star contour is a contour. *)
Example C96_contours_occur :
  (exists w s, contours reference seven_xs (Some seven_ys) 4 None = Ok (w, s)
     /\ generates s (ints [(1, 0); (7, 4); (7, 8); (6, 6)]) /\ ~ turns_agree (ints [(1, 0); (7, 4); (7, 8); (6, 6)]))
  /\ (exists w s, contours reference seven_xs (Some seven_ys) 3 None = Ok (w, s) /\ generates s (ints [(1, 0); (11, 4); (9, 8); (7, 8)])).
Proof.
  split.
  - destruct C21_occurs as (w & s & E & G & _). do 2 eexists. split; [reflexivity|].
    refine (proj1 (C96_concave_contours reference seven_xs (Some seven_ys) 4 None _ _ w s reference_hull reference_coins E eq_refl _) G).
  - destruct C15_C17_occur as (w & s & E & G & _). do 2 eexists. split; [reflexivity|].
    exact (C96_star_contours reference seven_xs (Some seven_ys) 3 None _ _ w s E eq_refl _ G).
Qed.
