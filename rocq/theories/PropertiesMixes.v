(** C31-C36, C50: multipolygons and mixes. *)
From Verif Require Import Base Prog Geometry Ctx Contracts Strategies Planar Spec MixSpec ProgProofs MixApiProofs Reference ReferenceProofs
  PropertiesContours.
Local Open Scope Z_scope.

(** ** C31 *)
Theorem C31_multipolygons_sizes : forall ctx xs ys mn mx bmn bmx hmn hmx smn smx w s ps,
  multipolygons ctx xs ys mn mx bmn bmx hmn hmx smn smx = Ok (w, s) -> generates s ps ->
  size_ok (lenZ ps) (Z.max mn 2) mx /\
  (forall p, In p ps -> polygon_sizes p (Z.max bmn 3) bmx hmn hmx (Z.max smn 3) smx).
Proof. exact multipolygons_sizes. Qed.
Print Assumptions C31_multipolygons_sizes.
(** ** C32.  Holes: those of a later polygon are clear of the borders of the earlier ones; that
    the holes of an earlier one are clear of the later borders needs the holes to be inside
    their own border, see C86. *)
Theorem C32_multipolygons_apart : forall ctx xs ys mn mx bmn bmx hmn hmx smn smx w s ps,
  multipolygons ctx xs ys mn mx bmn bmx hmn hmx smn smx = Ok (w, s) -> generates s ps ->
  (forall i j p q, nth_error ps i = Some p -> nth_error ps j = Some q -> i <> j ->
    edges_apart (border p) (border q)
    /\ (split_by_line (vertices p) (vertices q) \/ split_by_line (vertices q) (vertices p))) /\
  (forall i j p q vs, nth_error ps i = Some p -> nth_error ps j = Some q -> (i < j)%nat -> In vs (holes q) ->
    edges_apart (border p) vs).
Proof. exact multipolygons_apart. Qed.
Print Assumptions C32_multipolygons_apart.
(** ** C50 *)
Theorem C50_multipolygons_coordinates : forall ctx xs ys mn mx bmn bmx hmn hmx smn smx w s ps,
  multipolygons ctx xs ys mn mx bmn bmx hmn hmx smn smx = Ok (w, s) -> generates s ps ->
  forall p q, In p ps -> In q (vertices p) -> drawable_point xs ys q.
Proof. exact multipolygons_drawable. Qed.
Print Assumptions C50_multipolygons_coordinates.
(** Two polygons with a hole each; two polygons on the two sides of the line y = 4, which meet. *)
Definition upto (n : nat) : scalars := Sampled (map (fun n => Qc_of_Z (Z.of_nat n)) (seq 0 (S n))).
Example C31_C32_occur : exists w s, multipolygons reference (upto 14) None 2 (Some 3) 3 None 1 None 3 None = Ok (w, s)
  /\ generates s [Poly (ints [(0, 0); (4, 2); (4, 12); (1, 13)]) [ints [(1, 1); (2, 11); (2, 7)]];
                  Poly (ints [(7, 0); (14, 3); (12, 8); (9, 8)]) [ints [(8, 3); (10, 5); (11, 5)]]].
Proof.
  do 2 eexists. split; [reflexivity|].
  apply (run_sound _ [0; 14; 9; 14; 6; 8; 2; 0; 3; 4; 7; 11; 5; 12; 10; 1; 2; 7; 7; 1; 3; 5; 0; 6; 2; 4; 7; 7; 0; 2; 12; 11; 1; 13; 1; 1;
    8; 4; 1; 0; 3; 1; 7; 0; 6; 4; 1; 3; 2; 5; 7; 10; 7; 5; 3; 0; 8; 9; 0; 0; 1; 4; 1; 0; 3; 1]). vm_compute. reflexivity.
Qed.
Example C32_touching_occur : exists w s, multipolygons reference (upto 12) None 2 None 3 None 0 None 3 None = Ok (w, s)
  /\ generates s [Poly (ints [(1, 0); (7, 1); (8, 4); (5, 1); (4, 4)]) [];
                  Poly (ints [(0, 4); (11, 5); (10, 9); (4, 9)]) [ints [(2, 5); (8, 7); (9, 7)]]].
Proof.
  do 2 eexists. split; [reflexivity|].
  apply (run_sound _ [1; 1; 11; 0; 4; 1; 9; 10; 7; 5; 3; 8; 12; 2; 2; 5; 5; 5; 8; 7; 4; 1; 5; 4; 0; 1; 3; 2; 0; 0; 4; 5; 7; 4; 9; 0; 10; 2;
    8; 11; 7; 4; 6; 0; 5; 2; 3; 1; 0; 1; 8; 7; 1; 0; 3; 0]). vm_compute. reflexivity.
Qed.

(** ** C33 *)
Theorem C33_mixes_sizes : forall ctx xs ys pmn pmx gmn gmx qmn qmx mn mx hmn hmx smn smx w s m,
  (forall l, is_hull l (ctx_hull ctx l)) ->
  mixes ctx xs ys pmn pmx gmn gmx qmn qmx mn mx hmn hmx smn smx = Ok (w, s) -> generates s m ->
  size_ok (lenZ (elements (discrete m))) (Z.max pmn 0) pmx /\ size_ok (lenZ (elements (linear m))) (Z.max gmn 0) gmx /\
  size_ok (lenZ (elements (shaped m))) (Z.max qmn 0) qmx /\
  (forall q, In q (elements (shaped m)) -> polygon_sizes q (Z.max mn 3) mx (Z.max hmn 0) hmx (Z.max smn 3) smx).
Proof. exact mixes_sizes. Qed.
Print Assumptions C33_mixes_sizes.
(** ** C34 *)
Theorem C34_mixes_two_components : forall ctx xs ys pmn pmx gmn gmx qmn qmx mn mx hmn hmx smn smx w s m,
  (forall l, is_hull l (ctx_hull ctx l)) ->
  mixes ctx xs ys pmn pmx gmn gmx qmn qmx mn mx hmn hmx smn smx = Ok (w, s) -> generates s m ->
  nonempty (discrete m) /\ nonempty (linear m) \/ nonempty (discrete m) /\ nonempty (shaped m)
  \/ nonempty (linear m) /\ nonempty (shaped m).
Proof. exact mixes_two. Qed.
Print Assumptions C34_mixes_two_components.
(** ** C35 *)
Theorem C35_mixes_component_types : forall ctx xs ys pmn pmx gmn gmx qmn qmx mn mx hmn hmx smn smx w s m,
  (forall l, is_hull l (ctx_hull ctx l)) ->
  mixes ctx xs ys pmn pmx gmn gmx qmn qmx mn mx hmn hmx smn smx = Ok (w, s) -> generates s m ->
  match discrete m with EmptyPart => True | SinglePart _ => False | MultiPart l => 1 <= lenZ l end /\
  match linear m with EmptyPart => True | SinglePart _ => True | MultiPart l => 2 <= lenZ l end /\
  match shaped m with EmptyPart => True | SinglePart _ => True | MultiPart l => 2 <= lenZ l end.
Proof. exact mixes_parts. Qed.
Print Assumptions C35_mixes_component_types.
(** ** C36 *)
Theorem C36_mixes_points_aside : forall ctx xs ys pmn pmx gmn gmx qmn qmx mn mx hmn hmx smn smx w s m,
  (forall l, is_hull l (ctx_hull ctx l)) ->
  mixes ctx xs ys pmn pmx gmn gmx qmn qmx mn mx hmn hmx smn smx = Ok (w, s) -> generates s m ->
  NoDup (elements (discrete m)) /\
  (forall p t, In p (elements (discrete m)) -> In t (elements (linear m)) ->
     aside p [seg_start t; seg_end t] /\ ~ on_segment p (seg_start t) (seg_end t)) /\
  (forall p q, In p (elements (discrete m)) -> In q (elements (shaped m)) ->
     aside p (vertices q) /\ forall vs, In vs (border q :: holes q) -> ~ on_contour p vs).
Proof. exact mixes_points_aside. Qed.
Print Assumptions C36_mixes_points_aside.
Theorem C36_mixes_apart : forall ctx xs ys pmn pmx gmn gmx qmn qmx mn mx hmn hmx smn smx w s m,
  (forall l, is_hull l (ctx_hull ctx l)) ->
  mixes ctx xs ys pmn pmx gmn gmx qmn qmx mn mx hmn hmx smn smx = Ok (w, s) -> generates s m ->
  (exists groups, elements (linear m) = List.concat groups /\ (forall g, In g groups -> one_draw g) /\
     forall i j g g' t u, nth_error groups i = Some g -> nth_error groups j = Some g' -> i <> j -> In t g -> In u g' ->
       ~ interiors_meet t u) /\
  (forall t q u v, In t (elements (linear m)) -> In q (elements (shaped m)) -> contour_edge (border q) u v ->
     ~ interiors_meet t (Seg u v)) /\
  (forall t q, In t (elements (linear m)) -> In q (elements (shaped m)) ->
     split_by_line [seg_start t; seg_end t] (vertices q) \/ split_by_line (vertices q) [seg_start t; seg_end t]) /\
  (forall i j p q, nth_error (elements (shaped m)) i = Some p -> nth_error (elements (shaped m)) j = Some q -> i <> j ->
     edges_apart (border p) (border q)
     /\ (split_by_line (vertices p) (vertices q) \/ split_by_line (vertices q) (vertices p))).
Proof. exact mixes_apart. Qed.
Print Assumptions C36_mixes_apart.
(** ** C50 *)
Theorem C50_mixes_coordinates : forall ctx xs ys pmn pmx gmn gmx qmn qmx mn mx hmn hmx smn smx w s m,
  (forall l, is_hull l (ctx_hull ctx l)) ->
  mixes ctx xs ys pmn pmx gmn gmx qmn qmx mn mx hmn hmx smn smx = Ok (w, s) -> generates s m ->
  (forall p, In p (elements (discrete m)) -> drawable_point xs ys p) /\
  (forall t, In t (elements (linear m)) -> seg_start t <> seg_end t /\
     (in_drawable_range xs (px (seg_start t)) /\ in_drawable_range (ordinates xs ys) (py (seg_start t))) /\
     (in_drawable_range xs (px (seg_end t)) /\ in_drawable_range (ordinates xs ys) (py (seg_end t)))) /\
  (forall q v, In q (elements (shaped m)) -> In v (vertices q) -> drawable_point xs ys v).
Proof. exact mixes_coordinates. Qed.
Print Assumptions C50_mixes_coordinates.

(** A mix of two points, two segments and a polygon; a mix of a segment and a polygon that touch. *)
Definition sgm (a b c d : Z) : segment := Seg (Pt (Qc_of_Z a) (Qc_of_Z b)) (Pt (Qc_of_Z c) (Qc_of_Z d)).
Example C33_C36_occur : exists w s,
  (forall l, is_hull l (ctx_hull reference l)) /\
  mixes reference (upto 15) None 1 None 2 None 1 None 3 None 0 None 3 None = Ok (w, s)
  /\ generates s (Mix (MultiPart (ints [(13, 11); (13, 10)])) (MultiPart [sgm 9 2 11 2; sgm 11 2 12 2])
                      (SinglePart (Poly (ints [(0, 0); (4, 2); (6, 7); (2, 7)]) []))).
Proof.
  do 2 eexists. split; [exact reference_hull|]. split; [reflexivity|].
  apply (run_sound _ [1; 0; 11; 9; 15; 6; 2; 0; 13; 3; 11; 14; 4; 12; 1; 5; 0; 2; 2; 2; 1; 0; 5; 1; 2; 4; 3; 0; 5; 0; 7; 2; 1; 15; 0; 0; 3; 4;
    0; 1; 3; 2; 3; 1; 2; 2; 0; 11; 0; 10]). vm_compute. reflexivity.
Qed.
Example C36_touching_occur : exists w s,
  mixes reference (upto 10) None 0 (Some 1) 0 (Some 2) 1 None 3 None 0 None 3 None = Ok (w, s)
  /\ generates s (Mix EmptyPart (SinglePart (sgm 8 2 8 9))
                      (SinglePart (Poly (ints [(1, 0); (7, 3); (8, 8); (5, 3); (4, 8)]) []))).
Proof.
  do 2 eexists. split; [reflexivity|].
  apply (run_sound _ [1; 0; 7; 4; 1; 8; 5; 9; 7; 10; 1; 5; 0; 1; 1; 0; 5; 1; 0; 3; 2; 4; 5; 4; 0; 3; 6; 8; 0; 2; 14; 5; 0; 2; 0; 9]).
  vm_compute. reflexivity.
Qed.
