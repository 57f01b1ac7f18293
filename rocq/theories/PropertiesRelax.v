(** C76-C78: what happens to the values of a call when its bounds or coordinates are relaxed. *)
From Coq Require Import Znumtheory.
From Verif Require Import Base Prog Geometry Ctx Utils Contracts Planar Spec RangeSpec WindSpec MixSpec GeneralSpec StarSpec HullSpec
  Factories Strategies ProgProofs RelaxSpec RelaxProofs RelaxApiProofs CapProofs Reference ReferenceProofs
  PropertiesContours PropertiesGeometries PropertiesMixes PropertiesGeneral.
Import List ListNotations.
Local Open Scope Z_scope.

(** ** C76: the number of vertices is at most a prime number that is at most the maximum. *)
Theorem C76_convex_contours_cap : forall ctx xs ys mn m w s vs, (forall l, is_hull l (ctx_hull ctx l)) ->
  prime_between mn (Some m) -> convex_contours ctx xs ys mn (Some m) = Ok (w, s) -> generates s vs ->
  prime_capped m (lenZ vs).
Proof. exact convex_contours_cap. Qed.
Print Assumptions C76_convex_contours_cap.
Theorem C76_star_contours_cap : forall ctx xs ys mn m w s vs,
  prime_between mn (Some m) -> star_contours ctx xs ys mn (Some m) = Ok (w, s) -> generates s vs ->
  prime_capped m (lenZ vs).
Proof. exact star_contours_cap. Qed.
Print Assumptions C76_star_contours_cap.
Theorem C76_contours_cap : forall ctx xs ys mn m w s vs, (forall l, is_hull l (ctx_hull ctx l)) ->
  prime_between mn (Some m) -> contours ctx xs ys mn (Some m) = Ok (w, s) -> generates s vs -> NoDup vs ->
  prime_capped m (lenZ vs).
Proof. exact contours_cap. Qed.
Print Assumptions C76_contours_cap.
Theorem C76_concave_contours_cap : forall ctx xs ys mn m w s vs,
  prime_between mn (Some m) -> concave_contours ctx xs ys mn (Some m) = Ok (w, s) -> generates s vs -> NoDup vs ->
  prime_capped m (lenZ vs).
Proof. exact concave_contours_cap. Qed.
Print Assumptions C76_concave_contours_cap.
Theorem C76_contours_general_cap : forall ctx,
  (forall n, (2 <= n)%nat -> is_change n (ctx_coins ctx n)) -> (forall l s, l <> [] -> is_nearest l s (ctx_nearest ctx l s)) ->
  orders_directions ctx -> (forall l, is_hull l (ctx_hull ctx l)) ->
  forall xs ys mn m w s vs, general_coordinates xs ys -> prime_between mn (Some m) ->
  contours ctx xs ys mn (Some m) = Ok (w, s) -> generates s vs -> prime_capped m (lenZ vs).
Proof. exact (fun ctx coins near D Hh xs ys mn m w s vs => contours_general_cap ctx xs ys mn m w s vs (conj coins near) D Hh). Qed.
Print Assumptions C76_contours_general_cap.
Theorem C76_concave_contours_general_cap : forall ctx,
  (forall n, (2 <= n)%nat -> is_change n (ctx_coins ctx n)) -> (forall l s, l <> [] -> is_nearest l s (ctx_nearest ctx l s)) ->
  orders_directions ctx ->
  forall xs ys mn m w s vs, general_coordinates xs ys -> prime_between mn (Some m) ->
  concave_contours ctx xs ys mn (Some m) = Ok (w, s) -> generates s vs -> prime_capped m (lenZ vs).
Proof. exact (fun ctx coins near D xs ys mn m w s vs => concave_contours_general_cap ctx xs ys mn m w s vs (conj coins near) D). Qed.
Print Assumptions C76_concave_contours_general_cap.
(** With a maximum of 6 there are pentagons and, by the theorems, no hexagons. *)
Lemma prime_5 : prime 5.
Proof. apply prime_alt. split; [lia|]. intros n Hn (k & E). assert (n = 2 \/ n = 3 \/ n = 4) as [-> |[-> | ->]] by lia; lia. Qed.
Lemma between_5 mn m : mn <= 5 -> 5 <= m -> prime_between mn (Some m).
Proof. intros H1 H2 k E. injection E as <-. exists 5. split; [exact prime_5|]. lia. Qed.
Lemma capped_6 n : prime_capped 6 n -> n <= 5.
Proof.
  intros (q & P & H1 & H2). assert (q <> 6); [|lia]. intros ->. apply prime_alt in P. destruct P as (_ & P). apply (P 2); [lia|]. exists 3. reflexivity.
Qed.
Theorem C76_six_is_five : forall n, prime_capped 6 n -> n <= 5.
Proof. exact capped_6. Qed.
Print Assumptions C76_six_is_five.
Example C76_convex_occurs : prime_between 3 (Some 6) /\ exists w s, convex_contours reference (upto 6) None 3 (Some 6) = Ok (w, s)
  /\ generates s (ints [(0, 1); (2, 0); (4, 0); (6, 1); (1, 5)]).
Proof.
  split; [apply between_5; lia|]. do 2 eexists. split; [reflexivity|].
  apply (run_sound _ [1; 1; 5; 2; 6; 1; 4; 0; 6; 5; 1; 3; 2; 0; 6; 0; 4; 24; 1; 0; 0; 1; 0; 1; 2; 1; 0; 1; 0]). vm_compute. reflexivity.
Qed.
Example C76_star_occurs : prime_between 3 (Some 6) /\ exists w s, star_contours reference (upto 13) None 3 (Some 6) = Ok (w, s)
  /\ generates s (ints [(5, 4); (0, 1); (12, 4); (11, 6); (10, 6)]).
Proof.
  split; [apply between_5; lia|]. do 2 eexists. split; [reflexivity|].
  apply (run_sound _ [5; 12; 5; 0; 11; 10; 6; 1; 6; 2; 7; 4; 11; 0; 2; 12]). vm_compute. reflexivity.
Qed.
Example C76_general_occurs : general_coordinates (upto 13) (Some (steep 13)) /\ prime_between 3 (Some 6) /\
  exists w s, concave_contours reference (upto 13) (Some (steep 13)) 3 (Some 6) = Ok (w, s)
  /\ generates s (ints [(0, 1); (12, 15); (1, 15); (3, 576650390625); (2, 576650390625)]).
Proof.
  split; [apply steep_general|]. split; [apply between_5; lia|]. do 2 eexists. split; [reflexivity|].
  apply (run_sound _ [1; 5; 2; 3; 0; 12; 1; 6; 11; 1; 10; 7; 8; 0; 0; 4; 21; 5]). vm_compute. reflexivity.
Qed.

(** ** C77: relaxing the bounds loses nothing if there is a prime number greater than 3 between the old minimum and the new maximum. *)
Theorem C77_multipoints : forall xs ys mn mx mn' mx' w s w' s', wider mn mx mn' mx' ->
  multipoints xs ys mn mx = Ok (w, s) -> multipoints xs ys mn' mx' = Ok (w', s') -> covered s s'.
Proof. exact (fun xs ys mn mx mn' mx' w s w' s' W => multipoints_relax xs xs ys ys (fun q h => h) (fun q h => h) mn mx mn' mx' W w s w' s'). Qed.
Print Assumptions C77_multipoints.
Theorem C77_contours : forall ctx xs ys mn mx mn' mx' w s w' s', wider mn mx mn' mx' -> prime_between mn mx' ->
  contours ctx xs ys mn mx = Ok (w, s) -> contours ctx xs ys mn' mx' = Ok (w', s') -> covered s s'.
Proof. exact (fun ctx xs ys mn mx mn' mx' w s w' s' W P => contours_relax ctx xs xs ys ys (fun q h => h) (fun q h => h) mn mx mn' mx' W (or_intror P) w s w' s'). Qed.
Print Assumptions C77_contours.
Theorem C77_convex_contours : forall ctx xs ys mn mx mn' mx' w s w' s', wider mn mx mn' mx' -> prime_between mn mx' ->
  convex_contours ctx xs ys mn mx = Ok (w, s) -> convex_contours ctx xs ys mn' mx' = Ok (w', s') -> covered s s'.
Proof. exact (fun ctx xs ys mn mx mn' mx' w s w' s' W P => convex_contours_relax ctx xs xs ys ys (fun q h => h) (fun q h => h) mn mx mn' mx' W (or_intror P) w s w' s'). Qed.
Print Assumptions C77_convex_contours.
Theorem C77_star_contours : forall ctx xs ys mn mx mn' mx' w s w' s', wider mn mx mn' mx' -> prime_between mn mx' ->
  star_contours ctx xs ys mn mx = Ok (w, s) -> star_contours ctx xs ys mn' mx' = Ok (w', s') -> covered s s'.
Proof. exact (fun ctx xs ys mn mx mn' mx' w s w' s' W P => star_contours_relax ctx xs xs ys ys (fun q h => h) (fun q h => h) mn mx mn' mx' W (or_intror P) w s w' s'). Qed.
Print Assumptions C77_star_contours.
Theorem C77_concave_contours : forall ctx xs ys mn mx mn' mx' w s w' s', wider mn mx mn' mx' -> prime_between mn mx' ->
  concave_contours ctx xs ys mn mx = Ok (w, s) -> concave_contours ctx xs ys mn' mx' = Ok (w', s') -> covered s s'.
Proof. exact (fun ctx xs ys mn mx mn' mx' w s w' s' W P => concave_contours_relax ctx xs xs ys ys (fun q h => h) (fun q h => h) mn mx mn' mx' W (or_intror P) w s w' s'). Qed.
Print Assumptions C77_concave_contours.
Theorem C77_multisegments : forall ctx xs ys mn mx mn' mx' w s w' s', wider mn mx mn' mx' -> prime_between mn mx' ->
  multisegments ctx xs ys mn mx = Ok (w, s) -> multisegments ctx xs ys mn' mx' = Ok (w', s') -> covered s s'.
Proof. exact (fun ctx xs ys mn mx mn' mx' w s w' s' W P => multisegments_relax ctx xs xs ys ys (fun q h => h) (fun q h => h) mn mx mn' mx' W (or_intror P) w s w' s'). Qed.
Print Assumptions C77_multisegments.
Theorem C77_multicontours : forall ctx xs ys mn mx mn' mx' cmn cmx cmn' cmx' w s w' s',
  wider mn mx mn' mx' -> wider cmn cmx cmn' cmx' -> prime_between (Z.max mn 2 * Z.max cmn 3) (max_product mx' cmx') ->
  multicontours ctx xs ys mn mx cmn cmx = Ok (w, s) -> multicontours ctx xs ys mn' mx' cmn' cmx' = Ok (w', s') -> covered s s'.
Proof.
  exact (fun ctx xs ys mn mx mn' mx' cmn cmx cmn' cmx' w s w' s' W1 W2 P =>
    multicontours_relax ctx xs xs ys ys (fun q h => h) (fun q h => h) mn mx mn' mx' cmn cmx cmn' cmx' w s w' s' W1 W2 (or_intror P)).
Qed.
Print Assumptions C77_multicontours.
Theorem C77_polygons : forall ctx xs ys mn mx hmn hmx smn smx mn' mx' hmn' hmx' smn' smx' w s w' s',
  wider mn mx mn' mx' -> wider hmn hmx hmn' hmx' -> wider smn smx smn' smx' ->
  prime_between (Z.max mn 3 + Z.max hmn 0 * Z.max smn 3) (max_vertices mx' hmx' smx') ->
  polygons ctx xs ys mn mx hmn hmx smn smx = Ok (w, s) -> polygons ctx xs ys mn' mx' hmn' hmx' smn' smx' = Ok (w', s') -> covered s s'.
Proof.
  exact (fun ctx xs ys mn mx hmn hmx smn smx mn' mx' hmn' hmx' smn' smx' w s w' s' W1 W2 W3 P =>
    polygons_relax ctx xs xs ys ys (fun q h => h) (fun q h => h) mn mx mn' mx' W1 hmn hmx hmn' hmx' W2 smn smx smn' smx' W3 w s w' s' (or_intror P)).
Qed.
Print Assumptions C77_polygons.
Theorem C77_multipolygons : forall ctx xs ys gmn gmx mn mx hmn hmx smn smx gmn' gmx' mn' mx' hmn' hmx' smn' smx' w s w' s',
  wider gmn gmx gmn' gmx' -> wider mn mx mn' mx' -> wider hmn hmx hmn' hmx' -> wider smn smx smn' smx' -> 0 <= hmn' ->
  prime_between (Z.max mn 3 + Z.max hmn 0 * Z.max smn 3) (max_vertices mx' hmx' smx') ->
  (hmn = 0 -> prime_between (Z.max gmn 2 * Z.max mn 3) (max_product gmx' mx')) ->
  multipolygons ctx xs ys gmn gmx mn mx hmn hmx smn smx = Ok (w, s) ->
  multipolygons ctx xs ys gmn' gmx' mn' mx' hmn' hmx' smn' smx' = Ok (w', s') -> covered s s'.
Proof.
  exact (fun ctx xs ys gmn gmx mn mx hmn hmx smn smx gmn' gmx' mn' mx' hmn' hmx' smn' smx' w s w' s' W0 W1 W2 W3 H0 P P' =>
    multipolygons_relax ctx xs xs ys ys (fun q h => h) (fun q h => h) mn mx mn' mx' W1 hmn hmx hmn' hmx' W2 smn smx smn' smx' W3
      gmn gmx gmn' gmx' w s w' s' W0 H0 (or_intror (conj P P'))).
Qed.
Print Assumptions C77_multipolygons.
Theorem C77_mixes : forall ctx xs ys pmn pmx tmn tmx gmn gmx mn mx hmn hmx smn smx pmn' tmn' tmx' gmn' gmx' mn' mx' hmn' hmx' smn' smx' w s w' s',
  pmn' <= pmn -> wider tmn tmx tmn' tmx' -> wider gmn gmx gmn' gmx' ->
  wider mn mx mn' mx' -> wider hmn hmx hmn' hmx' -> wider smn smx smn' smx' ->
  prime_between (Z.max mn 3 + Z.max hmn 0 * Z.max smn 3) (max_vertices mx' hmx' smx') ->
  mixes ctx xs ys pmn pmx tmn tmx gmn gmx mn mx hmn hmx smn smx = Ok (w, s) ->
  mixes ctx xs ys pmn' pmx tmn' tmx' gmn' gmx' mn' mx' hmn' hmx' smn' smx' = Ok (w', s') -> covered s s'.
Proof.
  exact (fun ctx xs ys pmn pmx tmn tmx gmn gmx mn mx hmn hmx smn smx pmn' tmn' tmx' gmn' gmx' mn' mx' hmn' hmx' smn' smx' w s w' s' Wp Wt Wg W1 W2 W3 P =>
    mixes_relax ctx xs xs ys ys (fun q h => h) (fun q h => h) mn mx mn' mx' W1 hmn hmx hmn' hmx' W2 smn smx smn' smx' W3
      pmn pmx pmn' tmn tmx tmn' tmx' gmn gmx gmn' gmx' w s w' s' Wp Wt Wg (or_intror P)).
Qed.
Print Assumptions C77_mixes.
Definition hexagon : contour := ints [(0, 2); (4, 0); (5, 0); (6, 1); (3, 4); (1, 4)].
(** Without the prime number, contours are lost: lowering the minimum from 6 to 3, with a maximum of 6, loses all hexagons. *)
Theorem C77_prime_needed : exists xs ys w s w' s' vs,
  convex_contours reference xs ys 6 (Some 6) = Ok (w, s) /\ convex_contours reference xs ys 3 (Some 6) = Ok (w', s') /\
  wider 6 (Some 6) 3 (Some 6) /\ generates s vs /\ ~ generates s' vs.
Proof.
  exists (upto 6), None. do 4 eexists. exists hexagon. split; [reflexivity|]. split; [reflexivity|].
  split; [split; [lia|]; intros m' E; injection E as <-; exists 6; split; [reflexivity|lia]|]. split.
  - apply (run_sound _ [7; 1; 0; 6; 3; 4; 5; 2; 7; 1; 0; 6; 3; 5; 2; 4; 0; 1; 9; 1; 1; 1; 0; 0; 0; 0; 1; 1; 0; 3; 4; 2; 3; 0; 0; 0]). vm_compute. reflexivity.
  - intros G. assert (K : prime_capped 6 (lenZ hexagon)).
    { refine (convex_contours_cap reference (upto 6) None 3 6 _ _ hexagon reference_hull _ eq_refl G). apply between_5; lia. }
    apply capped_6 in K. cbn in K. lia.
Qed.
Print Assumptions C77_prime_needed.
(** The bounds of the theorems: from 4..6 to 3..7 there is the prime number 5. *)
Example C77_bounds : wider 4 (Some 6) 3 (Some 7) /\ prime_between 4 (Some 7) /\ wider 4 (Some 6) 4 None /\ prime_between 4 None /\
  prime_between (Z.max 2 2 * Z.max 3 3) (max_product (Some 3) (Some 3)) /\
  prime_between (Z.max 3 3 + Z.max 1 0 * Z.max 3 3) (max_vertices (Some 4) (Some 1) (Some 3)).
Proof.
  split; [split; [lia|]; intros m' E; injection E as <-; exists 6; split; [reflexivity|lia]|].
  split; [apply between_5; lia|]. split; [split; [lia|discriminate]|]. split; [discriminate|].
  assert (prime 7). { apply prime_alt. split; [lia|]. intros n Hn (k & E). assert (n = 2 \/ n = 3 \/ n = 4 \/ n = 5 \/ n = 6) as [-> |[-> |[-> |[-> | ->]]]] by lia; lia. }
  split; intros m E; injection E as <-; exists 7; (split; [assumption|lia]).
Qed.
(** A pentagon with the bounds 5..6, and so with the bounds 3..7. *)
Example C77_occurs : exists w s w' s', convex_contours reference (upto 6) None 5 (Some 6) = Ok (w, s) /\ convex_contours reference (upto 6) None 3 (Some 7) = Ok (w', s')
  /\ generates s (ints [(0, 1); (2, 0); (4, 0); (6, 1); (1, 5)]).
Proof.
  do 4 eexists. split; [reflexivity|]. split; [reflexivity|].
  apply (run_sound _ [5; 2; 6; 1; 4; 0; 6; 5; 1; 3; 2; 0; 6; 0; 4; 24; 1; 0; 0; 1; 0; 1; 2; 1; 0; 1; 0]). vm_compute. reflexivity.
Qed.

(** ** C78: with more coordinates to draw from nothing is lost. *)
Theorem C78_points : forall xs ys xs' ys' w s w' s', richer xs xs' -> richer (ordinates xs ys) (ordinates xs' ys') ->
  points xs ys = Ok (w, s) -> points xs' ys' = Ok (w', s') -> covered s s'.
Proof. exact (fun xs ys xs' ys' w s w' s' Rx Ry => points_relax xs xs' ys ys' Rx Ry w s w' s'). Qed.
Print Assumptions C78_points.
Theorem C78_segments : forall xs ys xs' ys' w s w' s', richer xs xs' -> richer (ordinates xs ys) (ordinates xs' ys') ->
  segments xs ys = Ok (w, s) -> segments xs' ys' = Ok (w', s') -> covered s s'.
Proof. exact (fun xs ys xs' ys' w s w' s' Rx Ry => segments_relax xs xs' ys ys' Rx Ry w s w' s'). Qed.
Print Assumptions C78_segments.
Theorem C78_boxes : forall xs ys xs' ys' w s w' s', richer xs xs' -> richer (ordinates xs ys) (ordinates xs' ys') ->
  boxes xs ys = Ok (w, s) -> boxes xs' ys' = Ok (w', s') -> covered s s'.
Proof. exact (fun xs ys xs' ys' w s w' s' Rx Ry => boxes_relax xs xs' ys ys' Rx Ry w s w' s'). Qed.
Print Assumptions C78_boxes.
Theorem C78_rectangular_contours : forall xs ys xs' ys' w s w' s', richer xs xs' -> richer (ordinates xs ys) (ordinates xs' ys') ->
  rectangular_contours xs ys = Ok (w, s) -> rectangular_contours xs' ys' = Ok (w', s') -> covered s s'.
Proof. exact (fun xs ys xs' ys' w s w' s' Rx Ry => rectangular_relax xs xs' ys ys' Rx Ry w s w' s'). Qed.
Print Assumptions C78_rectangular_contours.
Theorem C78_triangular_contours : forall xs ys xs' ys' w s w' s', richer xs xs' -> richer (ordinates xs ys) (ordinates xs' ys') ->
  triangular_contours xs ys = Ok (w, s) -> triangular_contours xs' ys' = Ok (w', s') -> covered s s'.
Proof. exact (fun xs ys xs' ys' w s w' s' Rx Ry => triangular_relax xs xs' ys ys' Rx Ry w s w' s'). Qed.
Print Assumptions C78_triangular_contours.
Theorem C78_multipoints : forall xs ys xs' ys' mn mx w s w' s', richer xs xs' -> richer (ordinates xs ys) (ordinates xs' ys') ->
  multipoints xs ys mn mx = Ok (w, s) -> multipoints xs' ys' mn mx = Ok (w', s') -> covered s s'.
Proof. exact (fun xs ys xs' ys' mn mx w s w' s' Rx Ry => multipoints_relax xs xs' ys ys' Rx Ry mn mx mn mx (wider_refl mn mx) w s w' s'). Qed.
Print Assumptions C78_multipoints.
Theorem C78_contours : forall ctx xs ys xs' ys' mn mx w s w' s', richer xs xs' -> richer (ordinates xs ys) (ordinates xs' ys') ->
  contours ctx xs ys mn mx = Ok (w, s) -> contours ctx xs' ys' mn mx = Ok (w', s') -> covered s s'.
Proof. exact (fun ctx xs ys xs' ys' mn mx w s w' s' Rx Ry => contours_relax ctx xs xs' ys ys' Rx Ry mn mx mn mx (wider_refl mn mx) (or_introl (conj eq_refl eq_refl)) w s w' s'). Qed.
Print Assumptions C78_contours.
Theorem C78_convex_contours : forall ctx xs ys xs' ys' mn mx w s w' s', richer xs xs' -> richer (ordinates xs ys) (ordinates xs' ys') ->
  convex_contours ctx xs ys mn mx = Ok (w, s) -> convex_contours ctx xs' ys' mn mx = Ok (w', s') -> covered s s'.
Proof. exact (fun ctx xs ys xs' ys' mn mx w s w' s' Rx Ry => convex_contours_relax ctx xs xs' ys ys' Rx Ry mn mx mn mx (wider_refl mn mx) (or_introl (conj eq_refl eq_refl)) w s w' s'). Qed.
Print Assumptions C78_convex_contours.
Theorem C78_star_contours : forall ctx xs ys xs' ys' mn mx w s w' s', richer xs xs' -> richer (ordinates xs ys) (ordinates xs' ys') ->
  star_contours ctx xs ys mn mx = Ok (w, s) -> star_contours ctx xs' ys' mn mx = Ok (w', s') -> covered s s'.
Proof. exact (fun ctx xs ys xs' ys' mn mx w s w' s' Rx Ry => star_contours_relax ctx xs xs' ys ys' Rx Ry mn mx mn mx (wider_refl mn mx) (or_introl (conj eq_refl eq_refl)) w s w' s'). Qed.
Print Assumptions C78_star_contours.
Theorem C78_concave_contours : forall ctx xs ys xs' ys' mn mx w s w' s', richer xs xs' -> richer (ordinates xs ys) (ordinates xs' ys') ->
  concave_contours ctx xs ys mn mx = Ok (w, s) -> concave_contours ctx xs' ys' mn mx = Ok (w', s') -> covered s s'.
Proof. exact (fun ctx xs ys xs' ys' mn mx w s w' s' Rx Ry => concave_contours_relax ctx xs xs' ys ys' Rx Ry mn mx mn mx (wider_refl mn mx) (or_introl (conj eq_refl eq_refl)) w s w' s'). Qed.
Print Assumptions C78_concave_contours.
Theorem C78_multisegments : forall ctx xs ys xs' ys' mn mx w s w' s', richer xs xs' -> richer (ordinates xs ys) (ordinates xs' ys') ->
  multisegments ctx xs ys mn mx = Ok (w, s) -> multisegments ctx xs' ys' mn mx = Ok (w', s') -> covered s s'.
Proof. exact (fun ctx xs ys xs' ys' mn mx w s w' s' Rx Ry => multisegments_relax ctx xs xs' ys ys' Rx Ry mn mx mn mx (wider_refl mn mx) (or_introl (conj eq_refl eq_refl)) w s w' s'). Qed.
Print Assumptions C78_multisegments.
Theorem C78_multicontours : forall ctx xs ys xs' ys' mn mx cmn cmx w s w' s', richer xs xs' -> richer (ordinates xs ys) (ordinates xs' ys') ->
  multicontours ctx xs ys mn mx cmn cmx = Ok (w, s) -> multicontours ctx xs' ys' mn mx cmn cmx = Ok (w', s') -> covered s s'.
Proof.
  exact (fun ctx xs ys xs' ys' mn mx cmn cmx w s w' s' Rx Ry => multicontours_relax ctx xs xs' ys ys' Rx Ry mn mx mn mx cmn cmx cmn cmx w s w' s' (wider_refl mn mx) (wider_refl cmn cmx)
    (or_introl (conj eq_refl (conj eq_refl (conj eq_refl eq_refl))))).
Qed.
Print Assumptions C78_multicontours.
Theorem C78_polygons : forall ctx xs ys xs' ys' mn mx hmn hmx smn smx w s w' s', richer xs xs' -> richer (ordinates xs ys) (ordinates xs' ys') ->
  polygons ctx xs ys mn mx hmn hmx smn smx = Ok (w, s) -> polygons ctx xs' ys' mn mx hmn hmx smn smx = Ok (w', s') -> covered s s'.
Proof.
  exact (fun ctx xs ys xs' ys' mn mx hmn hmx smn smx w s w' s' Rx Ry => polygons_relax ctx xs xs' ys ys' Rx Ry mn mx mn mx (wider_refl mn mx) hmn hmx hmn hmx (wider_refl hmn hmx)
    smn smx smn smx (wider_refl smn smx) w s w' s' (or_introl (polygon_same_refl mn mx hmn hmx smn smx))).
Qed.
Print Assumptions C78_polygons.
Theorem C78_multipolygons : forall ctx xs ys xs' ys' gmn gmx mn mx hmn hmx smn smx w s w' s', richer xs xs' -> richer (ordinates xs ys) (ordinates xs' ys') -> 0 <= hmn ->
  multipolygons ctx xs ys gmn gmx mn mx hmn hmx smn smx = Ok (w, s) -> multipolygons ctx xs' ys' gmn gmx mn mx hmn hmx smn smx = Ok (w', s') -> covered s s'.
Proof.
  exact (fun ctx xs ys xs' ys' gmn gmx mn mx hmn hmx smn smx w s w' s' Rx Ry H0 => multipolygons_relax ctx xs xs' ys ys' Rx Ry mn mx mn mx (wider_refl mn mx) hmn hmx hmn hmx (wider_refl hmn hmx)
    smn smx smn smx (wider_refl smn smx) gmn gmx gmn gmx w s w' s' (wider_refl gmn gmx) H0
    (or_introl (conj eq_refl (conj eq_refl (polygon_same_refl mn mx hmn hmx smn smx))))).
Qed.
Print Assumptions C78_multipolygons.
Theorem C78_mixes : forall ctx xs ys xs' ys' pmn pmx tmn tmx gmn gmx mn mx hmn hmx smn smx w s w' s', richer xs xs' -> richer (ordinates xs ys) (ordinates xs' ys') ->
  mixes ctx xs ys pmn pmx tmn tmx gmn gmx mn mx hmn hmx smn smx = Ok (w, s) ->
  mixes ctx xs' ys' pmn pmx tmn tmx gmn gmx mn mx hmn hmx smn smx = Ok (w', s') -> covered s s'.
Proof.
  exact (fun ctx xs ys xs' ys' pmn pmx tmn tmx gmn gmx mn mx hmn hmx smn smx w s w' s' Rx Ry => mixes_relax ctx xs xs' ys ys' Rx Ry mn mx mn mx (wider_refl mn mx) hmn hmx hmn hmx (wider_refl hmn hmx)
    smn smx smn smx (wider_refl smn smx) pmn pmx pmn tmn tmx tmn tmx gmn gmx gmn gmx w s w' s' (Z.le_refl pmn) (wider_refl tmn tmx) (wider_refl gmn gmx)
    (or_introl (polygon_same_refl mn mx hmn hmx smn smx))).
Qed.
Print Assumptions C78_mixes.
(** The coordinates 0 to 12 are richer than the coordinates 0 to 6; a pentagon drawn from the latter. *)
Example C78_richer : richer (upto 6) (upto 12) /\ exists w s w' s', convex_contours reference (upto 6) None 5 (Some 6) = Ok (w, s) /\
  convex_contours reference (upto 12) None 5 (Some 6) = Ok (w', s') /\ generates s (ints [(0, 1); (2, 0); (4, 0); (6, 1); (1, 5)]).
Proof.
  split; [intros q H; unfold drawable in *; apply gen_sampled_from in H; apply gen_sampled_from; apply in_map_iff in H; destruct H as (n & <- & H); apply in_map_iff; exists n; split; [reflexivity|]; apply in_seq in H; apply in_seq; lia|]. do 4 eexists. split; [reflexivity|]. split; [reflexivity|].
  apply (run_sound _ [5; 2; 6; 1; 4; 0; 6; 5; 1; 3; 2; 0; 6; 0; 4; 24; 1; 0; 0; 1; 0; 1; 2; 1; 0; 1; 0]). vm_compute. reflexivity.
Qed.
