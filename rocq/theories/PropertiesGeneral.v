(** C63-C68: coordinates of which no three points in a row can be made, other than on lines parallel to an axis. *)
From Verif Require Import Base Prog Geometry Ctx Utils Contracts Planar Spec RangeSpec WindSpec MixSpec GeneralSpec QuadEdge Triangulation Factories Strategies
  ProgProofs HullSpec QcTac GeomProofs FaultProofs BorderProofs GeneralProofs GeneralPolyProofs GeneralApiProofs GeneralCoordinates Reference ReferenceProofs
  PropertiesContours PropertiesGeometries PropertiesMixes PropertiesRanges PropertiesTriangulation PropertiesFaults PropertiesBorders.
Import List ListNotations.
Local Open Scope Z_scope.

(** Ordinates 1, n + 2, (n + 2)^2, ..., (n + 2)^n; all powers of n + 2. *)
Definition steep (n : nat) : scalars := Sampled (map (fun j => Qc_of_Z ((Z.of_nat n + 2) ^ Z.of_nat j)) (seq 0 (S n))).
Definition powers (n : Z) : scalars := Drawn (pmap (fun j => Qc_of_Z ((n + 2) ^ j)) (integers 0 None)).
Lemma upto_range n x : drawable (upto n) x -> exists z, x = Qc_of_Z z /\ 0 <= z <= Z.of_nat n.
Proof.
  intros H. apply drawable_sampled, in_map_iff in H. destruct H as (j & <- & H). apply in_seq in H. exists (Z.of_nat j). split; [reflexivity|]. lia.
Qed.
Lemma steep_general n : general_coordinates (upto n) (Some (steep n)).
Proof.
  apply (powers_general _ _ (Z.of_nat n)); [lia|apply upto_range|]. intros y H. apply drawable_sampled, in_map_iff in H. destruct H as (j & <- & _).
  exists (Z.of_nat j). split; [lia|reflexivity].
Qed.
Lemma powers_range n y : drawable (powers n) y -> exists j, 0 <= j /\ y = Qc_of_Z ((n + 2) ^ j).
Proof.
  intros H. unfold powers, drawable in H. cbn [draw_scalar] in H. apply gen_pmap in H. destruct H as (j & H & ->). apply gen_integers in H. exists j. split; [apply H|reflexivity].
Qed.
Lemma between_powers n : 0 <= n -> general_coordinates (between n) (Some (powers n)).
Proof.
  intros Hn. apply (powers_general _ _ n); [exact Hn| |apply powers_range]. intros x H. unfold between, drawable in H. cbn [draw_scalar] in H.
  apply gen_pmap in H. destruct H as (z & H & ->). apply gen_integers in H. exists z. split; [reflexivity|]. exact H.
Qed.
Lemma powers_harmless n m : harmless (powers n) m.
Proof. intros e H. apply raise_pmap, raise_integers in H. destruct H as (_ & h & E & _). discriminate. Qed.

(** ** C63: a contour is carved out of points in general position without an exception; it is simple,
    counterclockwise and has no straight angle. *)
Theorem C63_carving : forall ctx points size,
  (forall n, (2 <= n)%nat -> is_change n (ctx_coins ctx n)) ->
  NoDup points -> (3 <= length points)%nat -> in_general_position points ->
  (length points * length points + 4 * length points < Pos.to_nat (ctx_fuel ctx))%nat ->
  exists vs, to_vertex_sequence ctx points size = Ok vs /\ counterclockwise vs /\ (3 <= length vs)%nat /\ incl vs points.
Proof. exact (fun ctx points size coins N L G => carve_ok ctx coins points size N L (proj1 (general_no_three points) G)). Qed.
Print Assumptions C63_carving.
(** ** The same for a row of contours ... *)
Theorem C63_multicontour : forall ctx points sizes choices,
  (forall n, (2 <= n)%nat -> is_change n (ctx_coins ctx n)) ->
  NoDup points -> in_general_position points ->
  (length points * length points + 4 * length points < Pos.to_nat (ctx_fuel ctx))%nat ->
  (forall s, In s sizes -> 3 <= s) -> fold_right Z.add 0 sizes <= lenZ points ->
  exists mc, to_multicontour ctx points sizes choices = Ok mc /\ Forall counterclockwise mc /\ length mc = Nat.min (length sizes) (length choices).
Proof.
  exact (fun ctx points sizes choices coins N G F H3 Ht =>
    multicontour_loop_ok ctx coins sizes choices None points [] H3 Ht N (proj1 (general_no_three points) G) F).
Qed.
Print Assumptions C63_multicontour.
(** ** ... and for a polygon with holes. *)
Theorem C63_polygon : forall ctx points size sizes choices,
  (forall n, (2 <= n)%nat -> is_change n (ctx_coins ctx n)) -> (forall l s, l <> [] -> is_nearest l s (ctx_nearest ctx l s)) ->
  NoDup points -> (3 <= length points)%nat -> in_general_position points ->
  (length points * length points + 4 * length points < Pos.to_nat (ctx_fuel ctx))%nat ->
  (forall s, In s sizes -> 3 <= s) -> fold_right Z.add 0 sizes <= Z.max 0 (lenZ points - lenZ (to_max_convex_hull points)) ->
  exists p, to_polygon ctx points size sizes choices = Ok p /\ Forall clockwise (holes p) /\ length (holes p) = Nat.min (length sizes) (length choices).
Proof.
  exact (fun ctx points size sizes choices coins near N L G F H3 Ht =>
    to_polygon_ok ctx (conj coins near) points size sizes choices N L (proj1 (general_no_three points) G) F H3 Ht).
Qed.
Print Assumptions C63_polygon.
Definition seven : list point := ints [(0, 0); (10, 1); (12, 11); (1, 9); (4, 3); (7, 5); (5, 7)].
Example C63_occur : NoDup seven /\ (3 <= length seven)%nat /\ in_general_position seven /\
  (length seven * length seven + 4 * length seven < Pos.to_nat (ctx_fuel reference))%nat /\
  fold_right Z.add 0 [3] <= Z.max 0 (lenZ seven - lenZ (to_max_convex_hull seven)).
Proof.
  split; [repeat constructor; cbn; intros H; repeat destruct H as [H|H]; try discriminate H; contradiction H|]. split; [cbn; lia|].
  split; [|split; [change (ctx_fuel reference) with 65536%positive; cbn [length seven ints map]; lia|vm_compute; discriminate]].
  assert (K : forallb (fun a => forallb (fun b => forallb (fun c => (point_eqb a b || point_eqb b c || point_eqb a c || negb (qeqb (cross a b c) 0%Qc))%bool) seven) seven) seven = true)
    by (vm_compute; reflexivity).
  intros a b c Ha Hb Hc Nab Nbc Nac L. rewrite forallb_forall in K. specialize (K a Ha). rewrite forallb_forall in K. specialize (K b Hb).
  rewrite forallb_forall in K. specialize (K c Hc). rewrite !Bool.orb_true_iff, Bool.negb_true_iff in K. destruct K as [[[K|K]|K]|K].
  - apply point_eqb_eq in K. contradiction.
  - apply point_eqb_eq in K. contradiction.
  - apply point_eqb_eq in K. contradiction.
  - apply (proj2 (qeqb_eq _ _)) in L. change (Q2Qc 0) with 0%Qc in L. congruence.
Qed.

(** ** C64: members of multicontours. *)
Theorem C64_multicontours_simple : forall ctx,
  (forall n, (2 <= n)%nat -> is_change n (ctx_coins ctx n)) -> (forall l s, l <> [] -> is_nearest l s (ctx_nearest ctx l s)) ->
  forall xs ys mn mx cmn cmx w s mc, general_coordinates xs ys ->
  multicontours ctx xs ys mn mx cmn cmx = Ok (w, s) -> generates s mc -> forall vs, In vs mc -> counterclockwise vs.
Proof. exact (fun ctx coins near => multicontours_general ctx (conj coins near)). Qed.
Print Assumptions C64_multicontours_simple.
Example C64_occurs : general_coordinates (upto 6) (Some (steep 6)) /\
  exists w s, multicontours reference (upto 6) (Some (steep 6)) 2 None 3 None = Ok (w, s) /\
    generates s [ints [(0, 1); (1, 512); (1, 4096)]; ints [(1, 4096); (2, 64); (2, 32768)]].
Proof.
  split; [apply steep_general|]. do 2 eexists. split; [reflexivity|].
  apply (run_sound _ [7; 2; 0; 5; 4; 3; 1; 6; 7; 4; 1; 6; 0; 3; 2; 5; 1; 3; 25; 2; 3; 3; 1; 0; 0; 0]). vm_compute. reflexivity.
Qed.

(** ** C65: polygons, multipolygons and polygons of mixes are valid. *)
Theorem C65_polygons_valid : forall ctx,
  (forall n, (2 <= n)%nat -> is_change n (ctx_coins ctx n)) -> (forall l s, l <> [] -> is_nearest l s (ctx_nearest ctx l s)) ->
  (forall xs ys mn mx hmn hmx smn smx w s p, general_coordinates xs ys ->
     polygons ctx xs ys mn mx hmn hmx smn smx = Ok (w, s) -> generates s p -> proper p) /\
  (forall xs ys mn mx bmn bmx hmn hmx smn smx w s ps p, general_coordinates xs ys ->
     multipolygons ctx xs ys mn mx bmn bmx hmn hmx smn smx = Ok (w, s) -> generates s ps -> In p ps -> proper p) /\
  (forall xs ys pmn pmx gmn gmx qmn qmx mn mx hmn hmx smn smx w s m p, general_coordinates xs ys ->
     mixes ctx xs ys pmn pmx gmn gmx qmn qmx mn mx hmn hmx smn smx = Ok (w, s) -> generates s m ->
     In p (elements (shaped m)) -> proper p).
Proof.
  exact (fun ctx coins near => conj (polygons_general ctx (conj coins near))
    (conj (multipolygons_general ctx (conj coins near)) (mixes_general ctx (conj coins near)))).
Qed.
Print Assumptions C65_polygons_valid.
(** A border of seven vertices with a hole of five; two polygons that touch, one with a hole. *)
Example C65_occur : general_coordinates (upto 13) (Some (steep 13)) /\
  exists w s p, polygons reference (upto 13) (Some (steep 13)) 4 (Some 9) 1 (Some 3) 3 (Some 5) = Ok (w, s) /\ generates s p /\
    length (border p) = 7%nat /\ holes p = [ints [(1, 759375); (1, 576650390625); (5, 38443359375); (5, 11390625); (4, 3375)]].
Proof.
  split; [apply steep_general|]. do 3 eexists. split; [reflexivity|]. split; [|split].
  - apply (run_sound _ [13; 11; 5; 13; 10; 8; 0; 7; 6; 1; 9; 12; 4; 3; 13; 7; 3; 6; 8; 1; 12; 0; 5; 9; 10; 2; 13; 11; 1; 2; 35; 7; 1; 0; 5; 1]).
    vm_compute. reflexivity.
  - reflexivity.
  - reflexivity.
Qed.
Example C65_multipolygons_occur : general_coordinates (upto 14) (Some (steep 14)) /\
  exists w s, multipolygons reference (upto 14) (Some (steep 14)) 2 (Some 3) 3 (Some 8) 0 (Some 2) 3 (Some 5) = Ok (w, s) /\
    generates s [Poly (ints [(1, 1); (7, 16); (8, 65536); (5, 16); (4, 65536)]) [];
                 Poly (ints [(0, 65536); (11, 1048576); (10, 68719476736); (4, 68719476736)]) [ints [(2, 1048576); (8, 268435456); (9, 268435456)]]].
Proof.
  split; [apply steep_general|]. do 2 eexists. split; [reflexivity|].
  apply (run_sound _ [1; 1; 11; 0; 4; 1; 9; 10; 7; 5; 3; 8; 12; 2; 2; 5; 5; 5; 8; 7; 4; 1; 5; 4; 0; 1; 3; 2; 0; 0; 4; 5; 7; 4; 9; 0; 10; 2;
    8; 11; 7; 4; 6; 0; 5; 2; 3; 1; 0; 1; 8; 7; 1; 0; 3; 0]). vm_compute. reflexivity.
Qed.
Example C65_mixes_occur : general_coordinates (upto 10) (Some (steep 10)) /\
  exists w s m p, mixes reference (upto 10) (Some (steep 10)) 0 (Some 1) 0 (Some 2) 1 None 3 None 0 None 3 None = Ok (w, s) /\ generates s m /\
    elements (shaped m) = [p] /\ length (border p) = 5%nat.
Proof.
  split; [apply steep_general|]. do 4 eexists. split; [reflexivity|]. split; [|split].
  - apply (run_sound _ [1; 0; 7; 4; 1; 8; 5; 9; 7; 10; 1; 5; 0; 1; 1; 0; 5; 1; 0; 3; 2; 4; 5; 4; 0; 3; 6; 8; 0; 2; 14; 5; 0; 2; 0; 9]).
    vm_compute. reflexivity.
  - reflexivity.
  - reflexivity.
Qed.

(** ** C66: drawing a multicontour raises nothing: only the bound on the number of iterations of the model can be met ... *)
Theorem C66_multicontours_fuel : forall ctx,
  (forall n, (2 <= n)%nat -> is_change n (ctx_coins ctx n)) -> (forall l s, l <> [] -> is_nearest l s (ctx_nearest ctx l s)) ->
  forall xs ys mn mx cmn cmx w s e, general_coordinates xs ys -> harmless_both xs ys (2 * (Z.max mn 2 * Z.max cmn 3)) ->
  multicontours ctx xs ys mn mx cmn cmx = Ok (w, s) -> can_raise s e -> e = OutOfFuel.
Proof. exact (fun ctx coins near => general_multicontours_fuel ctx (conj coins near)). Qed.
Print Assumptions C66_multicontours_fuel.
(** ... and, when the number of points [n] is bounded, it is not met from [n * n + 4 * n] on. *)
Theorem C66_multicontours_silent : forall ctx,
  (forall n, (2 <= n)%nat -> is_change n (ctx_coins ctx n)) -> (forall l s, l <> [] -> is_nearest l s (ctx_nearest ctx l s)) ->
  forall xs ys mn m cmn c w s e, general_coordinates xs ys -> harmless_both xs ys (2 * (Z.max mn 2 * Z.max cmn 3)) ->
  (let n := Z.to_nat (Z.max (m * c) (2 * (Z.max mn 2 * Z.max cmn 3))) in n * n + 4 * n < Pos.to_nat (ctx_fuel ctx))%nat ->
  multicontours ctx xs ys mn (Some m) cmn (Some c) = Ok (w, s) -> ~ can_raise s e.
Proof. exact (fun ctx coins near => general_multicontours_silent ctx (conj coins near)). Qed.
Print Assumptions C66_multicontours_silent.
(** Unbounded coordinates, at most forty points. *)
Example C66_occur : general_coordinates (between 50) (Some (powers 50)) /\ harmless_both (between 50) (Some (powers 50)) (2 * (Z.max 2 2 * Z.max 3 3)) /\
  (let n := Z.to_nat (Z.max (5 * 8) (2 * (Z.max 2 2 * Z.max 3 3))) in n * n + 4 * n < Pos.to_nat (ctx_fuel reference))%nat /\
  exists w s mc, multicontours reference (between 50) (Some (powers 50)) 2 (Some 5) 3 (Some 8) = Ok (w, s) /\ generates s mc.
Proof.
  split; [apply between_powers; lia|]. split; [split; [apply between_harmless; lia|intros t E; injection E as <-; apply powers_harmless]|].
  split; [change (ctx_fuel reference) with 65536%positive; change (Z.to_nat (Z.max (5 * 8) (2 * (Z.max 2 2 * Z.max 3 3)))) with 40%nat; lia|].
  do 3 eexists. split; [reflexivity|]. apply (run_sound _ [7; 2; 0; 5; 4; 3; 1; 6; 7; 4; 1; 6; 0; 3; 2; 5; 1; 3; 25; 2; 3; 3; 1; 0; 0; 0]). vm_compute. reflexivity.
Qed.

(** ** C67: drawing a polygon, with holes or without, raises nothing. *)
Theorem C67_polygons_fuel : forall ctx,
  (forall n, (2 <= n)%nat -> is_change n (ctx_coins ctx n)) -> (forall l s, l <> [] -> is_nearest l s (ctx_nearest ctx l s)) ->
  (forall l, is_hull l (ctx_hull ctx l)) ->
  forall xs ys mn mx hmn hmx smn smx w s e, general_coordinates xs ys ->
  harmless_both xs ys (2 * (Z.max mn 3 + Z.max smn 3 * Z.max hmn 0)) ->
  polygons ctx xs ys mn mx hmn hmx smn smx = Ok (w, s) -> can_raise s e -> e = OutOfFuel.
Proof. exact (fun ctx coins near => general_polygons_fuel ctx (conj coins near)). Qed.
Print Assumptions C67_polygons_fuel.
Theorem C67_polygons_silent : forall ctx,
  (forall n, (2 <= n)%nat -> is_change n (ctx_coins ctx n)) -> (forall l s, l <> [] -> is_nearest l s (ctx_nearest ctx l s)) ->
  (forall l, is_hull l (ctx_hull ctx l)) ->
  forall xs ys mn m hmn h smn k w s e, general_coordinates xs ys ->
  harmless_both xs ys (2 * (Z.max mn 3 + Z.max smn 3 * Z.max hmn 0)) ->
  (let n := Z.to_nat (Z.max (m + k * h) (2 * (Z.max mn 3 + Z.max smn 3 * Z.max hmn 0))) in n * n + 4 * n < Pos.to_nat (ctx_fuel ctx))%nat ->
  polygons ctx xs ys mn (Some m) hmn (Some h) smn (Some k) = Ok (w, s) -> ~ can_raise s e.
Proof. exact (fun ctx coins near => general_polygons_silent ctx (conj coins near)). Qed.
Print Assumptions C67_polygons_silent.
(** The polygon is the one of C65. *)
Example C67_occur : general_coordinates (upto 13) (Some (steep 13)) /\ harmless_both (upto 13) (Some (steep 13)) (2 * (Z.max 4 3 + Z.max 3 3 * Z.max 1 0)) /\
  (let n := Z.to_nat (Z.max (9 + 5 * 3) (2 * (Z.max 4 3 + Z.max 3 3 * Z.max 1 0))) in n * n + 4 * n < Pos.to_nat (ctx_fuel reference))%nat.
Proof.
  split; [apply steep_general|]. split; [split; [vm_compute; discriminate|intros t E; injection E as <-; vm_compute; discriminate]|].
  change (ctx_fuel reference) with 65536%positive. change (Z.to_nat (Z.max (9 + 5 * 3) (2 * (Z.max 4 3 + Z.max 3 3 * Z.max 1 0)))) with 24%nat. lia.
Qed.

(** ** C68: drawing a multipolygon raises nothing. *)
Theorem C68_multipolygons_fuel : forall ctx,
  (forall n, (2 <= n)%nat -> is_change n (ctx_coins ctx n)) -> (forall l s, l <> [] -> is_nearest l s (ctx_nearest ctx l s)) ->
  (forall l, is_hull l (ctx_hull ctx l)) ->
  forall xs ys mn mx bmn bmx hmn hmx smn smx w s e, general_coordinates xs ys -> 0 <= hmn ->
  harmless_both xs ys (Z.max mn 2 * (2 * (Z.max bmn 3 + hmn * Z.max smn 3))) ->
  multipolygons ctx xs ys mn mx bmn bmx hmn hmx smn smx = Ok (w, s) -> can_raise s e -> e = OutOfFuel.
Proof. exact (fun ctx coins near => general_multipolygons_fuel ctx (conj coins near)). Qed.
Print Assumptions C68_multipolygons_fuel.
Theorem C68_multipolygons_silent : forall ctx,
  (forall n, (2 <= n)%nat -> is_change n (ctx_coins ctx n)) -> (forall l s, l <> [] -> is_nearest l s (ctx_nearest ctx l s)) ->
  (forall l, is_hull l (ctx_hull ctx l)) ->
  forall xs ys mn m bmn b hmn h smn k w s e, general_coordinates xs ys -> 0 <= hmn ->
  harmless_both xs ys (Z.max mn 2 * (2 * (Z.max bmn 3 + hmn * Z.max smn 3))) ->
  (let n := Z.to_nat (Z.max (Z.max (b + k * h) (m * b)) (Z.max mn 2 * (2 * (Z.max bmn 3 + hmn * Z.max smn 3)))) in
   n * n + 4 * n < Pos.to_nat (ctx_fuel ctx))%nat ->
  multipolygons ctx xs ys mn (Some m) bmn (Some b) hmn (Some h) smn (Some k) = Ok (w, s) -> ~ can_raise s e.
Proof. exact (fun ctx coins near => general_multipolygons_silent ctx (conj coins near)). Qed.
Print Assumptions C68_multipolygons_silent.
(** The multipolygon is the one of C65. *)
Example C68_occur : general_coordinates (upto 14) (Some (steep 14)) /\ harmless_both (upto 14) (Some (steep 14)) (Z.max 2 2 * (2 * (Z.max 3 3 + 0 * Z.max 3 3))) /\
  (let n := Z.to_nat (Z.max (Z.max (8 + 5 * 2) (3 * 8)) (Z.max 2 2 * (2 * (Z.max 3 3 + 0 * Z.max 3 3)))) in
   n * n + 4 * n < Pos.to_nat (ctx_fuel reference))%nat.
Proof.
  split; [apply steep_general|]. split; [split; [vm_compute; discriminate|intros t E; injection E as <-; vm_compute; discriminate]|].
  change (ctx_fuel reference) with 65536%positive. change (Z.to_nat (Z.max (Z.max (8 + 5 * 2) (3 * 8)) (Z.max 2 2 * (2 * (Z.max 3 3 + 0 * Z.max 3 3))))) with 24%nat. lia.
Qed.
