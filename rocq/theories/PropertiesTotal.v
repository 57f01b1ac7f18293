(** C53 (without holes), C59-C62: what terminates without an exception. *)
From Verif Require Import Base Prog Geometry Ctx Utils Contracts Planar Spec RangeSpec QuadEdge Triangulation Factories Strategies ProgProofs HullSpec QcTac
  FaultProofs BorderProofs DelTotal DelPoly DelPolyTotal FuelProofs PolyFaultProofs Reference ReferenceProofs
  PropertiesContours PropertiesGeometries PropertiesMixes PropertiesRanges PropertiesTriangulation PropertiesFaults PropertiesBorders.
Import List ListNotations.
Local Open Scope Z_scope.

(** ** C53 without holes: only the bound on the number of iterations of the model can be met ... *)
Theorem C53_polygons_without_holes_partial : forall ctx,
  (forall n, (2 <= n)%nat -> is_change n (ctx_coins ctx n)) -> (forall l s, l <> [] -> is_nearest l s (ctx_nearest ctx l s)) ->
  (forall l, is_hull l (ctx_hull ctx l)) ->
  forall xs ys mn mx hmn smn smx w s e, harmless_both xs ys (2 * Z.max mn 3) ->
  polygons ctx xs ys mn mx hmn (Some 0) smn smx = Ok (w, s) -> can_raise s e -> e = OutOfFuel.
Proof. intros ctx C N H. exact (polygons_fuel ctx (conj C N) H). Qed.
Print Assumptions C53_polygons_without_holes_partial.
(** ... and, when the number of points [n] is bounded, it is not met from [n * n + 4 * n] on. *)
Theorem C53_bounded_polygons_without_holes_partial : forall ctx,
  (forall n, (2 <= n)%nat -> is_change n (ctx_coins ctx n)) -> (forall l s, l <> [] -> is_nearest l s (ctx_nearest ctx l s)) ->
  (forall l, is_hull l (ctx_hull ctx l)) ->
  forall xs ys mn m hmn smn k w s e, harmless_both xs ys (2 * Z.max mn 3) ->
  (let n := Z.to_nat (Z.max m (2 * Z.max mn 3)) in n * n + 4 * n < Pos.to_nat (ctx_fuel ctx))%nat ->
  polygons ctx xs ys mn (Some m) hmn (Some 0) smn (Some k) = Ok (w, s) -> ~ can_raise s e.
Proof. intros ctx C N H. exact (polygons_silent ctx (conj C N) H). Qed.
Print Assumptions C53_bounded_polygons_without_holes_partial.
Example C53_without_holes_occur : exists w s,
  (forall n, (2 <= n)%nat -> is_change n (ctx_coins reference n)) /\
  (forall l s, l <> [] -> is_nearest l s (ctx_nearest reference l s)) /\ (forall l, is_hull l (ctx_hull reference l)) /\
  harmless_both (between 9) (Some seven_ys) (2 * Z.max 3 3) /\
  (let n := Z.to_nat (Z.max 8 (2 * Z.max 3 3)) in n * n + 4 * n < Pos.to_nat (ctx_fuel reference))%nat /\
  polygons reference (between 9) (Some seven_ys) 3 (Some 8) 0 (Some 0) 3 (Some 5) = Ok (w, s) /\ exists p, generates s p.
Proof.
  do 2 eexists. split; [exact reference_coins|]. split; [exact reference_nearest|]. split; [exact reference_hull|]. split; [|split; [|split; [reflexivity|]]].
  - split; [apply between_harmless; lia|]. intros t E. injection E as <-. vm_compute. discriminate.
  - change (ctx_fuel reference) with 65536%positive. change (Z.to_nat (Z.max 8 (2 * Z.max 3 3))) with 8%nat. lia.
  - eexists. apply (run_sound _ [7;0;1;2;3;4;5;9;7;0;1;2;3;4;5;6;0;0;1;4;0;0;0;0;0]). vm_compute. reflexivity.
Qed.

(** ** C59: the triangulation of two or more distinct points exists, within [n * n + n] iterations of each loop. *)
Theorem C59_delaunay_total : forall ctx points,
  NoDup points -> (2 <= length points)%nat -> is_change (length points) (ctx_coins ctx (length points)) ->
  (length points * length points + length points < Pos.to_nat (ctx_fuel ctx))%nat ->
  exists t h, delaunay ctx points = Ok (t, h).
Proof. exact delaunay_total. Qed.
Print Assumptions C59_delaunay_total.
Example C59_occurs : NoDup five /\ (2 <= length five)%nat /\ is_change (length five) (ctx_coins reference (length five)) /\
  (length five * length five + length five < Pos.to_nat (ctx_fuel reference))%nat.
Proof.
  split; [apply C56_occurs|]. split; [cbn; lia|]. split; [apply reference_coins; cbn; lia|].
  change (ctx_fuel reference) with 65536%positive. cbn [length five]. lia.
Qed.

(** ** C60: distinct points which are not on one line always give a polygon, unless the drawing of a hole
    fails, and the holes are the ones drawn. *)
Theorem C60_polygon_without_holes : forall ctx points size,
  (forall n, (2 <= n)%nat -> is_change n (ctx_coins ctx n)) -> (forall l s, l <> [] -> is_nearest l s (ctx_nearest ctx l s)) ->
  NoDup points -> (exists a b c, In a points /\ In b points /\ In c points /\ cross a b c <> 0%Qc) ->
  (length points * length points + 4 * length points < Pos.to_nat (ctx_fuel ctx))%nat ->
  exists p, to_polygon ctx points size [] [] = Ok p /\ holes p = [].
Proof. exact polygon_without_holes. Qed.
Print Assumptions C60_polygon_without_holes.
Theorem C60_only_holes_fail : forall ctx points size sizes choices,
  (forall n, (2 <= n)%nat -> is_change n (ctx_coins ctx n)) -> (forall l s, l <> [] -> is_nearest l s (ctx_nearest ctx l s)) ->
  NoDup points -> (exists a b c, In a points /\ In b points /\ In c points /\ cross a b c <> 0%Qc) ->
  (length points * length points + 4 * length points < Pos.to_nat (ctx_fuel ctx))%nat ->
  (forall s, In s sizes -> 1 <= s) ->
  exists t h es, delaunay ctx points = Ok (t, h) /\ to_boundary_edges (ctx_fuel ctx) h t = Ok es /\
    let boundary_points := points_set (map (start h) es) in
    let inner_points := filter (fun p => negb (mem_point p boundary_points)) (points_set points) in
    match hole_loop ctx sizes choices None inner_points [] boundary_points with
    | Ok (hs, _) => exists p, to_polygon ctx points size sizes choices = Ok p /\ holes p = hs
    | Raise x => to_polygon ctx points size sizes choices = Raise x
    end.
Proof. exact only_holes_fail. Qed.
Print Assumptions C60_only_holes_fail.
Example C60_occur : NoDup five /\ (exists a b c, In a five /\ In b five /\ In c five /\ cross a b c <> 0%Qc) /\
  (length five * length five + 4 * length five < Pos.to_nat (ctx_fuel reference))%nat.
Proof.
  split; [apply C56_occurs|]. split.
  - exists (ipt 0 0), (ipt 4 0), (ipt 4 4). cbn [In five]. split; [auto|]. split; [auto|]. split; [auto|]. intros E. vm_compute in E. discriminate E.
  - change (ctx_fuel reference) with 65536%positive. cbn [length five]. lia.
Qed.

(** ** C61: the points in general position never lie on one line. *)
Theorem C61_points_not_on_a_line : forall xs ys mn mx l,
  generates (to_point_sequence_in_general_position_strategy xs ys mn mx) l ->
  exists a b c, In a l /\ In b l /\ In c l /\ cross a b c <> 0%Qc.
Proof. exact grid_not_flat. Qed.
Print Assumptions C61_points_not_on_a_line.
Example C61_occurs : exists l, generates (to_point_sequence_in_general_position_strategy (between 9) None 5 (Some 8)) l.
Proof. eexists. apply (run_sound _ [5;0;1;2;3;4;5;0;1;2;3;4;0;0;1]). vm_compute. reflexivity. Qed.

(** ** C62: the bound on iterations only cuts computations short: a larger bound gives the same results. *)
Theorem C62_bound_irrelevant : forall ctx n, (ctx_fuel ctx <= n)%positive ->
  (forall l, delaunay ctx l <> Raise OutOfFuel -> delaunay (with_fuel ctx n) l = delaunay ctx l) /\
  (forall l s, to_vertex_sequence ctx l s <> Raise OutOfFuel -> to_vertex_sequence (with_fuel ctx n) l s = to_vertex_sequence ctx l s) /\
  (forall l s c, to_multicontour ctx l s c <> Raise OutOfFuel -> to_multicontour (with_fuel ctx n) l s c = to_multicontour ctx l s c) /\
  (forall l z s c, to_polygon ctx l z s c <> Raise OutOfFuel -> to_polygon (with_fuel ctx n) l z s c = to_polygon ctx l z s c).
Proof. exact bound_irrelevant. Qed.
Print Assumptions C62_bound_irrelevant.
Example C62_occurs : (ctx_fuel reference <= 100000)%positive /\ delaunay reference five <> Raise OutOfFuel.
Proof. split; [vm_compute; discriminate|]. rewrite five_delaunay. discriminate. Qed.
