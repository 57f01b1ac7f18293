(** What drawing polygons without holes can raise. *)
From Coq Require Import List Lia Znumtheory Permutation Sorted.
From Verif Require Import Base Prog Geometry Ctx Utils Contracts Spec RangeSpec HullSpec Factories Triangulation Strategies Planar ProgProofs
  LoopProofs ListProofs PrimeProofs GridProofs PlanarProofs QcTac QcFast GeomProofs HullProofs RangeProofs RangeApiProofs ContourProofs FaultProofs FuelProofs BorderProofs DelTotal DelPoly DelPolyTotal.
Import List ListNotations.
Open Scope Z_scope.

(** ** The points that a polygon is made of do not lie on one line. *)
Lemma qc_apart (x y : Qc) : (x - y = 0)%Qc -> x = y.
Proof. intros H. transitivity (x - y + y)%Qc; [ring|rewrite H; ring]. Qed.
Lemma flat_cross a b c : py a = py b -> px a <> px b -> py c <> py a -> cross a b c <> 0%Qc.
Proof.
  intros H1 H2 H3 H. unfold cross in H. rewrite <- H1 in H.
  assert (E : ((px b - px a) * (py c - py a) = 0)%Qc) by (rewrite <- H; ring).
  apply Qcmult_integral in E. destruct E as [E|E]; apply qc_apart in E; [apply H2; symmetry; exact E|apply H3, E].
Qed.
Lemma steep_cross a b c : px a = px b -> py a <> py b -> px c <> px a -> cross a b c <> 0%Qc.
Proof.
  intros H1 H2 H3 H.
  assert (E : ((py b - py a) * (px c - px a) = 0)%Qc) by (transitivity (- cross a b c)%Qc; [unfold cross; rewrite <- H1; ring|rewrite H; ring]).
  apply Qcmult_integral in E. destruct E as [E|E]; apply qc_apart in E; [apply H2; symmetry; exact E|apply H3, E].
Qed.
Lemma grid_not_flat xs ys mn mx l : generates (to_point_sequence_in_general_position_strategy xs ys mn mx) l ->
  exists a b c, In a l /\ In b l /\ In c l /\ cross a b c <> 0%Qc.
Proof.
  intros H. apply grid_exact in H. destruct H as (Hm & lower & xl & yl & p & scale & by_x & (Pl & L3 & _) & Sx & Sy & (Lx & _) & (Ly & _) & _ & _ & (Pp & Pn & Pmax) & Hs & Nd & ->).
  pose proof (Pmax lower Pl ltac:(lia)) as Hp.
  assert (Nx : NoDup xl) by (apply strict_nodup, Sx). assert (Ny : NoDup yl) by (apply strict_nodup, Sy).
  assert (Hi : forall i, 0 <= i < p -> In i (map Z.of_nat (seq 0 (Z.to_nat p)))) by (intros i Hi; apply in_zrange, Hi).
  assert (E1 : (scale * (1 * 1)) mod p = (scale * ((p - 1) * (p - 1))) mod p).
  { replace (scale * ((p - 1) * (p - 1))) with (scale * (1 * 1) + (scale * (p - 2)) * p) by ring. rewrite Z_mod_plus_full. reflexivity. }
  assert (N0 : (scale * (0 * 0)) mod p <> (scale * (1 * 1)) mod p).
  { replace (scale * (0 * 0)) with 0 by ring. rewrite Z.mod_0_l by lia. intros E. apply Nd. apply Z.mod_divide; [lia|]. rewrite <- (Z.mul_1_r scale). symmetry. exact E. }
  assert (R : forall z, 0 <= z mod p < p) by (intros z; apply Z.mod_pos_bound; lia).
  pose proof (R (scale * (0 * 0))) as R0. pose proof (R (scale * (1 * 1))) as R1.
  set (f := fun i => if by_x then Pt (nth_coordinate xl i) (nth_coordinate yl ((scale * (i * i)) mod p))
                     else Pt (nth_coordinate xl ((scale * (i * i)) mod p)) (nth_coordinate yl i)).
  exists (f 1), (f (p - 1)), (f 0). unfold grid_points. fold f.
  split; [apply in_map, Hi; lia|]. split; [apply in_map, Hi; lia|]. split; [apply in_map, Hi; lia|].
  unfold f. destruct by_x.
  - apply flat_cross; cbn [px py].
    + rewrite E1. reflexivity.
    + intros E. apply (at_index_inj xl) in E; [lia|exact Nx|lia|lia].
    + intros E. apply (at_index_inj yl) in E; [contradiction|exact Ny|lia|lia].
  - apply steep_cross; cbn [px py].
    + rewrite E1. reflexivity.
    + intros E. apply (at_index_inj yl) in E; [lia|exact Ny|lia|lia].
    + intros E. apply (at_index_inj xl) in E; [contradiction|exact Nx|lia|lia].
Qed.
Lemma grid_spread xs ys mn mx l : generates (to_point_sequence_in_general_position_strategy xs ys mn mx) l -> spread l.
Proof.
  intros H. apply grid_not_flat in H. destruct H as (a & b & c & Ia & Ib & Ic & Nc). unfold spread.
  destruct (all_collinear (isort point_leb l)) as [K|K]; [exact K|]. exfalso. apply Nc. apply K; apply isort_in; assumption.
Qed.

(** ** A polygon without holes. *)
Lemma no_holes_none ctx points size : contracts ctx -> NoDup points -> spread points -> (2 <= length points)%nat ->
  (length points * length points + 4 * length points < Pos.to_nat (ctx_fuel ctx))%nat -> exists p, to_polygon ctx points size [] [] = Ok p.
Proof.
  intros (Coins & Near) N Sp L2 Fu.
  destruct (to_polygon_done ctx points N (Coins _) Near Fu size [] [] ltac:(intros s []) Sp L2) as (t & h & es & _ & _ & H).
  specialize (H _ eq_refl). cbn [hole_loop] in H. destruct H as (p & H & _). exists p. exact H.
Qed.
Lemma no_holes_fuel ctx points size e : contracts ctx -> NoDup points -> spread points -> (2 <= length points)%nat ->
  to_polygon ctx points size [] [] = Raise e -> e = OutOfFuel.
Proof.
  intros C N Sp L2 H. set (n := Pos.max (ctx_fuel ctx) (Pos.of_nat (1 + (length points * length points + 4 * length points)))).
  destruct (upto_polygon ctx n ltac:(unfold n; lia) points size [] []) as [U|U]; [congruence|].
  destruct (no_holes_none (with_fuel ctx n) points size) as (p & Hp); auto.
  - cbn [with_fuel ctx_fuel]. unfold n. rewrite Pos2Nat.inj_max. rewrite Nat2Pos.id by lia. lia.
  - congruence.
Qed.

Section S.
Context (ctx : context) (C : contracts ctx) (hull : forall l, is_hull l (ctx_hull ctx l)).
Lemma no_holes_sizes points smn sizes : generates (to_hole_sizes points 0 (Some 0) smn) sizes -> sizes = [].
Proof.
  unfold to_hole_sizes. cbv zeta. intros H. destruct (_ <=? _); [|apply gen_ret in H; exact H].
  apply gen_bind in H. destruct H as (k & Hk & H). apply gen_integers in Hk. destruct Hk as (H1 & H2). unfold min_opt in H2.
  assert (k = 0) by lia. subst k. cbn [to_hole_sizes_ Z.eqb] in H. apply gen_ret in H. exact H.
Qed.
Definition fault (e : exn) : Prop := e = OutOfFuel \/ e = InvalidArgument.
Lemma fault_integers lo hi : only fault (integers lo hi).
Proof. intros e H. apply raise_integers in H. right. apply H. Qed.
Lemma fault_polygon_strategy xs ys mn mx smn smx : 3 <= mn -> grid_harmless xs ys mn ->
  only fault (to_polygon_strategy ctx xs ys mn mx 0 (Some 0) smn smx).
Proof.
  intros Hm Hg. unfold to_polygon_strategy. cbv zeta. rewrite Z.mul_0_r, Z.add_0_r. apply only_pfilter.
  apply only_bind; [apply only_pfilter, only_grid; assumption|]. intros pts Hp. apply gen_pfilter in Hp. destruct Hp as (Hp & _).
  pose proof (grid_spread _ _ _ _ _ Hp) as Sp. apply grid_at_least in Hp. destruct Hp as (Hp & H5 & Hn).
  apply only_bind; [apply fault_integers|]. intros size _. apply only_bind.
  - unfold to_hole_sizes. cbv zeta. destruct (_ <=? _); [|apply only_ret]. apply only_bind; [apply fault_integers|].
    intros k Hk. apply gen_integers in Hk. destruct Hk as (H1 & H2). unfold min_opt in H2.
    assert (k = 0) by lia. subst k. cbn [to_hole_sizes_ Z.eqb]. apply only_ret.
  - intros sizes Hs. apply no_holes_sizes in Hs. subst sizes. apply only_bind; [apply only_bits|]. intros ch Hc.
    apply only_lift. intros e He. left. apply (no_holes_fuel ctx pts size e); auto. unfold lenZ in *. lia.
Qed.
(** The number of points of the polygon is at most [n]. *)
Lemma bounded_polygon_strategy xs ys mn m smn k : 3 <= mn -> grid_harmless xs ys mn ->
  (let n := Z.to_nat (Z.max m (2 * mn)) in n * n + 4 * n < Pos.to_nat (ctx_fuel ctx))%nat ->
  only (fun e => e = InvalidArgument) (to_polygon_strategy ctx xs ys mn (Some m) 0 (Some 0) smn (Some k)).
Proof.
  intros Hm Hg Hf. unfold to_polygon_strategy. cbv zeta in *. rewrite !Z.mul_0_r, !Z.add_0_r. apply only_pfilter.
  apply only_bind; [apply only_pfilter, only_grid; assumption|]. intros pts Hp. apply gen_pfilter in Hp. destruct Hp as (Hp & _).
  pose proof (grid_spread _ _ _ _ _ Hp) as Sp. pose proof (grid_sound _ _ _ _ _ Hp) as G. apply grid_at_least in Hp. destruct Hp as (Hp & H5 & Hn).
  destruct (next_prime_twice mn Hm) as (q & Eq & Hq). pose proof (grid_upper _ _ _ _ _ G m q eq_refl Eq) as Up.
  assert (I' : forall lo hi, only (fun e => e = InvalidArgument) (integers lo hi)) by (intros lo hi e H; apply raise_integers in H; apply H).
  apply only_bind; [apply I'|]. intros size _. apply only_bind.
  - unfold to_hole_sizes. cbv zeta. destruct (_ <=? _); [|apply only_ret]. apply only_bind; [apply I'|].
    intros j Hj. apply gen_integers in Hj. destruct Hj as (H1 & H2). unfold min_opt in H2.
    assert (j = 0) by lia. subst j. cbn [to_hole_sizes_ Z.eqb]. apply only_ret.
  - intros sizes Hs. apply no_holes_sizes in Hs. subst sizes. apply only_bind; [apply only_bits|]. intros ch Hc.
    apply only_lift. intros e He. exfalso. destruct (no_holes_none ctx pts size) as (p & Hp'); auto.
    + unfold lenZ in *; lia.
    + unfold lenZ in *. set (n := Z.to_nat (Z.max m (2 * mn))) in *. assert (length pts <= n)%nat by (unfold n; lia). nia.
    + change (to_polygon ctx pts size [] ch) with (to_polygon ctx pts size [] []) in He. congruence.
Qed.
Lemma harmless_supplies xs ys n : harmless_both xs ys n -> supplies_both xs ys n.
Proof.
  assert (K : forall s, harmless s n -> supplies s n) by (intros [p|l]; cbn; auto).
  intros (H1 & H2). split; [auto|]. intros s Es. apply K, H2, Es.
Qed.
Lemma polygons_fuel xs ys mn mx hmn smn smx w s e : harmless_both xs ys (2 * Z.max mn 3) ->
  polygons ctx xs ys mn mx hmn (Some 0) smn smx = Ok (w, s) -> can_raise s e -> e = OutOfFuel.
Proof.
  intros Hs H K. destruct (Z_le_gt_dec hmn 0) as [Hh|Hh].
  - assert (Ni : ~ can_raise s InvalidArgument).
    { apply (no_invalid_polygons ctx xs ys hull mn mx hmn (Some 0) smn smx w s); [|exact H]. apply harmless_supplies. rewrite (Z.max_r hmn 0) by lia. rewrite Z.mul_0_l, Z.add_0_r. exact Hs. }
    unfold polygons in H. validate; try discriminate. injection H as _ <-. change MIN_CONTOUR_SIZE with 3 in *. rewrite (Z.max_r hmn 0) in * by lia.
    destruct (fault_polygon_strategy xs ys (Z.max mn 3) mx (Z.max smn 3) smx ltac:(lia) (harmless_grid _ _ (Z.max mn 3) (2 * Z.max mn 3) ltac:(lia) ltac:(lia) Hs) _ K) as [E|E]; [exact E|congruence].
  - exfalso. unfold polygons in H. validate; try discriminate. assert (B : ~ bad_sizes hmn (Some 0) 0) by assumption. pose proof (clamped_range _ _ _ B 0 eq_refl). lia.
Qed.
(** With a bound on the number of points, and enough iterations for as many points. *)
Lemma polygons_silent xs ys mn m hmn smn k w s e : harmless_both xs ys (2 * Z.max mn 3) ->
  (let n := Z.to_nat (Z.max m (2 * Z.max mn 3)) in n * n + 4 * n < Pos.to_nat (ctx_fuel ctx))%nat ->
  polygons ctx xs ys mn (Some m) hmn (Some 0) smn (Some k) = Ok (w, s) -> ~ can_raise s e.
Proof.
  intros Hs Hf H K. destruct (Z_le_gt_dec hmn 0) as [Hh|Hh].
  - assert (Ni : ~ can_raise s InvalidArgument).
    { apply (no_invalid_polygons ctx xs ys hull mn (Some m) hmn (Some 0) smn (Some k) w s); [|exact H]. apply harmless_supplies. rewrite (Z.max_r hmn 0) by lia. rewrite Z.mul_0_l, Z.add_0_r. exact Hs. }
    unfold polygons in H. validate; try discriminate. injection H as _ <-. change MIN_CONTOUR_SIZE with 3 in *. rewrite (Z.max_r hmn 0) in * by lia.
    apply Ni. rewrite <- (bounded_polygon_strategy xs ys (Z.max mn 3) m (Z.max smn 3) k ltac:(lia) (harmless_grid _ _ (Z.max mn 3) (2 * Z.max mn 3) ltac:(lia) ltac:(lia) Hs) Hf _ K). exact K.
  - exfalso. unfold polygons in H. validate; try discriminate. assert (B : ~ bad_sizes hmn (Some 0) 0) by assumption. pose proof (clamped_range _ _ _ B 0 eq_refl). lia.
Qed.
End S.

(** ** In terms of all points not being on a line. *)
Lemma not_flat_spread points : (exists a b c, In a points /\ In b points /\ In c points /\ cross a b c <> 0%Qc) -> spread points.
Proof.
  intros (a & b & c & Ia & Ib & Ic & Nc). unfold spread.
  destruct (all_collinear (isort point_leb points)) as [K|K]; [exact K|]. exfalso. apply Nc. apply K; apply isort_in; assumption.
Qed.
Lemma not_flat_two points : (exists a b c, In a points /\ In b points /\ In c points /\ cross a b c <> 0%Qc) -> (2 <= length points)%nat.
Proof.
  intros (a & b & c & Ia & Ib & Ic & Nc). destruct points as [|x [|y l]]; [destruct Ia| |cbn; lia]. exfalso. apply Nc.
  destruct Ia as [<-|[]], Ib as [<-|[]], Ic as [<-|[]]. unfold cross. ring.
Qed.
Lemma only_holes_fail ctx points size sizes choices :
  (forall n, (2 <= n)%nat -> is_change n (ctx_coins ctx n)) -> (forall l s, l <> [] -> is_nearest l s (ctx_nearest ctx l s)) ->
  NoDup points -> (exists a b c, In a points /\ In b points /\ In c points /\ cross a b c <> 0%Qc) ->
  (length points * length points + 4 * length points < Pos.to_nat (ctx_fuel ctx))%nat ->
  (forall s, In s sizes -> 1 <= s) ->
  exists t h es, delaunay ctx points = Ok (t, h) /\ to_boundary_edges (ctx_fuel ctx) h t = Ok es /\
    let boundary_points := points_set (map (QuadEdge.start h) es) in
    let inner_points := filter (fun p => negb (mem_point p boundary_points)) (points_set points) in
    match hole_loop ctx sizes choices None inner_points [] boundary_points with
    | Ok (hs, _) => exists p, to_polygon ctx points size sizes choices = Ok p /\ holes p = hs
    | Raise x => to_polygon ctx points size sizes choices = Raise x
    end.
Proof.
  intros C Ne N F Fu Hs.
  destruct (to_polygon_done ctx points N (C _) Ne Fu size sizes choices Hs (not_flat_spread _ F) (not_flat_two _ F)) as (t & h & es & H1 & H2 & H3).
  exists t, h, es. split; [exact H1|]. split; [exact H2|]. cbv zeta in *. exact (H3 _ eq_refl).
Qed.
Lemma polygon_without_holes ctx points size :
  (forall n, (2 <= n)%nat -> is_change n (ctx_coins ctx n)) -> (forall l s, l <> [] -> is_nearest l s (ctx_nearest ctx l s)) ->
  NoDup points -> (exists a b c, In a points /\ In b points /\ In c points /\ cross a b c <> 0%Qc) ->
  (length points * length points + 4 * length points < Pos.to_nat (ctx_fuel ctx))%nat ->
  exists p, to_polygon ctx points size [] [] = Ok p /\ holes p = [].
Proof.
  intros C Ne N F Fu. destruct (only_holes_fail ctx points size [] [] C Ne N F Fu ltac:(intros s [])) as (t & h & es & _ & _ & H). exact H.
Qed.
