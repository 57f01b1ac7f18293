(** C94 and C95: contours carved out of points with any number of collinear triples among them. *)
From Verif Require Import Base Geometry Ctx Utils Spec WindSpec QuadEdge Triangulation SteerSpec Factories Jordan BorderProofs PolyFaultProofs LooseProofs EndProofs Reference ReferenceProofs.
Import List ListNotations.
Local Open Scope Z_scope.

(** ** C94: whenever cutting mouths alone gives as many vertices as asked for, the carved contour is simple, counterclockwise,
    without straight angles, made of the given points, and has exactly as many vertices as asked for, or as the hull if it has more. *)
Theorem C94_mouths_suffice : forall ctx points size left vs hull,
  (forall n, (2 <= n)%nat -> is_change n (ctx_coins ctx n)) ->
  NoDup points -> (exists a b c, In a points /\ In b points /\ In c points /\ cross a b c <> 0%Qc) ->
  mouths_left ctx points size = Ok left -> left <= 0 -> to_vertex_sequence ctx points size = Ok vs ->
  is_hull points hull -> (3 <= length hull)%nat ->
  simple vs /\ strict vs /\ (0 < doubled_area vs)%Qc /\ incl vs points /\ lenZ vs = Z.max (lenZ hull) size.
Proof.
  intros ctx points size left vs hull coins N F ML L0 E H H3.
  destruct (mouths_carve ctx points N (not_flat_spread _ F) (coins _) size left vs hull ML L0 E H H3) as (J & L3 & St & A & I & Le & _).
  exact (conj (jordan_simple vs L3 J) (conj St (conj A (conj I Le)))).
Qed.
Print Assumptions C94_mouths_suffice.
(** ** The mouths never carve past the request: what is left is negative only if the hull already has more vertices. *)
Theorem C94_never_past : forall ctx points size left vs hull,
  (forall n, (2 <= n)%nat -> is_change n (ctx_coins ctx n)) ->
  NoDup points -> (exists a b c, In a points /\ In b points /\ In c points /\ cross a b c <> 0%Qc) ->
  mouths_left ctx points size = Ok left -> left <= 0 -> to_vertex_sequence ctx points size = Ok vs ->
  is_hull points hull -> (3 <= length hull)%nat -> left = Z.min 0 (size - lenZ hull).
Proof.
  intros ctx points size left vs hull coins N F ML L0 E H H3.
  destruct (mouths_carve ctx points N (not_flat_spread _ F) (coins _) size left vs hull ML L0 E H H3) as (_ & _ & _ & _ & _ & _ & R). exact R.
Qed.
Print Assumptions C94_never_past.
(** ** The number by which an ear is rated is the change of the number of corners its cutting makes to the boundary. *)
Theorem C94_ear_rated : forall ctx points t h es e,
  (forall n, (2 <= n)%nat -> is_change n (ctx_coins ctx n)) ->
  NoDup points -> (exists a b c, In a points /\ In b points /\ In c points /\ cross a b c <> 0%Qc) ->
  delaunay ctx points = Ok (t, h) -> to_boundary_edges (ctx_fuel ctx) h t = Ok es -> In e es -> (4 <= length es)%nat ->
  ~ collinear (start h e) (end_ h e) (end_ h (right_from_end h e)) ->
  corners (filter (fun p => negb (point_eqb p (end_ h e))) (map (start h) es)) = corners (map (start h) es) + ear_to_increment h e.
Proof.
  exact (fun ctx points t h es e coins N F => hull_ears ctx points t h es e N (not_flat_spread _ F) (coins _)).
Qed.
Print Assumptions C94_ear_rated.

Definition pz (x y : Z) : point := Pt (Q2Qc (inject_Z x)) (Q2Qc (inject_Z y)).
(** The points of a square grid. *)
Definition grid : list point := flat_map (fun x => map (pz x) [0; 1; 2; 3]) [0; 1; 2; 3].
Definition lefts (size : Z) : Z := match mouths_left reference grid size with Ok z => z | Raise _ => 99 end.
Definition found (size : Z) : Z := match to_vertex_sequence reference grid size with Ok vs => lenZ vs | Raise _ => 99 end.
(** Most triples asked about are collinear, yet the mouths suffice for all these sizes but five, where an ear is cut. *)
Example C94_occur : contracts reference /\ is_hull grid (ctx_hull reference grid) /\ length (ctx_hull reference grid) = 4%nat /\ NoDup grid /\
  (exists a b c, In a grid /\ In b grid /\ In c grid /\ cross a b c <> 0%Qc) /\
  map lefts [3; 4; 5; 6; 7; 8; 9; 10; 11; 12] = [-1; 0; 1; 0; 0; 0; 0; 0; 0; 0] /\
  map found [3; 4; 5; 6; 7; 8; 9; 10; 11; 12] = [4; 4; 5; 6; 7; 8; 9; 10; 11; 12].
Proof.
  split; [split; [intros n; apply reference_coins|intros l s; apply reference_nearest]|]. split; [apply reference_hull|].
  split; [vm_compute; reflexivity|]. split; [apply distinct_nodup; vm_compute; reflexivity|].
  split; [exists (pz 0 0), (pz 1 0), (pz 0 1); repeat split; try (vm_compute; tauto); intros E; vm_compute in E; discriminate|].
  split; vm_compute; reflexivity.
Qed.
(** Boundary edges of the grid: the change of the number of corners and the rating, for the ends that are corners. *)
Definition rated : list (Z * Z) :=
  match delaunay reference grid with
  | Ok (t, h) => match to_boundary_edges (ctx_fuel reference) h t with
    | Ok es => flat_map (fun e => if Qc_eq_dec (cross (start h e) (end_ h e) (end_ h (right_from_end h e))) 0 then [] else
        [(corners (filter (fun p => negb (point_eqb p (end_ h e))) (map (start h) es)) - corners (map (start h) es), ear_to_increment h e)]) es
    | Raise _ => []
    end
  | Raise _ => []
  end.
Example C94_ear_occur : rated = [(1, 1); (1, 1); (1, 1); (1, 1)].
Proof. vm_compute. reflexivity. Qed.

(** ** C95: on any distinct points, not all of them collinear, the loop that cuts mouths ends; it raises nothing but AssertionError. *)
Theorem C95_mouths_end : forall ctx points size,
  (forall n, (2 <= n)%nat -> is_change n (ctx_coins ctx n)) ->
  NoDup points -> (exists a b c, In a points /\ In b points /\ In c points /\ cross a b c <> 0%Qc) ->
  (4 * (length points * length points) + 6 * length points + 1 < Pos.to_nat (ctx_fuel ctx))%nat ->
  (exists left, mouths_left ctx points size = Ok left) \/
  mouths_left ctx points size = Raise AssertionError /\ to_vertex_sequence ctx points size = Raise AssertionError.
Proof.
  intros ctx points size coins N F Fu.
  destruct (carve_ends ctx points N (not_flat_spread _ F) (not_flat_two _ F) (coins _ (not_flat_two _ F)) Fu size) as [A|(rest & E & _)]; [right; exact A|left; exists rest; exact E].
Qed.
Print Assumptions C95_mouths_end.
(** ** If it leaves nothing to carve, the carving succeeds with a contour as in C94. *)
Theorem C95_carved : forall ctx points size left hull,
  (forall n, (2 <= n)%nat -> is_change n (ctx_coins ctx n)) ->
  NoDup points -> (exists a b c, In a points /\ In b points /\ In c points /\ cross a b c <> 0%Qc) ->
  (4 * (length points * length points) + 6 * length points + 1 < Pos.to_nat (ctx_fuel ctx))%nat ->
  is_hull points hull -> (3 <= length hull)%nat ->
  mouths_left ctx points size = Ok left -> left <= 0 ->
  exists vs, to_vertex_sequence ctx points size = Ok vs /\
    simple vs /\ strict vs /\ (0 < doubled_area vs)%Qc /\ incl vs points /\ lenZ vs = Z.max (lenZ hull) size.
Proof.
  intros ctx points size left hull coins N F Fu Hh H3 ML L0.
  destruct (carve_ends ctx points N (not_flat_spread _ F) (not_flat_two _ F) (coins _ (not_flat_two _ F)) Fu size) as [(A & _)|(left' & E & K)]; [rewrite A in ML; discriminate|].
  rewrite E in ML. injection ML as ->. destruct (K L0) as (vs & Ev). exists vs. split; [exact Ev|]. exact (C94_mouths_suffice ctx points size left vs hull coins N F E L0 Ev Hh H3).
Qed.
Print Assumptions C95_carved.
(** ** Asked for no more vertices than the convex hull has, the carving succeeds and yields the hull, whatever collinear points lie on it. *)
Theorem C95_hull : forall ctx points size hull,
  (forall n, (2 <= n)%nat -> is_change n (ctx_coins ctx n)) ->
  NoDup points -> (exists a b c, In a points /\ In b points /\ In c points /\ cross a b c <> 0%Qc) ->
  (4 * (length points * length points) + 6 * length points + 1 < Pos.to_nat (ctx_fuel ctx))%nat ->
  is_hull points hull -> (3 <= length hull)%nat -> size <= lenZ hull ->
  exists vs, to_vertex_sequence ctx points size = Ok vs /\ convex_ccw vs /\ incl vs hull /\ incl hull vs.
Proof.
  exact (fun ctx points size hull coins N F Fu => hull_asked ctx points N (not_flat_spread _ F) (not_flat_two _ F) (coins _ (not_flat_two _ F)) Fu size hull).
Qed.
Print Assumptions C95_hull.
(** ** The same of the border of a polygon, with or without holes. *)
Theorem C95_border_hull : forall ctx points size sizes choices p hull,
  (forall n, (2 <= n)%nat -> is_change n (ctx_coins ctx n)) ->
  NoDup points -> (exists a b c, In a points /\ In b points /\ In c points /\ cross a b c <> 0%Qc) ->
  to_polygon ctx points size sizes choices = Ok p -> is_hull points hull -> (3 <= length hull)%nat -> size <= lenZ hull ->
  convex_ccw (border p) /\ incl (border p) hull /\ incl hull (border p).
Proof.
  exact (fun ctx points size sizes choices p hull coins N F => border_asked ctx points N (not_flat_spread _ F) (coins _ (not_flat_two _ F)) size sizes choices p hull).
Qed.
Print Assumptions C95_border_hull.
(** ** Asked for more, a border may get more vertices than asked for, unlike a contour (C94): five and seven on the grid. *)
Theorem C95_border_more : exists ctx points size p,
  contracts ctx /\ NoDup points /\ (exists a b c, In a points /\ In b points /\ In c points /\ cross a b c <> 0%Qc) /\
  is_hull points (ctx_hull ctx points) /\ to_polygon ctx points size [] [] = Ok p /\ lenZ (ctx_hull ctx points) < size /\ size < lenZ (border p).
Proof.
  destruct (to_polygon reference grid 5 [] []) as [p|e] eqn:E; [|vm_compute in E; discriminate].
  assert (K : match to_polygon reference grid 5 [] [] with Ok p => lenZ (border p) | Raise _ => 0 end = 7) by (vm_compute; reflexivity). rewrite E in K.
  destruct C94_occur as (A1 & A2 & _ & A4 & A5 & _). exists reference, grid, 5, p. split; [exact A1|]. split; [exact A4|]. split; [exact A5|]. split; [exact A2|]. split; [exact E|].
  split; [vm_compute; reflexivity|]. rewrite K. reflexivity.
Qed.
Print Assumptions C95_border_more.
(** The hypotheses on the grid are shown in C94_occur. *)
Example C95_occur : (4 * (length grid * length grid) + 6 * length grid + 1 < Pos.to_nat (ctx_fuel reference))%nat /\ mouths_left reference grid 12 = Ok 0 /\ mouths_left reference grid 5 = Ok 1 /\
  to_vertex_sequence reference grid 4 = Ok [pz 0 0; pz 3 0; pz 3 3; pz 0 3] /\
  to_polygon reference grid 3 [4] [true] = Ok (Poly [pz 0 0; pz 3 0; pz 3 3; pz 0 3] [[pz 1 1; pz 1 2; pz 2 2; pz 2 1]]).
Proof. split; [|repeat split; vm_compute; reflexivity]. apply Nat2Z.inj_lt. rewrite positive_nat_Z. vm_compute. reflexivity. Qed.
