(** C93: the hull of points in general position, and the contours and borders carved out of them. *)
From Verif Require Import Base Geometry Ctx Utils Spec WindSpec GeneralSpec Factories BorderProofs GeneralProofs CarveHull Reference ReferenceProofs
  PropertiesContours PropertiesGeneral.
Import List ListNotations.
Local Open Scope Z_scope.

(** ** C93: a contour carved out of points in general position passes through every vertex of their convex hull;
    it has no more vertices than asked for, unless the hull has; asked for no more than that, it is the hull. *)
Theorem C93_contour_hull : forall ctx points size hull,
  (forall n, (2 <= n)%nat -> is_change n (ctx_coins ctx n)) ->
  NoDup points -> (3 <= length points)%nat -> in_general_position points ->
  (length points * length points + 4 * length points < Pos.to_nat (ctx_fuel ctx))%nat ->
  is_hull points hull -> (3 <= length hull)%nat ->
  exists vs, to_vertex_sequence ctx points size = Ok vs /\
    incl hull vs /\ lenZ vs <= Z.max (lenZ hull) size /\ (size <= lenZ hull -> convex_ccw vs /\ incl vs hull).
Proof.
  exact (fun ctx points size hull coins N L G F H H3 => carve_hull ctx points size hull coins N L (proj1 (general_no_three points) G) F H H3).
Qed.
Print Assumptions C93_contour_hull.
(** ** The same of the border of a polygon, with or without holes. *)
Theorem C93_border_hull : forall ctx points size sizes choices p hull,
  (forall n, (2 <= n)%nat -> is_change n (ctx_coins ctx n)) -> (forall l s, l <> [] -> is_nearest l s (ctx_nearest ctx l s)) ->
  NoDup points -> (3 <= length points)%nat -> in_general_position points ->
  (forall s, In s sizes -> 1 <= s) -> to_polygon ctx points size sizes choices = Ok p ->
  is_hull points hull -> (3 <= length hull)%nat ->
  incl hull (border p) /\ lenZ (border p) <= Z.max (lenZ hull) size /\ (size <= lenZ hull -> convex_ccw (border p) /\ incl (border p) hull).
Proof.
  exact (fun ctx points size sizes choices p hull coins near N L G Hs E H H3 =>
    border_hull ctx points size sizes choices p hull coins near N L (proj1 (general_no_three points) G) Hs E H H3).
Qed.
Print Assumptions C93_border_hull.
(** Seven points, four of them on the hull: the other hypotheses hold by C63_occur. *)
Example C93_occur : contracts reference /\ is_hull seven (ctx_hull reference seven) /\ length (ctx_hull reference seven) = 4%nat /\
  map (fun size => match to_vertex_sequence reference seven size with Ok vs => lenZ vs | Raise _ => -1 end) [3; 4; 5; 7] = [4; 4; 5; 7] /\
  map (fun size => match to_polygon reference seven size [] [] with Ok p => lenZ (border p) | Raise _ => -1 end) [3; 5; 7] = [4; 5; 7] /\
  exists p, to_polygon reference seven 4 [3] [true] = Ok p /\ length (holes p) = 1%nat.
Proof.
  split; [split; [intros n; apply reference_coins|intros l s; apply reference_nearest]|]. split; [apply reference_hull|].
  split; [vm_compute; reflexivity|]. split; [vm_compute; reflexivity|]. split; [vm_compute; reflexivity|].
  destruct (to_polygon reference seven 4 [3] [true]) as [p|e] eqn:E; [|vm_compute in E; discriminate]. exists p. split; [reflexivity|].
  assert (K : match to_polygon reference seven 4 [3] [true] with Ok p => length (holes p) | Raise _ => 0%nat end = 1%nat) by (vm_compute; reflexivity).
  rewrite E in K. exact K.
Qed.
