(** Vocabulary of the property theorems.  Nothing here models code: these definitions say,
    as directly as possible, what the English properties talk about. *)
From Coq Require Import String Znumtheory.
From Verif Require Import Base Prog Geometry.

(** [n] is at least the minimum and at most the maximum, if there is one. *)
Definition size_ok (n : Z) (min_size : Z) (max_size : option Z) : Prop :=
  (min_size <= n)%Z /\ forall m, max_size = Some m -> (n <= m)%Z.

(** A pair of size arguments that must be refused: the maximum is given, and it is below the
    smallest legal size, or below the minimum, or the minimum is negative. *)
Definition bad_sizes (min_size : Z) (max_size : option Z) (legal : Z) : Prop :=
  exists m, max_size = Some m /\ (m < legal \/ m < min_size \/ min_size < 0)%Z.

(** The warned arguments are exactly those whose minimum is below the smallest legal size,
    each once; [args] lists (argument name, its minimum, the smallest legal size). *)
Definition warned_exactly (warned : list string) (args : list (string * Z * Z)) : Prop :=
  NoDup warned /\
  forall name, In name warned <-> exists mn legal, In (name, mn, legal) args /\ (mn < legal)%Z.

(** The scalar can be drawn from the strategy; the missing strategy of the ordinates means
    the strategy of the abscissas. *)
Definition drawable (s : scalars) (q : Qc) : Prop := generates (draw_scalar s) q.
Definition ordinates (xs : scalars) (ys : option scalars) : scalars :=
  match ys with None => xs | Some s => s end.
Definition drawable_point (xs : scalars) (ys : option scalars) (p : point) : Prop :=
  drawable xs (px p) /\ drawable (ordinates xs ys) (py p).
(** The scalar lies between two values that can be drawn. *)
Definition in_drawable_range (s : scalars) (q : Qc) : Prop :=
  exists lo hi, drawable s lo /\ drawable s hi /\ (lo <= q)%Qc /\ (q <= hi)%Qc.

(** ** Plane geometry.  [cross a b c] is positive iff [a, b, c] turn left. *)
Definition left_turn (a b c : point) : Prop := (0 < cross a b c)%Qc.
Definition right_turn (a b c : point) : Prop := (cross a b c < 0)%Qc.
Definition collinear (a b c : point) : Prop := cross a b c = Q2Qc 0.

(** [p] on the closed segment [a b]; [p] on it but not at its ends. *)
Definition on_segment (p a b : point) : Prop :=
  exists t : Qc, (0 <= t)%Qc /\ (t <= 1)%Qc /\
    px p = (px a + t * (px b - px a))%Qc /\ py p = (py a + t * (py b - py a))%Qc.
Definition inside (p a b : point) : Prop := on_segment p a b /\ p <> a /\ p <> b.
(** Two segments cross or overlap iff they have a common point that is not an end of either. *)
Definition interiors_meet (s t : segment) : Prop :=
  exists p, inside p (seg_start s) (seg_end s) /\ inside p (seg_start t) (seg_end t).

Definition pairwise_apart (l : list segment) : Prop :=
  forall i j s t, nth_error l i = Some s -> nth_error l j = Some t -> i <> j -> ~ interiors_meet s t.

(** ** Contours: cyclic lists of vertices. *)
Definition contour_edge (vs : contour) (a b : point) : Prop :=
  exists i, nth_error vs i = Some a /\ nth_error vs (S i mod length vs) = Some b.
Definition contour_turn (vs : contour) (a b c : point) : Prop :=
  exists i, nth_error vs i = Some a /\ nth_error vs (S i mod length vs) = Some b
            /\ nth_error vs (S (S i) mod length vs) = Some c.
(** No three consecutive vertices are collinear. *)
Definition strict (vs : contour) : Prop :=
  forall a b c, contour_turn vs a b c -> ~ collinear a b c.
(** The same, except for the angles at the first and at the last vertex. *)
Definition inner_strict (vs : contour) : Prop :=
  forall i a b c, nth_error vs i = Some a -> nth_error vs (S i) = Some b -> nth_error vs (S (S i)) = Some c ->
    ~ collinear a b c.
(** Strictly convex, listed counterclockwise. *)
Definition convex_ccw (vs : contour) : Prop :=
  3 <= length vs /\ NoDup vs /\
  forall a b, contour_edge vs a b -> forall c, In c vs -> c <> a -> c <> b -> left_turn a b c.
(** Different edges do not cross or overlap, and vertices are met only once. *)
Definition simple (vs : contour) : Prop :=
  NoDup vs /\
  forall a b c d, contour_edge vs a b -> contour_edge vs c d -> (a, b) <> (c, d) ->
    ~ interiors_meet (Seg a b) (Seg c d).
(** [p] is on the boundary described by the contour. *)
Definition on_contour (p : point) (vs : contour) : Prop :=
  exists a b, contour_edge vs a b /\ on_segment p a b.
(** No edge of one contour crosses or overlaps an edge of the other. *)
Definition edges_apart (vs ws : contour) : Prop :=
  forall a b c d, contour_edge vs a b -> contour_edge ws c d ->
    ~ interiors_meet (Seg a b) (Seg c d).
(** The contours have at most one point in common. *)
Definition meet_at_most_once (vs ws : contour) : Prop :=
  forall p q, on_contour p vs -> on_contour p ws -> on_contour q vs -> on_contour q ws -> p = q.

(** [l] is obtained from [m] by leaving out elements. *)
Inductive subsequence {A} : list A -> list A -> Prop :=
| sub_nil : subsequence [] []
| sub_skip x l m : subsequence l m -> subsequence l (x :: m)
| sub_keep x l m : subsequence l m -> subsequence (x :: l) (x :: m).

(** [p] is in the closed angle spanned by the rays from [v] through [f] and [s]. *)
Definition in_angle (v f s p : point) : Prop :=
  exists a b : Qc, (0 <= a)%Qc /\ (0 <= b)%Qc /\
    px p = (px v + a * (px f - px v) + b * (px s - px v))%Qc /\
    py p = (py v + a * (py f - py v) + b * (py s - py v))%Qc.

(** No three elements of [l] have the same image by [f]. *)
Definition at_most_twice {A B} (f : A -> B) (l : list A) : Prop :=
  forall a b c, In a l -> In b l -> In c l -> f a = f b -> f a = f c -> a = b \/ a = c \/ b = c.
(** [p] is the largest prime that is at most [n]; the smallest prime above 3 that is at least
    [n]. *)
Definition largest_prime_below (n p : Z) : Prop :=
  prime p /\ (p <= n)%Z /\ forall q, prime q -> (q <= n)%Z -> (q <= p)%Z.
Definition smallest_prime_above (n p : Z) : Prop :=
  prime p /\ (3 < p)%Z /\ (n <= p)%Z /\ forall q, prime q -> (3 < q)%Z -> (n <= q)%Z -> (p <= q)%Z.

(** The grid of [p] points: point number [i] is at the [i]-th coordinate on one axis and at the
    ([scale * i^2] modulo [p])-th coordinate on the other. *)
Definition nth_coordinate (l : list Qc) (i : Z) : Qc := nth (Z.to_nat i) l (Q2Qc 0).
Definition grid_points (xl yl : list Qc) (p scale : Z) (by_x : bool) : list point :=
  map (fun i => if by_x then Pt (nth_coordinate xl i) (nth_coordinate yl ((scale * (i * i)) mod p))
                else Pt (nth_coordinate xl ((scale * (i * i)) mod p)) (nth_coordinate yl i))
      (map Z.of_nat (seq 0 (Z.to_nat p))).

(** What [ground]'s [points_convex_hull] is trusted to return: vertices of the given points,
    without repetition, such that no given point is strictly to the right of an edge and which,
    if there are at least three of them, form a strictly convex counterclockwise contour. *)
Definition is_hull (l h : list point) : Prop :=
  NoDup h /\ incl h l /\
  (forall a b, contour_edge h a b -> forall p, In p l -> ~ right_turn a b p) /\
  (3 <= length h -> convex_ccw h).

(** The segments have a common point. *)
Definition segments_touch (s t : segment) : Prop :=
  exists p, on_segment p (seg_start s) (seg_end s) /\ on_segment p (seg_start t) (seg_end t).
(** What [locus]'s [nearest_segment] is trusted to return: one of the segments, and one that has
    a common point with the given segment if there is such a segment. *)
Definition is_nearest (l : list segment) (s t : segment) : Prop :=
  In t l /\ ((exists t', In t' l /\ segments_touch t' s) -> segments_touch t s).
(** What [decision]'s [coin_change(n, {2, 3})] is trusted to return. *)
Definition is_change (n : nat) (coins : list nat) : Prop :=
  fold_right Nat.add 0 coins = n /\ forall c, In c coins -> c = 2 \/ c = 3.
