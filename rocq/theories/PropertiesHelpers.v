(** C37, C38, C45-C48: the grid of points and the pure helpers. *)
From Coq Require Import Znumtheory Sorted.
From Verif Require Import Base Prog Geometry Ctx Utils Contracts Factories Strategies Spec ProgProofs
  PrimeProofs GridProofs CompressProofs HelperProofs.
Local Open Scope Z_scope.

(** ** C37: the point grid.  Exact description of what the grid strategy generates. *)
Theorem C37_grid_exact : forall xs ys mn mx l,
  generates (to_point_sequence_in_general_position_strategy xs ys mn mx) l <->
  3 <= mn /\
  exists lower xl yl p scale by_x,
    smallest_prime_above mn lower
    /\ StronglySorted Qclt xl /\ StronglySorted Qclt yl
    /\ size_ok (lenZ xl) lower (match mx with None => None | Some m => Some (Z.max m lower) end)
    /\ size_ok (lenZ yl) lower (match mx with None => None | Some m => Some (Z.max m lower) end)
    /\ (forall x, In x xl -> drawable xs x) /\ (forall y, In y yl -> drawable (ordinates xs ys) y)
    /\ largest_prime_below (Z.min (lenZ xl) (lenZ yl)) p
    /\ 0 < scale /\ ~ (p | scale)
    /\ l = grid_points xl yl p scale by_x.
Proof. exact grid_exact. Qed.
Print Assumptions C37_grid_exact.
(** Its points are distinct, one axis has every coordinate used once, and no row or column
    holds more than two points. *)
Theorem C37_grid_sparse : forall xs ys mn mx l,
  generates (to_point_sequence_in_general_position_strategy xs ys mn mx) l ->
  mn <= lenZ l /\ NoDup l /\ (NoDup (map px l) \/ NoDup (map py l))
  /\ at_most_twice px l /\ at_most_twice py l /\ forall q, In q l -> drawable_point xs ys q.
Proof. exact grid_sparse_spec. Qed.
Print Assumptions C37_grid_sparse.
(** Nothing of the grid construction can raise (in particular not its sparsity assertion): what
    is raised comes from drawing the coordinates. *)
Theorem C37_grid_never_fails : forall xs ys mn mx e, 3 <= mn ->
  can_raise (to_point_sequence_in_general_position_strategy xs ys mn mx) e ->
  exists lower, to_next_prime mn = Ok lower /\
  let upper := match mx with None => None | Some m => Some (Z.max m lower) end in
  (can_raise (unique_scalars xs lower upper) e \/ can_raise (unique_scalars (ordinates xs ys) lower upper) e).
Proof. exact grid_raises. Qed.
Print Assumptions C37_grid_never_fails.
Definition digits : scalars := Sampled (map Qc_of_Z [0; 1; 2; 3; 4; 5; 6]).
Example C37_occurs :
  let l := map (fun xy => Pt (Qc_of_Z (fst xy)) (Qc_of_Z (snd xy)))
               [(0, 0); (1, 3); (2, 5); (3, 6); (4, 6); (5, 5); (6, 3)] in
  generates (to_point_sequence_in_general_position_strategy digits None 6 None) l.
Proof.
  apply (ProgProofs.run_sound _ [7; 0; 1; 2; 3; 4; 5; 6; 7; 6; 5; 4; 3; 2; 1; 0; 0; 0; 3]).
  vm_compute. reflexivity.
Qed.

(** ** C38: the prime helpers. *)
Theorem C38_to_next_prime : forall v, 3 <= v ->
  exists p, to_next_prime v = Ok p /\ smallest_prime_above v p.
Proof. exact next_prime_spec. Qed.
Print Assumptions C38_to_next_prime.
Theorem C38_to_prior_prime : forall v, 5 <= v ->
  exists p, to_prior_prime v = Ok p /\ largest_prime_below v p.
Proof. exact prior_prime_spec. Qed.
Print Assumptions C38_to_prior_prime.
(** The small values: 3 is not recognised as a prime. *)
Theorem C38_small_values :
  to_next_prime 3 = Ok 5 /\ to_next_prime 4 = Ok 5 /\ to_prior_prime 3 = Ok 1 /\ to_prior_prime 4 = Ok 1
  /\ forall v, v <= 2 -> to_next_prime v = Raise AssertionError /\ to_prior_prime v = Raise AssertionError.
Proof. exact small_primes. Qed.
Print Assumptions C38_small_values.
Example C38_occurs : to_next_prime 24 = Ok 29 /\ to_prior_prime 28 = Ok 23.
Proof. split; reflexivity. Qed.

(** ** C45: [compress_contour]. *)
Theorem C45_compress_contour : forall vs, NoDup vs ->
  subsequence (compress_contour vs) vs
  /\ NoDup (compress_contour vs)
  /\ ((length (compress_contour vs) <= 2)%nat \/ strict (compress_contour vs))
  /\ doubled_area (compress_contour vs) = doubled_area vs.
Proof. exact compress_spec. Qed.
Print Assumptions C45_compress_contour.
Theorem C45_compress_contour_unchanged : forall vs, strict vs -> compress_contour vs = vs.
Proof. exact compress_unchanged. Qed.
Print Assumptions C45_compress_contour_unchanged.
(** Distinctness is needed: with a repeated vertex a straight angle may be left. *)
Definition pt (x y : Z) : point := Pt (Qc_of_Z x) (Qc_of_Z y).
Theorem C45_compress_contour_repeated_refuted : exists vs,
  (3 <= length (compress_contour vs))%nat /\ ~ strict (compress_contour vs).
Proof.
  exists [pt 2 2; pt 1 1; pt 2 2; pt 1 2; pt 0 1; pt 2 0; pt 1 2]. split; [vm_compute; lia|].
  rewrite <- HelperProofs.vertices_strict_spec. vm_compute. discriminate.
Qed.
Print Assumptions C45_compress_contour_repeated_refuted.
Example C45_occurs :
  compress_contour [pt 0 0; pt 1 0; pt 2 0; pt 2 2; pt 1 1] = [pt 2 0; pt 2 2; pt 0 0] \/
  compress_contour [pt 0 0; pt 1 0; pt 2 0; pt 2 2; pt 1 1] = [pt 0 0; pt 2 0; pt 2 2].
Proof. right. vm_compute. reflexivity. Qed.

(** ** C46: [angle_contains_point]. *)
Theorem C46_angle_contains_point : forall vertex first second p, ~ collinear vertex first second ->
  (angle_contains_point vertex first second p = true <-> p <> vertex /\ in_angle vertex first second p).
Proof. exact angle_contains_spec. Qed.
Print Assumptions C46_angle_contains_point.
Example C46_occurs : ~ collinear (pt 0 0) (pt 2 0) (pt 0 2)
  /\ angle_contains_point (pt 0 0) (pt 2 0) (pt 0 2) (pt 1 3) = true
  /\ angle_contains_point (pt 0 0) (pt 2 0) (pt 0 2) (pt (-1) 3) = false.
Proof. split; [intros H; apply (f_equal (fun q : Qc => qeqb q (Q2Qc 0))) in H; vm_compute in H; discriminate|]. split; vm_compute; reflexivity. Qed.

(** ** C47: the extremity predicates. *)
Theorem C47_has_vertical_leftmost_segment : forall l b, has_vertical_leftmost_segment l = Ok b ->
  (b = true <-> exists s, In s l /\ px (seg_start s) = px (seg_end s) /\
    forall t, In t l -> (px (seg_start t) <= px (seg_start s))%Qc \/ (px (seg_end t) <= px (seg_start s))%Qc).
Proof. exact vertical_leftmost_spec. Qed.
Print Assumptions C47_has_vertical_leftmost_segment.
Theorem C47_has_horizontal_lowermost_segment : forall l b, has_horizontal_lowermost_segment l = Ok b ->
  (b = true <-> exists s, In s l /\ py (seg_start s) = py (seg_end s) /\
    forall t, In t l -> (py (seg_start t) <= py (seg_start s))%Qc \/ (py (seg_end t) <= py (seg_start s))%Qc).
Proof. exact horizontal_lowermost_spec. Qed.
Print Assumptions C47_has_horizontal_lowermost_segment.
Theorem C47_vertical_false : forall l, has_vertical_leftmost_segment l = Ok false ->
  forall c, (forall t, In t l -> (px (seg_start t) <= c)%Qc /\ (px (seg_end t) <= c)%Qc) ->
  forall s, In s l -> px (seg_start s) <> c \/ px (seg_end s) <> c.
Proof. exact vertical_leftmost_false. Qed.
Print Assumptions C47_vertical_false.
Theorem C47_horizontal_false : forall l, has_horizontal_lowermost_segment l = Ok false ->
  forall c, (forall t, In t l -> (py (seg_start t) <= c)%Qc /\ (py (seg_end t) <= c)%Qc) ->
  forall s, In s l -> py (seg_start s) <> c \/ py (seg_end s) <> c.
Proof. exact horizontal_lowermost_false. Qed.
Print Assumptions C47_horizontal_false.
Theorem C47_raise : forall l e,
  (has_vertical_leftmost_segment l = Raise e <-> l = [] /\ e = ValueError)
  /\ (has_horizontal_lowermost_segment l = Raise e <-> l = [] /\ e = ValueError).
Proof. exact (fun l e => conj (vertical_leftmost_raise l e) (horizontal_lowermost_raise l e)). Qed.
Print Assumptions C47_raise.
Example C47_occurs :
  has_vertical_leftmost_segment [Seg (pt 0 0) (pt 1 1); Seg (pt 1 2) (pt 1 1)] = Ok true
  /\ has_vertical_leftmost_segment [Seg (pt 0 0) (pt 0 2); Seg (pt 1 0) (pt 3 1)] = Ok false
  /\ has_horizontal_lowermost_segment [Seg (pt 0 0) (pt 1 1); Seg (pt 2 1) (pt 1 1)] = Ok true.
Proof. repeat split; vm_compute; reflexivity. Qed.

(** ** C48: helpers. *)
Theorem C48_ceil_log2 : forall n, 1 <= n ->
  0 <= ceil_log2 n /\ n <= 2 ^ ceil_log2 n /\ forall k, 0 <= k -> n <= 2 ^ k -> ceil_log2 n <= k.
Proof. exact ceil_log2_spec. Qed.
Print Assumptions C48_ceil_log2.
Theorem C48_cut : forall A (l : list A) n, 0 <= n ->
  exists rest, l = cut l n ++ rest /\ lenZ (cut l n) = Z.min n (lenZ l).
Proof. exact @cut_spec. Qed.
Print Assumptions C48_cut.
Theorem C48_pairwise : forall A (l : list A) i a b,
  nth_error (pairwise l) i = Some (a, b) <-> nth_error l i = Some a /\ nth_error l (S i) = Some b.
Proof. exact @pairwise_nth. Qed.
Print Assumptions C48_pairwise.
Theorem C48_sort_pair : forall (a b : Qc) (reverse : bool),
  let '(c, d) := sort_pair qltb (a, b) reverse in
  ((c, d) = (a, b) \/ (c, d) = (b, a)) /\ (if reverse then (d <= c)%Qc else (c <= d)%Qc).
Proof. exact sort_pair_spec. Qed.
Print Assumptions C48_sort_pair.
Example C48_occurs : ceil_log2 1 = 0 /\ ceil_log2 5 = 3 /\ ceil_log2 8 = 3 /\ ceil_log2 9 = 4
  /\ cut [1; 2; 3] 2 = [1; 2] /\ pairwise [1; 2; 3] = [(1, 2); (2, 3)].
Proof. repeat split; reflexivity. Qed.
