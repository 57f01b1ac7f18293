(** A grid of any prime number of points, in general position, with only three points on its hull. *)
From Coq Require Import List Lia Znumtheory Sorted.
From Verif Require Import Base Prog Geometry Ctx Utils Spec GeneralSpec HullSpec CountSpec Strategies ProgProofs PrimeProofs GridProofs QcTac QcFast GeomProofs
  HullProofs GeneralCoordinates SizeGrid DelContour GeneralProofs.
Import List ListNotations.
Open Scope Z_scope.

(** A point strictly inside a triangle of the list is not on the boundary of the hull. *)
Lemma inside_hull l a b c v : In a l -> In b l -> In c l -> (0 < cross a b v)%Qc -> (0 < cross b c v)%Qc -> (0 < cross c a v)%Qc -> ~ on_hull_boundary l v.
Proof.
  intros Ia Ib Ic L1 L2 L3 (_ & dx & dy & Nz & H). pose proof (H a Ia) as Ha. pose proof (H b Ib) as Hb. pose proof (H c Ic) as Hc. clear H.
  set (fa := (dx * px v + dy * py v - (dx * px a + dy * py a))%Qc). set (fb := (dx * px v + dy * py v - (dx * px b + dy * py b))%Qc). set (fc := (dx * px v + dy * py v - (dx * px c + dy * py c))%Qc).
  assert (Fa : (0 <= fa)%Qc) by (unfold fa; ql). assert (Fb : (0 <= fb)%Qc) by (unfold fb; ql). assert (Fc : (0 <= fc)%Qc) by (unfold fc; ql).
  assert (E : (cross b c v * fa + cross c a v * fb + cross a b v * fc = 0)%Qc) by (unfold fa, fb, fc, cross; ring).
  assert (P : forall s t, (0 < s -> 0 <= t -> 0 <= s * t)%Qc) by (intros; qcn).
  assert (Q : forall s t, (0 < s -> s * t = 0 -> t = 0)%Qc).
  { intros s t Hs Hst. apply Qcmult_integral in Hst. destruct Hst as [Z|Z]; [rewrite Z in Hs; discriminate|exact Z]. }
  pose proof (P _ _ L2 Fa) as P1. pose proof (P _ _ L3 Fb) as P2. pose proof (P _ _ L1 Fc) as P3.
  assert (Za : fa = 0%Qc) by (apply (Q (cross b c v)); [exact L2|]; generalize dependent (cross b c v * fa)%Qc; generalize dependent (cross c a v * fb)%Qc; generalize dependent (cross a b v * fc)%Qc; intros; ql).
  assert (Zb : fb = 0%Qc) by (apply (Q (cross c a v)); [exact L3|]; generalize dependent (cross b c v * fa)%Qc; generalize dependent (cross c a v * fb)%Qc; generalize dependent (cross a b v * fc)%Qc; intros; ql).
  assert (X : (cross a b v * dx = 0)%Qc).
  { replace (cross a b v * dx)%Qc with (fb * (py a - py v) - fa * (py b - py v))%Qc by (unfold fa, fb, cross; ring). rewrite Za, Zb. ring. }
  assert (Y : (cross a b v * dy = 0)%Qc).
  { replace (cross a b v * dy)%Qc with (fa * (px b - px v) - fb * (px a - px v))%Qc by (unfold fa, fb, cross; ring). rewrite Za, Zb. ring. }
  apply Q in X; [|exact L1]. apply Q in Y; [|exact L1]. destruct Nz; contradiction.
Qed.

Lemma zrange_sorted f n : (forall i j, 0 <= i < j -> j < n -> f i < f j) -> StronglySorted Qclt (map (fun i => Qc_of_Z (f i)) (zrange n)).
Proof.
  intros H. unfold zrange. assert (K : forall k a, (a + k <= Z.to_nat n)%nat -> StronglySorted Qclt (map (fun i => Qc_of_Z (f i)) (map Z.of_nat (seq a k)))).
  { induction k as [|k IH]; intros a Ha; cbn [seq map]; constructor; [apply IH; lia|]. apply Forall_forall. intros x Hx. apply in_map_iff in Hx. destruct Hx as (i & <- & Hi).
    apply in_map_iff in Hi. destruct Hi as (m & <- & Hm). apply in_seq in Hm. apply Qc_of_Z_lt. apply H; lia. }
  apply K. lia.
Qed.
Lemma zrange_nth f n i : 0 <= i < n -> nth_coordinate (map (fun i => Qc_of_Z (f i)) (zrange n)) i = Qc_of_Z (f i).
Proof.
  intros Hi. unfold nth_coordinate. rewrite (nth_indep _ (Q2Qc 0) (Qc_of_Z (f (Z.of_nat 0)))) by (rewrite map_length, zrange_length; lia).
  unfold zrange. rewrite map_map. rewrite (map_nth (fun i => Qc_of_Z (f (Z.of_nat i)))). rewrite seq_nth by lia. f_equal. f_equal. lia.
Qed.

Section Grid.
Context (p o : Z) (Hp : prime p) (H5 : 5 <= p).
Definition height (j : Z) : Z := (p + 1) ^ p - (p + 1) ^ (p - j).
Definition index (i : Z) : Z := ((p - 1) * (i * i)) mod p.
Definition abscissas : list Qc := map (fun i => Qc_of_Z (o + i)) (zrange p).
Definition heights : list Qc := map (fun j => Qc_of_Z (height j)) (zrange p).
Definition flat_points : list point := grid_points abscissas heights p (p - 1) true.
Definition corner_a := Pt (Qc_of_Z o) (Qc_of_Z (height 0)).
Definition corner_b := Pt (Qc_of_Z (o + (p - 1))) (Qc_of_Z (height (p - 1))).
Definition corner_c := Pt (Qc_of_Z (o + 1)) (Qc_of_Z (height (p - 1))).

Lemma index_range i : 0 <= index i < p.
Proof. apply Z.mod_pos_bound. lia. Qed.
Lemma in_flat q : In q flat_points <-> exists i, 0 <= i < p /\ q = Pt (Qc_of_Z (o + i)) (Qc_of_Z (height (index i))).
Proof.
  unfold flat_points, grid_points. rewrite in_map_iff. split.
  - intros (i & <- & Hi). apply in_zrange in Hi. exists i. split; [exact Hi|]. unfold abscissas, heights. fold (index i).
    rewrite (zrange_nth (fun i => o + i)) by exact Hi. rewrite zrange_nth by apply index_range. reflexivity.
  - intros (i & Hi & ->). exists i. split; [|apply in_zrange; exact Hi]. unfold abscissas, heights. fold (index i).
    rewrite (zrange_nth (fun i => o + i)) by exact Hi. rewrite zrange_nth by apply index_range. reflexivity.
Qed.
Lemma flat_length : lenZ flat_points = p.
Proof. unfold lenZ, flat_points, grid_points. rewrite !map_length, seq_length. lia. Qed.
Lemma height_lt i j : 0 <= i < j -> j <= p -> height i < height j.
Proof. intros Hi Hj. unfold height. assert ((p + 1) ^ (p - j) < (p + 1) ^ (p - i)) by (apply Z.pow_lt_mono_r; lia). lia. Qed.
Lemma height_0 : height 0 = 0.
Proof. unfold height. rewrite Z.sub_0_r. lia. Qed.
Lemma height_nonneg j : 0 <= j <= p -> 0 <= height j.
Proof. intros Hj. destruct (Z.eq_dec j 0) as [->|N]; [rewrite height_0; lia|]. pose proof (height_lt 0 j ltac:(lia) ltac:(lia)). rewrite height_0 in H. lia. Qed.
Lemma abscissas_sorted : StronglySorted Qclt abscissas.
Proof. apply (zrange_sorted (fun i => o + i)). intros; lia. Qed.
Lemma heights_sorted : StronglySorted Qclt heights.
Proof. apply zrange_sorted. intros i j Hi Hj. apply height_lt; lia. Qed.
Lemma flat_generated xs ys mn mx : (forall x, In x abscissas -> drawable xs x) -> (forall y, In y heights -> drawable (ordinates xs ys) y) ->
  3 <= mn -> mn <= p -> (forall m, mx = Some m -> p <= m \/ smallest_prime_above mn p) ->
  generates (to_point_sequence_in_general_position_strategy xs ys mn mx) flat_points.
Proof.
  intros Dx Dy H3 Hm Hx. apply grid_exact. split; [exact H3|]. destruct (next_prime_spec mn H3) as (lower & _ & Sl).
  exists lower, abscissas, heights, p, (p - 1), true. split; [exact Sl|]. split; [apply abscissas_sorted|]. split; [apply heights_sorted|].
  assert (La : lenZ abscissas = p) by (unfold lenZ, abscissas; rewrite map_length, zrange_length; lia).
  assert (Lh : lenZ heights = p) by (unfold lenZ, heights; rewrite map_length, zrange_length; lia).
  assert (Sz : size_ok p lower (match mx with None => None | Some m => Some (Z.max m lower) end)).
  { assert (Le : lower <= p) by (apply Sl; [exact Hp|lia|exact Hm]). split; [exact Le|]. intros m E. destruct mx as [m'|]; [|discriminate]. injection E as <-.
    destruct (Hx m' eq_refl) as [K|K]; [lia|]. assert (p <= lower) by (apply K; apply Sl). lia. }
  rewrite La, Lh. split; [exact Sz|]. split; [exact Sz|]. split; [exact Dx|]. split; [exact Dy|].
  split; [rewrite Z.min_id; split; [exact Hp|]; split; [lia|intros; lia]|]. split; [lia|]. split; [|reflexivity].
  apply (scale_coprime p 0); lia.
Qed.
Lemma flat_general : general_coordinates (Sampled abscissas) (Some (Sampled heights)).
Proof.
  set (mirror := map (fun j => Qc_of_Z ((p + 1) ^ (p - j))) (zrange p)). set (top := Qc_of_Z ((p + 1) ^ p)).
  assert (G : general_coordinates (Sampled (map Qc_of_Z (zrange p))) (Some (Sampled mirror))).
  { apply (powers_general _ _ (p - 1)); [lia| |].
    - intros x D. apply gen_sampled_from, in_map_iff in D. destruct D as (i & <- & Hi). apply in_zrange in Hi. exists i. split; [reflexivity|lia].
    - intros y D. apply gen_sampled_from, in_map_iff in D. destruct D as (j & <- & Hj). apply in_zrange in Hj. exists (p - j). split; [lia|]. f_equal. f_equal. lia. }
  set (f := fun q : point => Pt (px q - Qc_of_Z o) (top - py q)%Qc).
  assert (D : forall q, drawable_point (Sampled abscissas) (Some (Sampled heights)) q -> drawable_point (Sampled (map Qc_of_Z (zrange p))) (Some (Sampled mirror)) (f q)).
  { intros q (D1 & D2). split.
    { apply gen_sampled_from in D1. apply gen_sampled_from. apply in_map_iff in D1. destruct D1 as (i & E & Hi). apply in_map_iff. exists i. split; [|exact Hi].
      cbn [f px]. rewrite <- E, Qc_of_Z_sub. f_equal. lia. }
    apply gen_sampled_from in D2. apply gen_sampled_from. apply in_map_iff in D2. destruct D2 as (j & E & Hj).
    apply in_map_iff. exists j. split; [|exact Hj]. cbn [f py]. rewrite <- E. unfold top, height. rewrite Qc_of_Z_sub. f_equal. lia. }
  assert (Inj : forall q r, f q = f r -> q = r).
  { intros [x y] [x' y'] E. pose proof (f_equal px E) as E1. pose proof (f_equal py E) as E2. cbn [f px py] in E1, E2. f_equal; [assert (K : (x = x - Qc_of_Z o + Qc_of_Z o)%Qc) by ring; rewrite K, E1; ring|]. assert (K : (y = top - (top - y))%Qc) by ring. rewrite K, E2. ring. }
  intros a b c Da Db Dc n1 n2 n3 L.
  assert (Lf : collinear (f a) (f b) (f c)).
  { unfold collinear in *. replace (cross (f a) (f b) (f c)) with (- cross a b c)%Qc by (unfold cross, f; cbn [px py]; ring). rewrite L. reflexivity. }
  destruct (G (f a) (f b) (f c) (D a Da) (D b Db) (D c Dc) (fun E => n1 (Inj _ _ E)) (fun E => n2 (Inj _ _ E)) (fun E => n3 (Inj _ _ E)) Lf) as [(e1 & e2)|(e1 & e2)].
  - left. cbn [f px] in e1, e2. split; [assert (K : (px a = px a - Qc_of_Z o + Qc_of_Z o)%Qc) by ring; rewrite K, e1; ring|assert (K : (px b = px b - Qc_of_Z o + Qc_of_Z o)%Qc) by ring; rewrite K, e2; ring].
  - right. cbn [f py] in e1, e2. split; [assert (K : (py a = top - (top - py a))%Qc) by ring; rewrite K, e1; ring|assert (K : (py b = top - (top - py b))%Qc) by ring; rewrite K, e2; ring].
Qed.
Lemma flat_three : NoDup flat_points /\ no_three flat_points.
Proof.
  assert (G : generates (to_point_sequence_in_general_position_strategy (Sampled abscissas) (Some (Sampled heights)) 3 None) flat_points).
  { apply flat_generated; [| |lia|lia|discriminate]; intros x Hx; apply gen_sampled_from; exact Hx. }
  split; [apply (grid_sparse_spec _ _ _ _ _ G)|]. eapply GeneralProofs.grid_general; [apply flat_general|exact G].
Qed.
Lemma index_zero i : 0 <= i < p -> index i = 0 -> i = 0.
Proof.
  intros Hi E. unfold index in E. apply Z.mod_divide in E; [|lia]. apply prime_mult in E; [|exact Hp]. destruct E as [E|E].
  - exfalso. apply (scale_coprime p 0 (p - 1)); [lia|lia|exact E].
  - apply prime_mult in E; [|exact Hp]. apply (small_divide p i); [lia|lia|tauto].
Qed.
Lemma index_top i : 0 <= i < p -> index i = p - 1 -> i = 1 \/ i = p - 1.
Proof.
  intros Hi E. unfold index in E. assert (D : (p | (i - 1) * (i + 1))).
  { pose proof (Z.div_mod ((p - 1) * (i * i)) p ltac:(lia)) as M. rewrite E in M. exists (i * i - ((p - 1) * (i * i) / p) - 1). lia. }
  apply prime_mult in D; [|exact Hp]. destruct D as [D|D].
  - left. assert (i - 1 = 0) by (apply (small_divide p); [lia|lia|exact D]). lia.
  - right. destruct D as (z & D). assert (0 < z) by nia. assert (z < 2) by nia. assert (z = 1) by lia. subst z. lia.
Qed.
Lemma index_one : index 1 = p - 1.
Proof. unfold index. rewrite Z.mul_1_r. apply Z.mod_small. lia. Qed.
Lemma index_last : index (p - 1) = p - 1.
Proof. unfold index. replace ((p - 1) * ((p - 1) * (p - 1))) with (p - 1 + (p * p - 3 * p + 2) * p) by ring. rewrite Z_mod_plus_full. apply Z.mod_small. lia. Qed.
Lemma corners_in : In corner_a flat_points /\ In corner_b flat_points /\ In corner_c flat_points.
Proof.
  split; [|split]; apply in_flat.
  - exists 0. split; [lia|]. unfold corner_a. rewrite Z.add_0_r. do 3 f_equal. unfold index. rewrite Z.mul_0_r. reflexivity.
  - exists (p - 1). split; [lia|]. unfold corner_b. rewrite index_last. reflexivity.
  - exists 1. split; [lia|]. unfold corner_c. rewrite index_one. reflexivity.
Qed.
Lemma cross_int a b c d e f : cross (Pt (Qc_of_Z a) (Qc_of_Z b)) (Pt (Qc_of_Z c) (Qc_of_Z d)) (Pt (Qc_of_Z e) (Qc_of_Z f)) = Qc_of_Z ((c - a) * (f - b) - (d - b) * (e - a)).
Proof. unfold cross. cbn [px py]. rewrite !Qc_of_Z_sub, !Qc_of_Z_mul, Qc_of_Z_sub. reflexivity. Qed.
Lemma flat_inside v : In v flat_points -> v = corner_a \/ v = corner_b \/ v = corner_c \/ (0 < cross corner_a corner_b v)%Qc /\ (0 < cross corner_b corner_c v)%Qc /\ (0 < cross corner_c corner_a v)%Qc.
Proof.
  intros I. apply in_flat in I. destruct I as (i & Hi & ->).
  destruct (Z.eq_dec i 0) as [->|N0]; [left; unfold corner_a; rewrite Z.add_0_r; do 3 f_equal; unfold index; rewrite Z.mul_0_r; reflexivity|].
  destruct (Z.eq_dec i (p - 1)) as [->|N1]; [right; left; rewrite index_last; reflexivity|].
  destruct (Z.eq_dec i 1) as [->|N2]; [right; right; left; rewrite index_one; reflexivity|]. right; right; right.
  pose proof (index_range i) as R. assert (R0 : index i <> 0) by (intros E; apply N0, index_zero; assumption).
  assert (R1 : index i <> p - 1) by (intros E; destruct (index_top i Hi E); contradiction).
  set (j := index i) in *. unfold corner_a, corner_b, corner_c. rewrite !cross_int, height_0.
  assert (T : height j < height (p - 1)) by (apply height_lt; lia). assert (T1 : height 1 <= height j) by (destruct (Z.eq_dec j 1) as [->|]; [lia|]; apply Z.lt_le_incl, height_lt; lia).
  assert (L : (p - 2) * height (p - 1) < (p - 1) * height 1).
  { unfold height. replace (p - (p - 1)) with 1 by lia. rewrite Z.pow_1_r. replace ((p + 1) ^ p) with ((p + 1) * (p + 1) ^ (p - 1)) by (rewrite <- Z.pow_succ_r by lia; f_equal; lia).
    assert (0 < (p + 1) ^ (p - 1)) by (apply Z.pow_pos_nonneg; lia). nia. }
  pose proof (height_nonneg 1 ltac:(lia)). pose proof (height_nonneg j ltac:(lia)).
  change (Q2Qc 0) with (Qc_of_Z 0).
  split; [|split]; apply Qc_of_Z_lt.
  - nia.
  - nia.
  - nia.
Qed.
Lemma flat_hull v : on_hull_boundary flat_points v -> In v [corner_a; corner_b; corner_c].
Proof.
  intros H. destruct corners_in as (Ia & Ib & Ic). destruct (flat_inside v (proj1 H)) as [->|[->|[->|(L1 & L2 & L3)]]]; [left; reflexivity|right; left; reflexivity|right; right; left; reflexivity|].
  exfalso. exact (inside_hull _ _ _ _ _ Ia Ib Ic L1 L2 L3 H).
Qed.
End Grid.
