(** Star contours of a prime number of vertices: the points of a grid are not all in convex position. *)
From Coq Require Import Sorted Permutation Znumtheory.
From Verif Require Import Base Prog Geometry Ctx Utils Contracts Spec RangeSpec WindSpec GeneralSpec HullSpec Factories Strategies QcTac QcFast ProgProofs PrimeProofs
  GeomProofs CyclicProofs ListProofs SegmentProofs SimpleProofs GridProofs ConvexProofs CycEdge Planar PlanarProofs StarSpec StarProofs StarApi StarGeneral RelaxSpec.
Import List ListNotations.
Open Scope Z_scope.

(** ** Different positive numbers add up to as much as the first ones. *)
Definition zsum (l : list Z) : Z := fold_right Z.add 0 l.
Lemma zsum_app l r : zsum (l ++ r) = zsum l + zsum r.
Proof. induction l as [|a l IH]; cbn [zsum fold_right app] in *; [reflexivity|]. unfold zsum in *. lia. Qed.
Lemma large_member n l : NoDup l -> (forall z, In z l -> 0 < z) -> length l = S n -> exists z, In z l /\ Z.of_nat (S n) <= z.
Proof.
  intros N P L. destruct (Exists_dec (fun z => Z.of_nat (S n) <= z) l) as [H|H]; [intros z; destruct (Z_le_gt_dec (Z.of_nat (S n)) z); [left|right]; lia| |].
  { apply Exists_exists in H. exact H. }
  exfalso. assert (I : incl l (map (fun k => Z.of_nat (S k)) (seq 0 n))).
  { intros z Hz. apply in_map_iff. exists (Z.to_nat (z - 1)). pose proof (P z Hz). split; [lia|]. apply in_seq.
    assert (~ Z.of_nat (S n) <= z) by (intros Hl; apply H, Exists_exists; eauto). lia. }
  pose proof (NoDup_incl_length N I) as K. rewrite map_length, seq_length in K. lia.
Qed.
Lemma distinct_sum n : forall l, NoDup l -> (forall z, In z l -> 0 < z) -> length l = n -> Z.of_nat n * (Z.of_nat n + 1) <= 2 * zsum l.
Proof.
  induction n as [|n IH]; intros l N P L; [destruct l; [reflexivity|discriminate]|].
  destruct (large_member n l N P L) as (z & I & Hz). apply in_split in I. destruct I as (a & b & ->).
  specialize (IH (a ++ b) (NoDup_remove_1 _ _ _ N)). rewrite app_length in *. cbn [length] in L.
  specialize (IH ltac:(intros y Hy; apply P; rewrite in_app_iff in *; cbn [In]; tauto) ltac:(lia)).
  rewrite zsum_app in *. cbn [zsum fold_right] in *. change (fold_right Z.add 0 b) with (zsum b). lia.
Qed.

(** ** A multiple of the squares modulo a prime does not grow up to the middle. *)
Definition level (s p i : Z) : Z := (s * (i * i)) mod p.
Lemma level_bound s p i : 0 < p -> 0 <= level s p i < p.
Proof. intros H. apply Z.mod_pos_bound, H. Qed.
Lemma level_mirror s p i : p <> 0 -> level s p (p - i) = level s p i.
Proof.
  intros H. unfold level. replace (s * ((p - i) * (p - i))) with (s * (i * i) + (s * (p - 2 * i)) * p) by ring. apply Z.mod_add, H.
Qed.
Lemma level_zero s p : p <> 0 -> level s p 0 = 0.
Proof. intros H. unfold level. rewrite Z.mul_0_r. apply Z.mod_0_l, H. Qed.
Lemma level_positive s p i : prime p -> ~ (p | s) -> 0 < i < p -> 0 < level s p i.
Proof.
  intros P N H. pose proof (level_bound s p i ltac:(lia)) as B. assert (level s p i <> 0); [|lia]. intros E. apply Z.mod_divide in E; [|lia].
  apply prime_mult in E; [|exact P]. destruct E as [E|E]; [contradiction|]. apply prime_mult in E; [|exact P].
  destruct E as [E|E]; apply Z.divide_pos_le in E; lia.
Qed.
Lemma level_step s p i : p <> 0 -> (level s p (i + 1) - level s p i) mod p = (s * (2 * i + 1)) mod p.
Proof. intros H. unfold level. rewrite <- Zminus_mod. f_equal. ring. Qed.
Lemma level_falls s p : prime p -> 11 <= p -> ~ (p | s) -> exists i j, 0 < i < j /\ 2 * j < p /\ level s p j < level s p i.
Proof.
  intros P H11 N.
  destruct (Z.Even_or_Odd p) as [(m & Em)|(m & Em)].
  { exfalso. apply prime_alt in P. destruct P as (_ & P). apply (P 2); [lia|]. exists m. lia. }
  set (M := Z.to_nat m).
  (* search for a fall *)
  assert (D : (exists i, (i < M)%nat /\ level s p (Z.of_nat i + 1) < level s p (Z.of_nat i)) \/
              forall i, (i < M)%nat -> level s p (Z.of_nat i) <= level s p (Z.of_nat i + 1)).
  { clear. induction M as [|k IH]; [right; lia|]. destruct IH as [(i & Hi & L)|IH]; [left; exists i; split; [lia|exact L]|].
    destruct (Z_lt_le_dec (level s p (Z.of_nat k + 1)) (level s p (Z.of_nat k))) as [L|L]; [left; exists k; split; [lia|exact L]|].
    right. intros i Hi. assert (i = k \/ (i < k)%nat) as [-> |Hk] by lia; auto. }
  destruct D as [(i & Hi & L)|D].
  { exists (Z.of_nat i), (Z.of_nat i + 1). split; [|split; [lia|exact L]]. split; [|lia].
    destruct i; [|lia]. cbn in L. rewrite level_zero in L by lia. pose proof (level_bound s p 1 ltac:(lia)). lia. }
  exfalso. set (d := fun i => level s p (Z.of_nat i + 1) - level s p (Z.of_nat i)).
  assert (E : forall k, zsum (map d (seq 0 k)) = level s p (Z.of_nat k)).
  { induction k as [|k IH]; [cbn; rewrite level_zero by lia; reflexivity|]. rewrite seq_S, map_app, zsum_app, IH. cbn [map zsum fold_right plus].
    unfold d. replace (Z.of_nat (S k)) with (Z.of_nat k + 1) by lia. lia. }
  assert (Dm : forall i, (i < M)%nat -> d i mod p = d i).
  { intros i Hi. apply Z.mod_small. pose proof (D i Hi). unfold d. pose proof (level_bound s p (Z.of_nat i) ltac:(lia)). pose proof (level_bound s p (Z.of_nat i + 1) ltac:(lia)). lia. }
  assert (De : forall i, (i < M)%nat -> d i = (s * (2 * Z.of_nat i + 1)) mod p).
  { intros i Hi. rewrite <- (Dm i Hi). unfold d. apply level_step. lia. }
  assert (Nd : NoDup (map d (seq 0 M))).
  { apply NoDup_map_inj; [|apply seq_NoDup]. intros i j Hi Hj Ed. apply in_seq in Hi, Hj. rewrite !De in Ed by lia.
    assert (K : (p | s * (2 * (Z.of_nat i - Z.of_nat j)))).
    { apply Z.mod_divide; [lia|]. replace (s * (2 * (Z.of_nat i - Z.of_nat j))) with (s * (2 * Z.of_nat i + 1) - s * (2 * Z.of_nat j + 1)) by ring.
      rewrite Zminus_mod, Ed, Z.sub_diag. apply Z.mod_0_l. lia. }
    apply prime_mult in K; [|exact P]. destruct K as [K|K]; [contradiction|]. destruct K as (z & K). assert (z = 0) by nia. lia. }
  pose proof (distinct_sum M (map d (seq 0 M)) Nd) as S. rewrite map_length, seq_length, E in S.
  assert (Dp : forall z, In z (map d (seq 0 M)) -> 0 < z).
  { intros z Hz. apply in_map_iff in Hz. destruct Hz as (i & <- & Hi). apply in_seq in Hi. pose proof (D i ltac:(lia)) as L. rewrite De by lia.
    assert ((s * (2 * Z.of_nat i + 1)) mod p <> 0).
    { intros Z0. apply Z.mod_divide in Z0; [|lia]. apply prime_mult in Z0; [|exact P]. destruct Z0 as [Z0|Z0]; [contradiction|]. apply Z.divide_pos_le in Z0; lia. }
    pose proof (Z.mod_pos_bound (s * (2 * Z.of_nat i + 1)) p ltac:(lia)). lia. }
  specialize (S Dp eq_refl). pose proof (level_bound s p (Z.of_nat M) ltac:(lia)) as B. unfold M in S, B. rewrite Z2Nat.id in * by lia. nia.
Qed.

(** ** A vertex of a convex contour is not inside a triangle of others. *)
Lemma has_edge (vs : contour) a : In a vs -> exists b, contour_edge vs a b.
Proof.
  intros I. apply In_nth_error in I. destruct I as (i & E). assert (L : (i < length vs)%nat) by (apply nth_error_Some; congruence).
  destruct (nth_error vs (S i mod length vs)) as [b|] eqn:Eb; [exists b, i; auto|].
  apply nth_error_None in Eb. pose proof (Nat.mod_upper_bound (S i) (length vs) ltac:(lia)). lia.
Qed.
Lemma supported (vs : contour) q : convex_ccw vs -> In q vs -> exists r, r <> q /\ forall c, In c vs -> (0 <= cross q r c)%Qc.
Proof.
  intros (L & N & C) I. destruct (has_edge vs q I) as (r & E). exists r. split.
  - destruct E as (i & E1 & E2). intros ->. assert (Li : (i < length vs)%nat) by (apply nth_error_Some; congruence).
    assert (K : i = (S i mod length vs)%nat) by (eapply NoDup_nth_error; [exact N|exact Li|congruence]).
    destruct (Nat.eq_dec (S i) (length vs)) as [Q|Q]; [rewrite Q, Nat.mod_same in K by lia; lia|]. rewrite Nat.mod_small in K by lia. lia.
  - intros c Ic. destruct (point_eq_dec c q) as [-> |Nq]; [unfold cross; qn|]. destruct (point_eq_dec c r) as [-> |Nr]; [unfold cross; qn|].
    apply Qclt_le_weak, C; assumption.
Qed.
Lemma pos_mul (x y : Qc) : (0 < x)%Qc -> (0 < y)%Qc -> (0 < x * y)%Qc. Proof. intros; qn. Qed.
Lemma nonneg_mul (x y : Qc) : (0 <= x)%Qc -> (0 <= y)%Qc -> (0 <= x * y)%Qc. Proof. intros; qn. Qed.
(** A linear function which is not negative at three points around the origin is zero. *)
Lemma surrounded (u v xa ya xb yb xc : Qc) : (0 < xc)%Qc -> (ya < 0)%Qc -> (0 < yb)%Qc -> (xa < 0)%Qc -> (xb < 0)%Qc ->
  (0 <= u * ya - v * xa)%Qc -> (0 <= u * yb - v * xb)%Qc -> (0 <= - (v * xc))%Qc -> u = 0%Qc /\ v = 0%Qc.
Proof.
  intros H1 H2 H3 H4 H5 Sa Sb Sc.
  assert (V : (v <= 0)%Qc). { destruct (Qclt_le_dec 0 v) as [V|V]; [|exact V]. exfalso. pose proof (pos_mul _ _ V H1). ql. }
  assert (V' : (0 <= v)%Qc).
  { destruct (Qclt_le_dec v 0) as [V'|V']; [|exact V']. exfalso.
    pose proof (nonneg_mul yb _ ltac:(ql) Sa) as K1. pose proof (nonneg_mul (- ya)%Qc _ ltac:(ql) Sb) as K2.
    pose proof (pos_mul (- v)%Qc (- xa)%Qc ltac:(ql) ltac:(ql)) as K3. pose proof (pos_mul yb _ H3 K3) as K4.
    pose proof (pos_mul (- v)%Qc (- xb)%Qc ltac:(ql) ltac:(ql)) as K5. pose proof (pos_mul (- ya)%Qc _ ltac:(ql) K5) as K6.
    assert (E : (yb * (u * ya - v * xa) + - ya * (u * yb - v * xb) = - (yb * (- v * - xa)) - (- ya * (- v * - xb)))%Qc) by ring. ql. }
  assert (V0 : v = 0%Qc) by (apply Qcle_antisym; assumption). split; [|exact V0]. subst v.
  apply Qcle_antisym.
  - destruct (Qclt_le_dec 0 u) as [U|U]; [|exact U]. exfalso. pose proof (pos_mul u (- ya)%Qc U ltac:(ql)) as K. replace (u * - ya)%Qc with (- (u * ya - 0 * xa))%Qc in K by ring. ql.
  - destruct (Qclt_le_dec u 0) as [U|U]; [|exact U]. exfalso. pose proof (pos_mul (- u)%Qc yb ltac:(ql) H3) as K. replace (- u * yb)%Qc with (- (u * yb - 0 * xb))%Qc in K by ring. ql.
Qed.
Lemma not_inside_x (vs : contour) q a b c : convex_ccw vs -> In q vs -> In a vs -> In b vs -> In c vs ->
  py c = py q -> (px q < px c)%Qc -> (py a < py q)%Qc -> (py q < py b)%Qc -> (px a < px q)%Qc -> (px b < px q)%Qc -> False.
Proof.
  intros C Iq Ia Ib Ic E1 H1 H2 H3 H4 H5. destruct (supported vs q C Iq) as (r & Nr & S).
  pose proof (S a Ia) as Sa. pose proof (S b Ib) as Sb. pose proof (S c Ic) as Sc. apply Nr.
  destruct (surrounded (px r - px q) (py r - py q) (px a - px q) (py a - py q) (px b - px q) (py b - py q) (px c - px q)) as (U & V); [ql|ql|ql|ql|ql|..].
  1-3: match goal with |- (0 <= ?g)%Qc => first [replace g with (cross q r a) by (unfold cross; ring)|replace g with (cross q r b) by (unfold cross; ring)|replace g with (cross q r c) by (unfold cross; rewrite E1; ring)]; assumption end.
  apply point_ext; ql.
Qed.
Lemma not_inside_y (vs : contour) q a b c : convex_ccw vs -> In q vs -> In a vs -> In b vs -> In c vs ->
  px c = px q -> (py q < py c)%Qc -> (px a < px q)%Qc -> (px q < px b)%Qc -> (py a < py q)%Qc -> (py b < py q)%Qc -> False.
Proof.
  intros C Iq Ia Ib Ic E1 H1 H2 H3 H4 H5. destruct (supported vs q C Iq) as (r & Nr & S).
  pose proof (S a Ia) as Sa. pose proof (S b Ib) as Sb. pose proof (S c Ic) as Sc. apply Nr.
  destruct (surrounded (- (py r - py q)) (- (px r - px q)) (py a - py q) (px a - px q) (py b - py q) (px b - px q) (py c - py q)) as (U & V); [ql|ql|ql|ql|ql|..].
  1-3: match goal with |- (0 <= ?g)%Qc => first [replace g with (cross q r a) by (unfold cross; ring)|replace g with (cross q r b) by (unfold cross; ring)|replace g with (cross q r c) by (unfold cross; rewrite E1; ring)]; assumption end.
  apply point_ext; ql.
Qed.

(** ** Grids. *)
Lemma at_index_mono l i j : StronglySorted Qclt l -> 0 <= i < j -> j < lenZ l -> (at_index l i < at_index l j)%Qc.
Proof.
  intros S H L. unfold at_index, lenZ in *. assert (K : (Z.to_nat i < Z.to_nat j < length l)%nat) by lia. clear H L.
  revert K. generalize (Z.to_nat i), (Z.to_nat j). clear i j.
  induction S as [|x l S IH F]; intros i j K; cbn [length] in K; [lia|]. destruct j as [|j]; [lia|]. destruct i as [|i]; cbn [nth].
  - rewrite Forall_forall in F. apply F, nth_In. lia.
  - apply IH. lia.
Qed.
Lemma grid_not_convex xl yl p scale by_x vs : prime p -> 11 <= p -> ~ (p | scale) -> StronglySorted Qclt xl -> StronglySorted Qclt yl ->
  p <= lenZ xl -> p <= lenZ yl -> (forall q, In q (grid_points xl yl p scale by_x) -> In q vs) -> ~ convex_ccw vs.
Proof.
  intros P H11 N Sx Sy Lx Ly I C. destruct (level_falls scale p P H11 N) as (i & j & Hij & Hj & F).
  pose proof (level_positive scale p j P N ltac:(lia)) as Pj. pose proof (level_bound scale p i ltac:(lia)) as Bi.
  assert (G : forall k, 0 <= k < p -> In (if by_x then Pt (at_index xl k) (at_index yl (level scale p k)) else Pt (at_index xl (level scale p k)) (at_index yl k)) vs).
  { intros k Hk. apply I. unfold grid_points. apply in_map_iff. exists k. split; [reflexivity|]. apply in_zrange, Hk. }
  pose proof (G 0 ltac:(lia)) as Ga. pose proof (G i ltac:(lia)) as Gb. pose proof (G j ltac:(lia)) as Gq. pose proof (G (p - j) ltac:(lia)) as Gc.
  rewrite level_mirror in Gc by lia. rewrite level_zero in Ga by lia.
  destruct by_x; [eapply (not_inside_x vs _ _ _ _ C Gq Ga Gb Gc)|eapply (not_inside_y vs _ _ _ _ C Gq Ga Gb Gc)]; cbn [px py]; try reflexivity; apply at_index_mono; assumption || lia.
Qed.
Lemma reverse_in (vs : list point) q : In q vs -> In q (reverse_vertices vs).
Proof. destruct vs as [|a l]; [auto|]. unfold reverse_vertices. intros [->|H]; [left; reflexivity|right]. apply in_rev in H. exact H. Qed.

Lemma star_strategy_empty ctx xs ys mn m vs : orders_directions ctx -> prime mn -> 11 <= mn -> (forall q, prime q -> mn < q -> m < q) ->
  ~ generates (to_star_vertex_sequence_strategy ctx xs ys mn (Some m)) vs.
Proof.
  intros D P H11 Hq H. pose proof (star_strategy_convex ctx xs ys mn (Some m) vs D ltac:(lia) H) as C.
  unfold to_star_vertex_sequence_strategy in H. apply gen_pfilter in H. destruct H as (H & V). apply gen_bind in H. destruct H as (points & Hp & H). apply gen_lift in H.
  pose proof (grid_nodup _ _ _ _ _ (grid_sound _ _ _ _ _ Hp)) as N. destruct (star_spec _ _ _ N H) as (I & Nv & _).
  apply grid_exact in Hp. destruct Hp as (_ & lower & xl & yl & p & scale & by_x & (Pl & _ & Hl & Ml) & Sx & Sy & (Zx & Ux) & (Zy & Uy) & _ & _ & (Pp & Lp & Mp) & _ & Ns & ->).
  assert (lower = mn) by (specialize (Ml mn P ltac:(lia) ltac:(lia)); lia). subst lower. specialize (Ux _ eq_refl). specialize (Uy _ eq_refl).
  assert (p = mn). { specialize (Mp mn P ltac:(lia)). destruct (Z.eq_dec p mn) as [E|E]; [exact E|]. specialize (Hq p Pp ltac:(lia)). lia. } subst p.
  assert (L : (length (grid_points xl yl mn scale by_x) <= length vs)%nat).
  { unfold grid_points. rewrite !map_length, seq_length. apply size_valid in V. destruct V as (V & _). unfold lenZ in V. lia. }
  pose proof (NoDup_length_incl Nv L I) as I'.
  destruct C as [C|C]; revert C; apply (grid_not_convex xl yl mn scale by_x); try assumption; try lia. intros q Iq. apply reverse_in, I', Iq.
Qed.
Lemma star_contours_empty ctx xs ys mn m w s vs : orders_directions ctx -> prime mn -> 11 <= mn -> (forall q, prime q -> mn < q -> m < q) ->
  star_contours ctx xs ys mn (Some m) = Ok (w, s) -> ~ generates s vs.
Proof.
  intros D P H11 Hq H. unfold star_contours in H. validate; try discriminate. injection H as _ <-. change MIN_CONTOUR_SIZE with 3.
  replace (Z.max mn 3) with mn by lia. apply star_strategy_empty; assumption.
Qed.
