(** Which numbers of polygons of a multipolygon, and of points, segments and polygons of a mix, can be generated. *)
From Coq Require Import List Lia Znumtheory Sorted Permutation.
From Verif Require Import Base Prog Geometry Ctx Utils Contracts Planar Spec HullSpec MixSpec SizeSpec GeneralSpec CountSpec RelaxSpec Strategies ProgProofs PrimeProofs ListProofs SimpleProofs
  GridProofs PlanarProofs PolyFaultProofs CountGrid CountProofs SizeApiProofs EdgeProofs GeneralCoordinates BorderProofs GeneralProofs.
Import List ListNotations.
Open Scope Z_scope.

(** ** Consecutive whole numbers. *)
Definition whole (m : nat) (o : Z) : list Qc := map (fun i => Qc_of_Z (o + i)) (map Z.of_nat (seq 0 m)).
Lemma whole_abscissas r o : abscissas r o = whole (Z.to_nat r) o.
Proof. reflexivity. Qed.
Lemma whole_length m o : length (whole m o) = m.
Proof. unfold whole. rewrite !map_length. apply seq_length. Qed.
Lemma in_whole m o x : In x (whole m o) <-> exists i, (0 <= i < Z.of_nat m) /\ x = Qc_of_Z (o + i).
Proof.
  unfold whole. rewrite map_map, in_map_iff. split.
  - intros (j & <- & Hj). apply in_seq in Hj. exists (Z.of_nat j). split; [lia|reflexivity].
  - intros (i & Hi & ->). exists (Z.to_nat i). split; [f_equal; lia|]. apply in_seq. lia.
Qed.
Lemma whole_app a b o : whole (a + b) o = whole a o ++ whole b (o + Z.of_nat a).
Proof.
  unfold whole. rewrite seq_app, !map_app. f_equal. rewrite !map_map. cbn [Nat.add].
  assert (K : forall n, map (fun x => Qc_of_Z (o + Z.of_nat x)) (seq (a + n) b) = map (fun x => Qc_of_Z (o + Z.of_nat a + Z.of_nat x)) (seq n b)).
  { induction b as [|b IH]; intros n; [reflexivity|]. cbn [seq map]. f_equal; [f_equal; lia|]. replace (S (a + n)) with (a + S n)%nat by lia. apply IH. }
  specialize (K 0%nat). rewrite Nat.add_0_r in K. exact K.
Qed.
Lemma whole_first k m o : (k <= m)%nat -> firstn k (whole m o) = whole k o.
Proof.
  intros H. replace m with (k + (m - k))%nat by lia. rewrite whole_app, firstn_app, whole_length, Nat.sub_diag. cbn [firstn].
  rewrite app_nil_r. rewrite <- (whole_length k o) at 1. apply firstn_all.
Qed.
Lemma whole_skip k m o : (k <= m)%nat -> skipn k (whole m o) = whole (m - k) (o + Z.of_nat k).
Proof.
  intros H. replace m with (k + (m - k))%nat at 1 by lia. rewrite whole_app, skipn_app, whole_length, Nat.sub_diag. cbn [skipn].
  rewrite <- (whole_length k o) at 1. rewrite skipn_all. reflexivity.
Qed.
Lemma whole_nodup m o : NoDup (whole m o).
Proof.
  unfold whole. rewrite map_map. apply NoDup_map_inj; [|apply seq_NoDup]. intros i j _ _ E. apply Qc_of_Z_inj in E. lia.
Qed.
Lemma whole_sorted m o : isort qleb (whole m o) = whole m o.
Proof.
  apply isort_id. unfold whole. rewrite <- (Nat2Z.id m). apply (zrange_sorted (fun i => o + i)). intros. lia.
Qed.
Lemma py_bound_in {A} (l : list A) i : 0 <= i <= lenZ l -> py_bound l i = Z.to_nat i.
Proof. intros H. unfold py_bound. replace (0 <=? i) with true by (symmetry; apply Z.leb_le; lia). f_equal. unfold lenZ in H. lia. Qed.
Lemma take_whole m o k : 0 <= k <= Z.of_nat m -> py_take (whole m o) k = whole (Z.to_nat k) o.
Proof. intros H. unfold py_take. rewrite py_bound_in by (unfold lenZ; rewrite whole_length; lia). apply whole_first. lia. Qed.
Lemma drop_whole m o k : 0 <= k <= Z.of_nat m -> py_drop (whole m o) k = whole (m - Z.to_nat k) (o + k).
Proof. intros H. unfold py_drop. rewrite py_bound_in by (unfold lenZ; rewrite whole_length; lia). rewrite whole_skip by lia. f_equal. lia. Qed.
Lemma slice_whole m o a b : 0 <= a <= b -> b <= Z.of_nat m -> py_slice (whole m o) a b = whole (Z.to_nat (b - a)) (o + a).
Proof.
  intros H Hb. unfold py_slice. cbv zeta. rewrite !py_bound_in by (unfold lenZ; rewrite whole_length; lia). rewrite whole_skip, whole_first by lia. f_equal; lia.
Qed.

(** The polygon of a slice of whole numbers. *)
Definition small (h : Z) (p : polygon) : Prop := lenZ (border p) = 3 /\ lenZ (holes p) = h /\ forall vs, In vs (holes p) -> lenZ vs = 3.
Lemma above_three n r : smallest_prime_above n r -> 5 <= r.
Proof. intros (P & H3 & _). destruct (Z.eq_dec r 4) as [->|]; [|lia]. exfalso. destruct (prime_divisors _ P 2) as [E|[E|[E|E]]]; [exists 2; ring|lia..]. Qed.
Section Reach.
  Context (ctx : context) (xs ys : scalars) (mx : option Z) (h : Z) (hmx smx : option Z) (r0 r : Z)
    (C : contracts ctx) (Hull : forall l, is_hull l (ctx_hull ctx l)) (H0 : 0 <= h) (Hm : forall m, mx = Some m -> 3 <= m)
    (Hc : forall c, smx = Some c -> 3 <= c) (P0 : smallest_prime_above (3 + 3 * h) r0) (Pr : prime r) (R5 : 5 <= r)
    (Mr : forall m, max_vertices mx hmx smx = Some m -> r <= m \/ smallest_prime_above (3 + 3 * h) r) (Fu : enough_fuel ctx (Z.to_nat r))
    (Dy : forall y, In y (heights r) -> drawable ys y).
  Definition allowed (k : Z) : Prop := size_ok k h hmx /\ 3 + 3 * k <= r.
  Lemma allowed_least k : allowed k -> r0 <= r.
  Proof. intros ((K1 & _) & K2). apply P0; [exact Pr|lia..]. Qed.
  Lemma prior_r : to_prior_prime r = Ok r.
  Proof.
    destruct (prior_prime_spec r R5) as (p & E & Hp). rewrite E. f_equal. destruct Hp as (P1 & P2 & P4). specialize (P4 r Pr ltac:(lia)). lia.
  Qed.
  Lemma whole_polygon m o k : allowed k -> r <= Z.of_nat m -> exists p, generates (to_polygon_strategy ctx (Sampled (whole m o)) (Some ys) 3 mx h hmx 3 smx) p /\ small k p.
  Proof.
    intros ((K1 & K2) & K3) Hr. apply (polygon_flat ctx (Sampled (whole m o)) (Some ys) mx h hmx smx k r o); auto; try lia.
    intros x Hx'. rewrite whole_abscissas in Hx'. apply in_whole in Hx'. destruct Hx' as (i & Hi & ->). unfold drawable. cbn [draw_scalar]. apply gen_sampled_from.
    apply in_whole. exists i. split; [lia|reflexivity].
  Qed.
  Lemma small_blocked k p : small k p -> exists b, blocks_touch AxisX (contour_segments (border p)) = Ok b.
  Proof.
    intros (L & _). unfold blocks_touch, has_vertical_leftmost_segment. destruct (contour_segments (border p)) as [|s l] eqn:E; [|eexists; reflexivity].
    exfalso. pose proof (segments_length (border p)) as K. unfold lenZ in L. rewrite E in K. cbn in K. lia.
  Qed.

  Lemma loop_reach ks : forall m o start, ks <> [] -> (forall k, In k ks -> allowed k) -> 0 <= start -> start + lenZ ks * r <= Z.of_nat m ->
    exists ps, generates (multipolygon_loop ctx AxisX xs ys 3 mx h hmx 3 smx r0 (length ks) (whole m o) start) ps /\ Forall2 small ks ps.
  Proof.
    unfold lenZ. induction ks as [|k [|k' ks] IH]; intros m o start H1 Ha Hs Hl; [contradiction| |].
    - cbn [length] in *. cbn [multipolygon_loop]. rewrite drop_whole by lia. destruct (whole_polygon (m - Z.to_nat start) (o + start) k (Ha _ (or_introl eq_refl)) ltac:(lia)) as (p & G & Sm).
      exists [p]. split; [apply gen_bind; exists p; split; [exact G|apply gen_ret; reflexivity]|]. constructor; [exact Sm|constructor].
    - pose proof (Ha _ (or_introl eq_refl)) as Ak. pose proof (allowed_least _ Ak) as Lr. assert (R3 : 3 < r0) by apply P0.
      destruct (whole_polygon (Z.to_nat r) (o + start) k Ak ltac:(lia)) as (p & G & Sm). destruct (small_blocked k p Sm) as (b & Eb).
      assert (Hl' : start + (1 + Z.of_nat (length (k' :: ks))) * r <= Z.of_nat m) by (cbn [length] in *; lia).
      destruct (IH m o (start + (r - b2z (negb b))) ltac:(discriminate) (fun x Hx => Ha x (or_intror Hx)) ltac:(destruct b; cbn [b2z negb]; lia) ltac:(destruct b; cbn [b2z negb]; lia)) as (ps & Gp & Fp).
      exists (p :: ps). split; [|constructor; assumption].
      change (length (k :: k' :: ks)) with (S (length (k' :: ks))). remember (length (k' :: ks)) as n' eqn:En. destruct n' as [|n]; [discriminate|]. remember (S n) as n' eqn:En'.
      cbn [multipolygon_loop]. rewrite En' in *. clear En' n'. rewrite <- ?En' in *. apply gen_bind. exists r. split.
      { apply gen_integers. split; [lia|]. unfold lenZ. rewrite whole_length. apply Z.div_le_lower_bound; lia. }
      apply gen_bind. exists r. split; [apply gen_lift, prior_r|]. rewrite slice_whole by lia. replace (start + r - start) with r by lia.
      apply gen_bind. exists p. split; [exact G|]. apply gen_bind. exists b. split; [apply gen_lift, Eb|].
      apply gen_bind. exists ps. split; [exact Gp|]. apply gen_ret. reflexivity.
  Qed.

  Lemma next_r : to_next_prime (3 + h * 3) = Ok r0.
  Proof.
    replace (3 + h * 3) with (3 + 3 * h) by lia. destruct (next_prime_spec (3 + 3 * h) ltac:(lia)) as (q & E & Q1 & Q2 & Q3 & Q4). rewrite E. f_equal.
    destruct P0 as (P1 & P2 & P3 & P4). apply Z.le_antisymm; [apply Q4|apply P4]; assumption.
  Qed.
  Lemma multipolygon_reach oys mn kmx ks : or_else oys xs = ys -> 1 <= mn -> size_ok (lenZ ks) mn kmx -> (forall k, In k ks -> allowed k) ->
    (forall m v, kmx = Some m -> max_vertices mx hmx smx = Some v -> lenZ ks * r <= Z.max (m * v) (mn * r0)) ->
    (forall z, 0 <= z < lenZ ks * r -> drawable xs (Qc_of_Z z)) ->
    exists ps, generates (to_multipolygon_strategy ctx xs oys mn kmx 3 mx h hmx 3 smx) ps /\ Forall2 small ks ps.
  Proof.
    intros Ey M1 (Hk & Hkm) Ha Hmax Dx. set (k := lenZ ks) in *. set (n := Z.to_nat (k * r)).
    assert (Ne : ks <> []) by (intros E; unfold k in Hk; rewrite E in Hk; unfold lenZ in Hk; cbn in Hk; lia).
    assert (Lr : r0 <= r). { destruct ks as [|k0 ks']; [contradiction|]. apply (allowed_least k0), Ha. left. reflexivity. } assert (R3 : 3 < r0) by apply P0.
    destruct (loop_reach ks n 0 0 Ne Ha ltac:(lia)) as (ps & G & F). { fold k. unfold n. rewrite Z2Nat.id by nia. lia. }
    exists ps. split; [|exact F]. unfold to_multipolygon_strategy. cbv zeta. rewrite Ey. apply gen_bind. exists r0. split; [apply gen_lift, next_r|].
    match goal with |- generates (if h =? 0 then alt ?A ?B else ?B) ps => enough (generates B ps) end.
    { destruct (h =? 0); [apply gen_alt; right; assumption|assumption]. }
    apply gen_alt. left. apply gen_bind. exists (whole n 0). split.
    - apply gen_unique_scalars. split; [apply whole_nodup|]. split; [nia|]. split; [|intros x Hx'; apply in_whole in Hx'; destruct Hx' as (i & Hi & ->); apply Dx; lia].
      unfold lenZ. rewrite whole_length. unfold n. rewrite Z2Nat.id by nia. split; [nia|]. intros t Et. destruct kmx as [m|]; [|discriminate]. destruct mx as [b|]; [|discriminate].
      destruct hmx as [c|]; [|discriminate]. destruct smx as [s|]; [|discriminate]. injection Et as <-. specialize (Hmax m (b + c * s) eq_refl eq_refl). replace (s * c) with (c * s) by lia. exact Hmax.
    - unfold coordinates_to_polygons. apply gen_bind. exists k. rewrite whole_sorted. split.
      + apply gen_integers. split; [lia|]. unfold lenZ. rewrite whole_length. unfold n. rewrite Z2Nat.id by nia. assert (k <= k * r / r0) by (apply Z.div_le_lower_bound; nia).
        unfold min_opt. destruct kmx as [m|]; [|lia]. specialize (Hkm m eq_refl). lia.
      + unfold k, lenZ. rewrite Nat2Z.id. exact G.
  Qed.

  (** ** Mixes. *)
  Context (pmn : Z) (pmx : option Z) (gmn : Z) (gmx : option Z) (qmn : Z) (qmx : option Z).
  Lemma zero_height : drawable ys (Qc_of_Z 0).
  Proof.
    apply Dy. unfold heights. apply in_map_iff. exists 0. split; [|apply in_zrange; lia]. f_equal. unfold height. rewrite Z.sub_0_r. lia.
  Qed.
  Lemma points_reach m o c : 0 <= c -> c <= Z.of_nat m -> exists l, generates (draw_points xs ys AxisX (whole m o) c) l /\ lenZ l = c.
  Proof.
    intros Hc0 Hcm. unfold draw_points. cbn [sliced]. rewrite take_whole by lia. exists (map (fun x => Pt x (Qc_of_Z 0)) (whole (Z.to_nat c) o)).
    assert (L : lenZ (map (fun x => Pt x (Qc_of_Z 0)) (whole (Z.to_nat c) o)) = c) by (unfold lenZ; rewrite map_length, whole_length; lia).
    split; [|exact L]. apply gen_unique_points. split; [apply NoDup_map_inj; [intros a b _ _ E; congruence|apply whole_nodup]|]. split; [lia|]. split.
    - rewrite L. split; [lia|]. intros t E. injection E as <-. lia.
    - intros p Hp. apply in_map_iff in Hp. destruct Hp as (x & <- & Ix). split; [apply gen_sampled_from, Ix|apply zero_height].
  Qed.
  Lemma segments_reach m o c : 1 <= c -> 2 * c <= Z.of_nat m -> exists l, generates (draw_segments ctx xs ys AxisX (whole m o) (2 * c)) l /\ lenZ l = c.
  Proof.
    intros Hc0 Hcm. unfold draw_segments. cbv zeta. cbn [sliced]. rewrite take_whole by lia. replace (2 * c / 2) with c by (rewrite Z.mul_comm, Z.div_mul; lia).
    set (n := Z.to_nat (2 * c)). unfold to_segment_sequence_strategy. cbn [or_else]. cbv zeta.
    assert (W : forall i, 0 <= i < 2 * c -> drawable (Sampled (whole n o)) (Qc_of_Z (o + i))).
    { intros i Hi. apply gen_sampled_from. apply in_whole. exists i. split; [lia|reflexivity]. }
    destruct (c <? 2) eqn:E2.
    - apply Z.ltb_lt in E2. assert (c = 1) by lia. replace c with 1 in * by lia. exists [Seg (Pt (Qc_of_Z (o + 0)) (Qc_of_Z 0)) (Pt (Qc_of_Z (o + 1)) (Qc_of_Z 0))]. split; [|reflexivity].
      apply gen_pmap. eexists. split; [|reflexivity]. apply gen_segment. cbn [seg_start seg_end]. split.
      + intros E. apply (f_equal px) in E. cbn [px] in E. apply Qc_of_Z_inj in E. lia.
      + split; (split; [apply W; lia|apply zero_height]).
    - apply Z.ltb_ge in E2. set (q := whole (Z.to_nat (c + 1)) o). exists (to_horizontal_multisegment q (Qc_of_Z 0)). split.
      + apply gen_alt. left.
        match goal with |- generates (if ?b then alt ?A ?B else ?A) _ => enough (generates A (to_horizontal_multisegment q (Qc_of_Z 0))) end.
        { destruct (MIN_CONTOUR_SIZE <=? c); [apply gen_alt; left; assumption|assumption]. }
        apply gen_alt. right. apply gen_bind. exists q. split.
        * apply gen_unique_scalars. split; [apply whole_nodup|]. split; [lia|]. split.
          -- unfold lenZ, q. rewrite whole_length. split; [lia|]. intros t E. injection E as <-. lia.
          -- intros x Ix. apply in_whole in Ix. destruct Ix as (i & Hi & ->). apply W. lia.
        * apply gen_bind. exists (Qc_of_Z 0). split; [apply zero_height|]. apply gen_ret. reflexivity.
      + unfold to_horizontal_multisegment, lenZ. rewrite map_length, pairwise_length, isort_length. unfold q. rewrite whole_length. lia.
  Qed.
  Lemma polygon_reach m o k : allowed k -> r <= Z.of_nat m -> exists p, generates (draw_polygon ctx xs ys 3 mx h hmx 3 smx AxisX (whole m o) r) p /\ small k p.
  Proof.
    intros Ha Hr. destruct (whole_polygon (Z.to_nat r) o k Ha ltac:(lia)) as (p & G & Sm). exists p. split; [|exact Sm].
    unfold draw_polygon. apply gen_bind. exists r. split; [apply gen_lift, prior_r|]. cbn [sliced]. rewrite take_whole by lia. exact G.
  Qed.

  Definition fits (d : drawer * Z) : Prop := match d with (DrawPoints, c) => 0 <= c | (DrawSegments, c) => exists k, 1 <= k /\ c = 2 * k | (DrawPolygon, c) => c = r end.
  Definition total (l : list (drawer * Z)) : Z := fold_right (fun d t => snd d + t) 0 l.
  Definition total_of (f : drawer -> bool) (l : list (drawer * Z)) : Z := fold_right (fun d t => (if f (fst d) then snd d else 0) + t) 0 l.
  Definition is_points d := match d with DrawPoints => true | _ => false end.
  Definition is_segments d := match d with DrawSegments => true | _ => false end.
  Definition is_polygon d := match d with DrawPolygon => true | _ => false end.

  Lemma touch_ok (s : list segment) : s <> [] -> exists b, blocks_touch AxisX s = Ok b.
  Proof. destruct s as [|a l]; [contradiction|]. intros _. unfold blocks_touch, has_vertical_leftmost_segment. eexists. reflexivity. Qed.

  Lemma mix_reach l : forall ks m o ps ss gs, (forall d, In d l -> fits d) -> (forall k, In k ks -> allowed k) -> lenZ ks * r = total_of is_polygon l -> total l <= Z.of_nat m ->
    exists ps' ss' gs', generates (mix_loop ctx xs ys 3 mx h hmx 3 smx AxisX l (whole m o) ps ss gs) (ps ++ ps', ss ++ ss', gs ++ gs') /\
      lenZ ps' = total_of is_points l /\ 2 * lenZ ss' = total_of is_segments l /\ Forall2 small ks gs'.
  Proof.
    induction l as [|(d, c) l IH]; intros ks m o ps ss gs F Ha Tk T.
    - exists [], [], []. rewrite !app_nil_r. cbn. split; [apply gen_ret; reflexivity|]. destruct ks as [|k ks]; [|unfold lenZ in Tk; cbn [length total_of fold_right] in Tk; nia]. repeat split; try lia; constructor.
    - assert (Fl : forall d, In d l -> fits d) by (intros; apply F; right; assumption). pose proof (F _ (or_introl eq_refl)) as Fd. cbn [total fold_right snd] in T. fold (total l) in T.
      assert (Tl : 0 <= total l).
      { clear -Fl R5. unfold total. induction l as [|(d, c) l IH]; cbn [fold_right snd]; [lia|]. pose proof (Fl _ (or_introl eq_refl)) as Fd.
        assert (0 <= c) by (destruct d; cbn [fits] in Fd; [lia|destruct Fd as (k & ? & ?); lia|lia]). specialize (IH (fun d Hd => Fl d (or_intror Hd))). lia. }
      assert (Hc0 : 0 <= c /\ (d <> DrawPoints -> 1 <= c)) by (destruct d; cbn [fits] in Fd; [split; [lia|congruence]|destruct Fd as (k & ? & ?); lia|lia]).
      assert (K : forall ks1 ps1 ss1 gs1 b, (b = true -> d <> DrawPoints) -> (forall k, In k ks1 -> allowed k) -> lenZ ks1 * r = total_of is_polygon l ->
        exists ps' ss' gs', generates (mix_loop ctx xs ys 3 mx h hmx 3 smx AxisX l (py_drop (whole m o) (c - b2z b)) ps1 ss1 gs1) (ps1 ++ ps', ss1 ++ ss', gs1 ++ gs') /\
          lenZ ps' = total_of is_points l /\ 2 * lenZ ss' = total_of is_segments l /\ Forall2 small ks1 gs').
      { intros ks1 ps1 ss1 gs1 b Hb Ha1 Tk1. assert (B : 0 <= c - b2z b <= c). { destruct b; cbn [b2z]; [|lia]. destruct Hc0 as (_ & X). specialize (X (Hb eq_refl)). lia. }
        rewrite drop_whole by lia. apply IH; [exact Fl|exact Ha1|exact Tk1|]. lia. }
      cbn [total_of fold_right fst snd] in Tk. fold (total_of is_polygon l) in Tk. destruct d; cbn [fits is_polygon] in Fd, Tk.
      + destruct (points_reach m o c Fd ltac:(lia)) as (q & Gq & Lq). destruct (K ks (ps ++ q) ss gs false ltac:(discriminate) Ha ltac:(lia)) as (ps' & ss' & gs' & G & L1 & L2 & L3).
        exists (q ++ ps'), ss', gs'. split.
        * rewrite app_assoc. cbn [mix_loop]. apply gen_bind. exists (ps ++ q, ss, gs). split; [apply gen_bind; exists q; split; [exact Gq|apply gen_ret; reflexivity]|]. cbv beta iota.
          apply gen_bind. exists false. split; [|exact G]. destruct l as [|([], ?) ?]; apply gen_ret; reflexivity.
        * cbn [total_of fold_right is_points is_segments is_polygon fst snd]. fold (total_of is_points l) (total_of is_segments l) (total_of is_polygon l).
          unfold lenZ in *. rewrite app_length. split; [lia|]. split; [lia|exact L3].
      + destruct Fd as (k & Hk & ->). destruct (segments_reach m o k Hk ltac:(lia)) as (q & Gq & Lq).
        destruct (touch_ok (ss ++ q)) as (b0 & Eb). { destruct q; [unfold lenZ in Lq; cbn in Lq; lia|]. destruct ss; discriminate. }
        assert (Y : exists b : bool, generates (match l with [] => Ret false | (DrawPoints, _) :: _ => Ret false | _ :: _ => pmap negb (lift (blocks_touch AxisX (ss ++ q))) end) b).
        { exists (match l with [] => false | (DrawPoints, _) :: _ => false | _ :: _ => negb b0 end).
          destruct l as [|([], ?) ?]; try (apply gen_ret; reflexivity); (apply gen_pmap; exists b0; split; [apply gen_lift, Eb|reflexivity]). }
        destruct Y as (b & Gb).
        destruct (K ks ps (ss ++ q) gs b ltac:(discriminate) Ha ltac:(lia)) as (ps' & ss' & gs' & G & L1 & L2 & L3).
        exists ps', (q ++ ss'), gs'. split.
        * rewrite app_assoc. cbn [mix_loop]. apply gen_bind. exists (ps, ss ++ q, gs). split; [apply gen_bind; exists q; split; [exact Gq|apply gen_ret; reflexivity]|]. cbv beta iota.
          apply gen_bind. exists b. split; [|exact G]. destruct l as [|([], ?) ?]; exact Gb.
        * cbn [total_of fold_right is_points is_segments is_polygon fst snd]. fold (total_of is_points l) (total_of is_segments l) (total_of is_polygon l).
          unfold lenZ in *. rewrite app_length. split; [lia|]. split; [lia|exact L3].
      + subst c. destruct ks as [|k ks].
        { exfalso. assert (0 <= total_of is_polygon l); [|unfold lenZ in Tk; cbn [length] in Tk; lia]. clear -Fl R5. unfold total_of. induction l as [|(d, c) l IH]; cbn [fold_right fst snd]; [lia|].
          pose proof (Fl _ (or_introl eq_refl)) as Fd. assert (0 <= (if is_polygon d then c else 0)) by (destruct d; cbn [fits is_polygon] in *; lia). specialize (IH (fun d Hd => Fl d (or_intror Hd))). lia. }
        destruct (polygon_reach m o k (Ha _ (or_introl eq_refl)) ltac:(lia)) as (q & Gq & Sq). destruct (small_blocked k q Sq) as (b0 & Eb).
        assert (Y : exists b : bool, generates (match l with [] => Ret false | (DrawPoints, _) :: _ => Ret false | _ :: _ => pmap negb (lift (blocks_touch AxisX (contour_segments (border (last (gs ++ [q]) (Poly [] [])))))) end) b).
        { rewrite last_last. exists (match l with [] => false | (DrawPoints, _) :: _ => false | _ :: _ => negb b0 end).
          destruct l as [|([], ?) ?]; try (apply gen_ret; reflexivity); (apply gen_pmap; exists b0; split; [apply gen_lift, Eb|reflexivity]). }
        destruct Y as (b & Gb). assert (Tk' : lenZ ks * r = total_of is_polygon l) by (unfold lenZ in *; cbn [length] in Tk; lia).
        destruct (K ks ps ss (gs ++ [q]) b ltac:(discriminate) (fun x Hx => Ha x (or_intror Hx)) Tk') as (ps' & ss' & gs' & G & L1 & L2 & L3).
        exists ps', ss', ([q] ++ gs'). split.
        * rewrite app_assoc. cbn [mix_loop]. apply gen_bind. exists (ps, ss, gs ++ [q]). split; [apply gen_bind; exists q; split; [exact Gq|apply gen_ret; reflexivity]|]. cbv beta iota.
          apply gen_bind. exists b. split; [|exact G]. destruct l as [|([], ?) ?]; exact Gb.
        * cbn [total_of fold_right is_points is_segments is_polygon fst snd]. fold (total_of is_points l) (total_of is_segments l) (total_of is_polygon l).
          unfold lenZ in *. cbn [app length]. split; [lia|]. split; [lia|]. constructor; assumption.
  Qed.

  Lemma partition_reach n : 0 <= n -> generates (Strategies.partition n) (if n =? 0 then [] else [n]).
  Proof.
    intros Hn. unfold Strategies.partition. apply gen_bind. exists tt. split; [apply gen_lift; unfold assert_; replace (0 <=? n) with true by (symmetry; apply Z.leb_le; exact Hn); reflexivity|].
    destruct (Z.eqb_spec n 0) as [->|N]; [apply gen_ret; reflexivity|]. destruct (Z.to_nat n) as [|k] eqn:E; [lia|]. cbn [partition_loop].
    replace (n =? 0) with false by (symmetry; apply Z.eqb_neq; exact N). apply gen_bind. exists n. split; [apply gen_integers; split; lia|].
    apply gen_bind. exists []. split; [|apply gen_ret; reflexivity]. rewrite Z.sub_diag. destruct k; apply gen_ret; reflexivity.
  Qed.
  Lemma unpack_elements {A} (l : list A) : elements (unpack l) = l.
  Proof. destruct l as [|a [|b l]]; reflexivity. Qed.
  Lemma unpack_points_elements (l : list point) : elements (unpack_points l) = l.
  Proof. destruct l; reflexivity. Qed.
  Lemma totals_app f a b : total_of f (a ++ b) = total_of f a + total_of f b.
  Proof. unfold total_of. induction a as [|x a IH]; cbn [app fold_right]; lia. Qed.
  Lemma total_app a b : total (a ++ b) = total a + total b.
  Proof. unfold total. induction a as [|x a IH]; cbn [app fold_right]; lia. Qed.
  Lemma total_repeat n : total (map (pair DrawPolygon) (repeat r n)) = Z.of_nat n * r /\ total_of is_polygon (map (pair DrawPolygon) (repeat r n)) = Z.of_nat n * r /\
    total_of is_points (map (pair DrawPolygon) (repeat r n)) = 0 /\ total_of is_segments (map (pair DrawPolygon) (repeat r n)) = 0.
  Proof. unfold total, total_of. induction n as [|n IH]; cbn [repeat map fold_right fst snd is_points is_segments is_polygon]; lia. Qed.
  Lemma sum_repeat n : fold_right Z.add 0 (repeat r n) = Z.of_nat n * r.
  Proof. induction n as [|n IH]; cbn [repeat fold_right]; lia. Qed.

  Lemma mix_strategy_reach oys p g ks : or_else oys xs = ys -> 0 <= pmn -> 0 <= gmn -> 0 <= qmn -> size_ok p pmn pmx -> size_ok g gmn gmx -> size_ok (lenZ ks) qmn qmx ->
    (forall k, In k ks -> allowed k) -> (forall z, 0 <= z < p + 2 * g + lenZ ks * r -> drawable xs (Qc_of_Z z)) ->
    exists m, generates (to_mix_strategy ctx xs oys pmn pmx gmn gmx qmn qmx 3 mx h hmx 3 smx) m /\
      lenZ (elements (discrete m)) = p /\ lenZ (elements (linear m)) = g /\ Forall2 small ks (elements (shaped m)).
  Proof.
    intros Ey A0 G0 Q0 (P1 & P2) (G1 & G2) (Q1 & Q2) Ha Dx. set (q := lenZ ks) in *. set (n := p + 2 * g + q * r). assert (N0 : 0 <= n) by (unfold n; nia).
    assert (Lr : q <> 0 -> r0 <= r). { intros Nq. destruct ks as [|k0 ks']; [exfalso; apply Nq; reflexivity|]. apply (allowed_least k0), Ha. left. reflexivity. } assert (R3 : 3 < r0) by apply P0.
    assert (Lq : q = 0 \/ r0 <= r) by (destruct (Z.eq_dec q 0); auto).
    set (pc := if p =? 0 then [] else [p]). set (gc := if g =? 0 then [] else [g]). set (qc := repeat r (Z.to_nat q)).
    set (ds := map (pair DrawPoints) pc ++ map (pair DrawSegments) (map (Z.mul 2) gc) ++ map (pair DrawPolygon) qc).
    assert (T : total ds = n /\ total_of is_points ds = p /\ total_of is_segments ds = 2 * g /\ total_of is_polygon ds = q * r).
    { unfold ds. rewrite !totals_app, !total_app. destruct (total_repeat (Z.to_nat q)) as (T1 & T2 & T3 & T4). fold qc in T1, T2, T3, T4. rewrite T1, T2, T3, T4. rewrite !Z2Nat.id by lia.
      unfold n, pc, gc. destruct (Z.eqb_spec p 0), (Z.eqb_spec g 0); cbn [map]; unfold total, total_of; cbn [fold_right fst snd is_points is_segments is_polygon]; lia. }
    destruct T as (T1 & T2 & T3 & T4).
    assert (F : forall d, In d ds -> fits d).
    { intros d Hd. unfold ds in Hd. apply in_app_or in Hd. destruct Hd as [Hd|Hd]; [|apply in_app_or in Hd; destruct Hd as [Hd|Hd]]; apply in_map_iff in Hd; destruct Hd as (c & <- & Ic); cbn [fits].
      - unfold pc in Ic. destruct (p =? 0); [contradiction|]. destruct Ic as [<-|[]]. lia.
      - apply in_map_iff in Ic. destruct Ic as (k & <- & Ik). exists k. split; [|reflexivity]. unfold gc in Ik. destruct (Z.eqb_spec g 0); [contradiction|]. destruct Ik as [<-|[]]. lia.
      - apply repeat_spec in Ic. exact Ic. }
    destruct (mix_reach ds ks (Z.to_nat n) 0 [] [] [] F Ha ltac:(fold q; lia) ltac:(lia)) as (ps & ss & gs & G & L1 & L2 & L3). cbn [app] in G.
    exists (Mix (unpack_points ps) (unpack ss) (unpack gs)). cbn [discrete linear shaped]. rewrite !unpack_elements, unpack_points_elements. split; [|split; [lia|split; [lia|exact L3]]].
    unfold to_mix_strategy. cbv zeta. rewrite Ey. apply gen_bind. exists r0. split; [apply gen_lift, next_r|]. apply gen_alt. left. apply gen_bind. exists (whole (Z.to_nat n) 0). split.
    { apply gen_unique_scalars. split; [apply whole_nodup|]. split; [nia|]. split; [|intros x Hx'; apply in_whole in Hx'; destruct Hx' as (i & Hi & ->); apply Dx; lia].
      unfold lenZ. rewrite whole_length, Z2Nat.id by lia. split; [unfold n; nia|]. intros t E. discriminate. }
    unfold coordinates_to_mix. apply gen_bind. exists (pc, map (Z.mul 2) gc, qc). split.
    2:{ cbv beta iota. apply gen_bind. exists ds. split; [apply gen_permutations; reflexivity|]. rewrite whole_sorted. apply gen_bind. exists (ps, ss, gs). split; [exact G|]. apply gen_ret. reflexivity. }
    unfold lenZ. rewrite whole_length, Z2Nat.id by lia. unfold to_point_counts. cbv zeta.
    assert (Mo : forall k o, (forall m, o = Some m -> k <= m) -> min_opt k o = k) by (intros k [m|] Ho; unfold min_opt; [specialize (Ho m eq_refl); lia|reflexivity]).
    apply gen_bind. exists q. split.
    { apply gen_integers. split; [lia|]. transitivity (min_opt q qmx); [rewrite Mo by exact Q2; lia|]. assert (q <= (n - pmn - 2 * gmn) / r0) by (apply Z.div_le_lower_bound; unfold n; nia).
      unfold min_opt. destruct qmx; lia. }
    assert (Pm : exists top, generates (if q =? 0 then Ret 0 else lift (to_prior_prime ((n - pmn - 2 * gmn) / q))) top /\ (q <> 0 -> r <= top)).
    { destruct (Z.eqb_spec q 0) as [E|E]; [exists 0; split; [apply gen_ret; reflexivity|lia]|].
      assert (r <= (n - pmn - 2 * gmn) / q) by (apply Z.div_le_lower_bound; unfold n; nia).
      destruct (prior_prime_spec ((n - pmn - 2 * gmn) / q) ltac:(lia)) as (t & Et & _ & _ & Top). exists t. split; [apply gen_lift, Et|]. intros _. apply Top; [exact Pr|assumption]. }
    destruct Pm as (top & Gt & Ht). apply gen_bind. exists top. split; [exact Gt|]. apply gen_bind. exists qc. split.
    { destruct (Z.eqb_spec q 0) as [E|E]; [apply gen_ret; unfold qc; rewrite E; reflexivity|]. apply gen_draw_n. split; [apply repeat_length|]. intros x Ix. apply repeat_spec in Ix. subst x.
      apply gen_integers. specialize (Ht E). specialize (Lr E). split; lia. }
    replace (fold_right Z.add 0 qc) with (q * r) by (unfold qc; rewrite sum_repeat, Z2Nat.id by lia; reflexivity).
    apply gen_bind. exists (g - gmn). split.
    { apply gen_integers. split; [lia|]. apply Z.div_le_lower_bound; [lia|]. destruct gmx as [m|]; [specialize (G2 m eq_refl)|]; unfold n; lia. }
    replace (2 * gmn + 2 * (g - gmn)) with (2 * g) by lia. replace (n - 2 * g - q * r) with p by (unfold n; lia). rewrite Mo by exact P2.
    replace (2 * g / 2) with g by (rewrite Z.mul_comm, Z.div_mul; lia).
    apply gen_bind. exists pc. split; [apply partition_reach; lia|]. apply gen_bind. exists gc. split; [apply partition_reach; lia|]. apply gen_ret. reflexivity.
  Qed.
End Reach.


(** ** The public API. *)
Lemma heights_drawn r xs ys n : 5 <= r -> 0 <= n -> draws_upto xs ys ((r + 1) ^ r + n) -> forall y, In y (heights r) -> drawable (ordinates xs ys) y.
Proof. intros H5 Hn D. apply (flat_drawn r r xs ys H5 ltac:(lia)). intros z Hz. apply D. lia. Qed.

Lemma multipolygons_reached ctx xs ys mn kmx bmn bmx hmn hmx smn smx w s ks r0 r : contracts ctx -> (forall l, is_hull l (ctx_hull ctx l)) ->
  multipolygons ctx xs ys mn kmx bmn bmx hmn hmx smn smx = Ok (w, s) -> bmn <= 3 -> 0 <= hmn -> smn <= 3 -> size_ok (lenZ ks) (Z.max mn 2) kmx ->
  smallest_prime_above (3 + 3 * hmn) r0 -> prime r -> 5 <= r -> (forall k, In k ks -> size_ok k hmn hmx /\ 3 + 3 * k <= r) ->
  (forall v, max_vertices bmx hmx smx = Some v -> r <= v \/ r = r0) ->
  (forall m v, kmx = Some m -> max_vertices bmx hmx smx = Some v -> lenZ ks * r <= Z.max (m * v) (Z.max mn 2 * r0)) ->
  draws_upto xs ys ((r + 1) ^ r + lenZ ks * r) -> enough_fuel ctx (Z.to_nat r) ->
  exists ps, generates s ps /\ Forall2 small ks ps.
Proof.
  intros C Hull H B0 H0 S0 K1 P0 Pr R5 Ha Mr Room D Fu. unfold multipolygons in H. validate_hyp; try discriminate. injection H as _ <-.
  change MIN_MULTIPOLYGON_SIZE with 2 in *. change MIN_CONTOUR_SIZE with 3 in *. replace (Z.max bmn 3) with 3 by lia. replace (Z.max smn 3) with 3 by lia.
  assert (L0 : 0 <= lenZ ks) by (unfold lenZ; lia).
  apply (multipolygon_reach ctx xs (ordinates xs ys) bmx hmn hmx smx r0 r); auto; try lia.
  - intros m E. match goal with K : ~ bad_sizes bmn bmx 3 |- _ => apply (good_max _ _ _ K m E) end.
  - intros m E. match goal with K : ~ bad_sizes smn smx 3 |- _ => apply (good_max _ _ _ K m E) end.
  - intros m E. destruct (Mr m E) as [X| ->]; auto.
  - apply (heights_drawn r xs ys (lenZ ks * r)); [exact R5|nia|exact D].
  - intros z Hz. apply D. assert (0 < (r + 1) ^ r) by (apply Z.pow_pos_nonneg; lia). lia.
Qed.
Lemma loop_length ctx a xs ys bmn bmx hmn hmx smn smx r left : forall l start ps, generates (multipolygon_loop ctx a xs ys bmn bmx hmn hmx smn smx r left l start) ps -> length ps = Nat.max 1 left.
Proof.
  induction left as [|[|n] IH]; intros l start ps G.
  - cbn [multipolygon_loop] in G. apply gen_bind in G. destruct G as (p & _ & G). apply gen_ret in G. subst ps. reflexivity.
  - cbn [multipolygon_loop] in G. apply gen_bind in G. destruct G as (p & _ & G). apply gen_ret in G. subst ps. reflexivity.
  - remember (S n) as n' eqn:En. cbn [multipolygon_loop] in G. rewrite En in *. clear En n'. do 4 (apply gen_bind in G; destruct G as (? & _ & G)).
    apply gen_bind in G. destruct G as (rest & G1 & G2). apply gen_ret in G2. subst ps. cbn [length]. rewrite (IH _ _ _ G1). lia.
Qed.
Lemma multipolygons_number ctx xs ys mn kmx bmn bmx hmn hmx smn smx w s ps r m v : multipolygons ctx xs ys mn kmx bmn bmx hmn hmx smn smx = Ok (w, s) -> 0 < hmn ->
  smallest_prime_above (Z.max bmn 3 + hmn * Z.max smn 3) r -> kmx = Some m -> max_vertices bmx hmx smx = Some v -> generates s ps ->
  lenZ ps = Z.max mn 2 \/ lenZ ps * r <= m * v.
Proof.
  intros H H0 Pr Em Ev G. unfold multipolygons in H. validate_hyp; try discriminate. injection H as _ <-. change MIN_MULTIPOLYGON_SIZE with 2 in *. change MIN_CONTOUR_SIZE with 3 in *.
  unfold to_multipolygon_strategy in G. cbv zeta in G. apply gen_bind in G. destruct G as (r' & Er & G). apply gen_lift in Er.
  assert (r' = r).
  { destruct (next_prime_spec (Z.max bmn 3 + hmn * Z.max smn 3) ltac:(nia)) as (q & E & Q1 & Q2 & Q3 & Q4). rewrite E in Er. injection Er as <-. destruct Pr as (P1 & P2 & P3 & P4).
    apply Z.le_antisymm; [apply Q4|apply P4]; assumption. }
  subst r'. replace (hmn =? 0) with false in G by (symmetry; apply Z.eqb_neq; lia). assert (R3 : 3 < r) by apply Pr.
  rewrite Em in G. destruct bmx as [b|]; [|discriminate]. destruct hmx as [c|]; [|discriminate]. destruct smx as [t|]; [|discriminate]. cbn [max_vertices max_product] in Ev. injection Ev as <-.
  cbv iota beta in G. replace (t * c) with (c * t) in G by lia.
  assert (K : forall a coordinates, generates (let! l := unique_scalars coordinates (Z.max mn 2 * r) (Some (Z.max (m * (b + c * t)) (Z.max mn 2 * r))) in
     coordinates_to_polygons ctx a xs (or_else ys xs) (Z.max bmn 3) (Some b) hmn (Some c) (Z.max smn 3) (Some t) r (Z.max mn 2) (Some m) l) ps ->
     lenZ ps = Z.max mn 2 \/ lenZ ps * r <= m * (b + c * t)).
  { clear G. intros a co G. apply gen_bind in G. destruct G as (l & Gl & G). apply gen_unique_scalars in Gl. destruct Gl as (_ & _ & (_ & L2) & _). specialize (L2 _ eq_refl).
    unfold coordinates_to_polygons in G. apply gen_bind in G. destruct G as (k & Gk & G). apply gen_integers in Gk. destruct Gk as (G1 & G2). apply loop_length in G.
    assert (Lp : lenZ ps = k) by (unfold lenZ; lia). rewrite Lp. assert (k <= lenZ l / r) by (unfold min_opt in G2; lia).
    assert (r * k <= lenZ l) by (transitivity (r * (lenZ l / r)); [nia|apply Z.mul_div_le; lia]). destruct (Z.max_spec (m * (b + c * t)) (Z.max mn 2 * r)) as [(_ & E)|(_ & E)]; rewrite E in L2; nia. }
  apply gen_alt in G. destruct G as [G|G]; eapply K; exact G.
Qed.

Lemma mixes_reached ctx xs ys pmn pmx gmn gmx qmn qmx mn mx hmn hmx smn smx w s p g ks r : contracts ctx -> (forall l, is_hull l (ctx_hull ctx l)) ->
  mixes ctx xs ys pmn pmx gmn gmx qmn qmx mn mx hmn hmx smn smx = Ok (w, s) -> mn <= 3 -> smn <= 3 ->
  size_ok p (Z.max pmn 0) pmx -> size_ok g (Z.max gmn 0) gmx -> size_ok (lenZ ks) (Z.max qmn 0) qmx ->
  (1 <= p /\ 1 <= g \/ 1 <= p /\ 1 <= lenZ ks \/ 1 <= g /\ 1 <= lenZ ks) ->
  prime r -> 5 <= r -> (forall k, In k ks -> size_ok k (Z.max hmn 0) hmx /\ 3 + 3 * k <= r) ->
  (forall v, max_vertices mx hmx smx = Some v -> r <= v \/ smallest_prime_above (3 + 3 * Z.max hmn 0) r) ->
  draws_upto xs ys ((r + 1) ^ r + p + 2 * g + lenZ ks * r) -> enough_fuel ctx (Z.to_nat r) ->
  exists m, generates s m /\ lenZ (elements (discrete m)) = p /\ lenZ (elements (linear m)) = g /\ Forall2 small ks (elements (shaped m)).
Proof.
  intros C Hull H B0 S0 (P1 & P2) (G1 & G2) (Q1 & Q2) Two Pr R5 Ha Mr D Fu. unfold mixes in H. validate_hyp; try discriminate. cbv zeta in H.
  destruct (_ <? MIN_MIX_COMPONENTS_COUNT); [discriminate|]. cbn [rbind] in H. injection H as _ <-. change MIN_CONTOUR_SIZE with 3 in *.
  replace (Z.max mn 3) with 3 by lia. replace (Z.max smn 3) with 3 by lia. destruct (next_prime_spec (3 + 3 * Z.max hmn 0) ltac:(lia)) as (r0 & _ & Pr0).
  assert (K : forall pmn' gmn' qmn', 0 <= pmn' <= p -> 0 <= gmn' <= g -> 0 <= qmn' <= lenZ ks ->
    exists m, generates (to_mix_strategy ctx xs ys pmn' pmx gmn' gmx qmn' qmx 3 mx (Z.max hmn 0) hmx 3 smx) m /\
      lenZ (elements (discrete m)) = p /\ lenZ (elements (linear m)) = g /\ Forall2 small ks (elements (shaped m))).
  { intros pmn' gmn' qmn' A1 A2 A3. apply (mix_strategy_reach ctx xs (ordinates xs ys) mx (Z.max hmn 0) hmx smx r0 r); auto; try lia; try (split; [lia|assumption]).
    - intros m E. match goal with K : ~ bad_sizes mn mx 3 |- _ => apply (good_max _ _ _ K m E) end.
    - intros m E. match goal with K : ~ bad_sizes smn smx 3 |- _ => apply (good_max _ _ _ K m E) end.
    - apply (heights_drawn r xs ys (p + 2 * g + lenZ ks * r)); [exact R5|nia|]. replace ((r + 1) ^ r + (p + 2 * g + lenZ ks * r)) with ((r + 1) ^ r + p + 2 * g + lenZ ks * r) by lia. exact D.
    - intros z Hz. apply D. assert (0 < (r + 1) ^ r) by (apply Z.pow_pos_nonneg; lia). lia. }
  assert (May : forall o t, (forall m, o = Some m -> t <= m) -> 1 <= t -> may_have o = true).
  { intros [m|] t Ho Ht; [|reflexivity]. cbn. specialize (Ho m eq_refl). destruct (Z.eqb_spec m 0); [lia|reflexivity]. }
  assert (Use : forall A (x y : prog A) P, (exists m, generates x m /\ P m) \/ (exists m, generates y m /\ P m) -> exists m, generates (alt x y) m /\ P m).
  { intros A x y P [(m & U & V)|(m & U & V)]; exists m; (split; [apply gen_alt; auto|exact V]). }
  destruct Two as [(T1 & T2)|[(T1 & T2)|(T1 & T2)]].
  - rewrite (May pmx p P2 T1), (May gmx g G2 T2). destruct (may_have qmx); [apply Use; left; apply Use; left|]; apply K; lia.
  - rewrite (May pmx p P2 T1), (May qmx (lenZ ks) Q2 T2). destruct (may_have gmx); [apply Use; left; apply Use; right|]; apply K; lia.
  - rewrite (May gmx g G2 T1), (May qmx (lenZ ks) Q2 T2). destruct (may_have pmx); [apply Use; right|]; apply K; lia.
Qed.
