(** Points met in the order of their directions from a center, going around it once: when some
    point [c] is inside all the angles and is the centroid, they are the vertices of a convex
    contour.  The points form a periodic sequence; [th] lists their directions, a full turn
    being 4. *)
From Verif Require Import Base Geometry Spec QcTac QcFast GeomProofs CyclicProofs.
From Coq Require Import Lqa.
Open Scope Qc_scope.

Lemma Qc_sign (x : Qc) : 0 < x \/ x = Q2Qc 0 \/ x < 0.
Proof. destruct (Qc_lt_eq_gt 0 x) as [H|[H|H]]; [left; exact H|right; left; symmetry; exact H|right; right; exact H]. Qed.
Lemma qpos (x y : Qc) : 0 < x -> 0 < y -> 0 < x * y.
Proof. intros Hx Hy. qcn. Qed.
Lemma qsq (x : Qc) : 0 <= x * x.
Proof. destruct (Qc_sign x) as [H|[H|H]]; [qcn|rewrite H; apply Qcle_refl|qcn]. Qed.
Lemma combine_signs (s x k a b c d : Qc) : x * k = a * b + c * d -> 0 < k -> 0 < b -> 0 < c ->
  0 < s * a -> 0 < s * d -> 0 < s * x.
Proof.
  intros E Hk Hb Hc Ha Hd. pose proof (qpos _ _ Ha Hb) as H1. pose proof (qpos _ _ Hd Hc) as H2.
  assert (H : 0 < s * x * k).
  { replace (s * x * k) with (s * (x * k)) by ring. rewrite E.
    replace (s * (a * b + c * d)) with (s * a * b + s * d * c) by ring. clear - H1 H2. ql. }
  destruct (Qc_sign (s * x)) as [G|[G|G]]; [exact G| |]; exfalso.
  - rewrite G in H. clear - H. qcl.
  - clear - G H Hk. set (z := s * x) in *. clearbody z. qcn.
Qed.

Section Fan.
  Variables (n : nat) (p : nat -> point) (th : nat -> Q) (O : point).
  Hypothesis Hn : (3 <= n)%nat.
  Hypothesis per : forall k, p (k + n)%nat = p k.
  Hypothesis thper : forall k, (th (k + n)%nat == th k + 4)%Q.
  Hypothesis inc : forall k, (th k < th (S k))%Q.
  Hypothesis rule : forall i j, (i < j)%nat -> (th j - th i < 2)%Q -> left_turn O (p i) (p j).

  Definition turn (k : nat) : Qc := cross (p k) (p (S k)) (p (S (S k))).

  Lemma inc_le i j : (i <= j)%nat -> (th i <= th j)%Q.
  Proof. induction 1 as [|j H IH]; [lra|]. pose proof (inc j). lra. Qed.
  Lemma inc_lt i j : (i < j)%nat -> (th i < th j)%Q.
  Proof. intros H. pose proof (inc i). pose proof (inc_le (S i) j H). lra. Qed.

  (** *** Chains. *)
  Lemma chain_first s a d : (th d - th a <= 2)%Q -> (S a < d)%nat ->
    (forall k, (a <= k)%nat -> (S (S k) <= d)%nat -> 0 < s * turn k) ->
    0 < s * cross (p a) (p (S a)) (p d).
  Proof.
    remember (d - a)%nat as m eqn:Em. revert a Em. induction m as [|m IH]; intros a Em Hs Ha Ht; [lia|].
    destruct (Nat.eq_dec d (S (S a))) as [-> |Hne]; [apply Ht; lia|].
    pose proof (inc a) as H0. pose proof (inc (S a)) as H1.
    pose proof (inc_lt (S (S a)) d ltac:(lia)) as H2.
    apply (combine_signs s _ (cross O (p (S a)) (p (S (S a)))) (turn a) (cross O (p (S a)) (p d))
      (cross O (p a) (p (S a))) (cross (p (S a)) (p (S (S a))) (p d))).
    - unfold turn, cross. ring.
    - apply rule; [lia|lra].
    - apply rule; [lia|lra].
    - apply rule; [lia|lra].
    - apply Ht; lia.
    - apply (IH (S a)); [lia|lra|lia|]. intros k Hk1 Hk2. apply Ht; lia.
  Qed.
  Lemma chain s a d : (th d - th a <= 2)%Q ->
    (forall k, (a <= k)%nat -> (S (S k) <= d)%nat -> 0 < s * turn k) ->
    forall x y z, (a <= x)%nat -> (x < y)%nat -> (y < z)%nat -> (z <= d)%nat -> 0 < s * cross (p x) (p y) (p z).
  Proof.
    intros Hs Ht x y z Hx Hxy Hyz Hz.
    pose proof (inc_le a x Hx) as Ga. pose proof (inc_le z d Hz) as Gd. clear Hx.
    assert (Hx : (a <= x)%nat).
    { destruct (Nat.le_gt_cases a x) as [H|H]; [exact H|]. pose proof (inc_lt x a H). lra. }
    remember (y - x)%nat as m eqn:Em. revert x Em Hxy Ga Hx. induction m as [|m IH]; intros x Em Hxy Ga Hx; [lia|].
    assert (F : forall y, (S x < y)%nat -> (y <= d)%nat -> 0 < s * cross (p x) (p (S x)) (p y)).
    { intros w H1 H2. apply chain_first; [pose proof (inc_le w d H2); lra|lia|]. intros k G1 G2. apply Ht; lia. }
    destruct (Nat.eq_dec y (S x)) as [-> |Hne]; [apply F; lia|].
    pose proof (inc x). pose proof (inc_lt (S x) y ltac:(lia)). pose proof (inc_lt y z Hyz).
    apply (combine_signs s _ (cross O (p (S x)) (p y)) (cross (p (S x)) (p y) (p z)) (cross O (p x) (p y))
      (cross O (p y) (p z)) (cross (p x) (p (S x)) (p y))).
    - unfold cross. ring.
    - apply rule; [lia|lra].
    - apply rule; [lia|lra].
    - apply rule; [lia|lra].
    - apply (IH (S x)); [lia|lia|lra|lia].
    - apply F; lia.
  Qed.

  (** *** All around. *)
  Definition convexly (s : Qc) : Prop := forall k m, (S k < m)%nat -> (m < k + n)%nat -> 0 < s * cross (p k) (p (S k)) (p m).
  Lemma turn_per k : turn (k + n) = turn k.
  Proof.
    unfold turn. replace (S (S (k + n))) with (S (S k) + n)%nat by lia. replace (S (k + n)) with (S k + n)%nat by lia.
    rewrite !per. reflexivity.
  Qed.
  Lemma around : (forall k, (th (S k) - th k < 2)%Q) -> (forall k, 0 < turn k) -> convexly 1.
  Proof.
    intros Hg Ht k m H1 H2. replace (1 * cross (p k) (p (S k)) (p m)) with (cross (p k) (p (S k)) (p m)) by ring.
    assert (Ht1 : forall a d i, (a <= i)%nat -> (S (S i) <= d)%nat -> 0 < 1 * turn i).
    { intros a d i _ _. replace (1 * turn i) with (turn i) by ring. apply Ht. }
    assert (E1 : p (S k) = p (S (k + n))) by (rewrite <- (per (S k)); f_equal; lia).
    destruct (Qlt_le_dec 2 (th m - th k)) as [F1|F1].
    - pose proof (thper (S k)) as T1. pose proof (thper k) as T0. replace (S k + n)%nat with (S (k + n)) in T1 by lia.
      destruct (Qlt_le_dec 2 (th (S (k + n)) - th m)) as [F2|F2].
      + pose proof (rule k (S k) ltac:(lia) (Hg k)) as R1.
        pose proof (inc_lt (S k) m H1) as I1. pose proof (inc_lt m (k + n) H2) as I2.
        assert (R2 : left_turn O (p (S k)) (p m)) by (apply rule; [exact H1|lra]).
        assert (R3 : left_turn O (p m) (p (k + n)%nat)) by (apply rule; [exact H2|lra]).
        rewrite per in R3. unfold left_turn in *.
        replace (cross (p k) (p (S k)) (p m)) with (cross O (p k) (p (S k)) + cross O (p (S k)) (p m) + cross O (p m) (p k))
          by (unfold cross; ring). clear - R1 R2 R3. ql.
      + pose proof (chain 1 m (S (k + n)) F2 (Ht1 m _) m (k + n) (S (k + n))%nat ltac:(lia) ltac:(lia) ltac:(lia) ltac:(lia)) as H.
        rewrite <- E1, per in H. replace (1 * cross (p m) (p k) (p (S k))) with (cross (p k) (p (S k)) (p m)) in H by (unfold cross; ring).
        exact H.
    - pose proof (chain 1 k m F1 (Ht1 k m) k (S k) m ltac:(lia) ltac:(lia) ltac:(lia) ltac:(lia)) as H.
      replace (1 * cross (p k) (p (S k)) (p m)) with (cross (p k) (p (S k)) (p m)) in H by ring. exact H.
  Qed.
  (** The farthest vertex turns left. *)
  Definition norm (k : nat) : Qc := (px (p k) - px O) * (px (p k) - px O) + (py (p k) - py O) * (py (p k) - py O).
  Lemma far_max : exists k, (k < n)%nat /\ forall j, norm j <= norm k.
  Proof.
    assert (H : forall m, (0 < m)%nat -> exists k, (k < m)%nat /\ forall j, (j < m)%nat -> norm j <= norm k).
    { induction m as [|m IH]; intros Hm; [lia|]. destruct (Nat.eq_dec m 0) as [-> |Hz].
      - exists 0%nat. split; [lia|]. intros j Hj. replace j with 0%nat by lia. apply Qcle_refl.
      - destruct (IH ltac:(lia)) as (k & Hk & H). destruct (Qclt_le_dec (norm k) (norm m)) as [L|L].
        + exists m. split; [lia|]. intros j Hj. destruct (Nat.eq_dec j m) as [-> |E]; [apply Qcle_refl|].
          apply Qclt_le_weak. apply (Qcle_lt_trans _ (norm k)); [apply H; lia|exact L].
        + exists k. split; [lia|]. intros j Hj. destruct (Nat.eq_dec j m) as [-> |E]; [exact L|apply H; lia]. }
    destruct (H n ltac:(lia)) as (k & Hk & G). exists k. split; [exact Hk|].
    intros j. assert (E : forall q r, norm (r + q * n) = norm r).
    { induction q as [|q IHq]; intros r; [f_equal; lia|]. replace (r + S q * n)%nat with ((r + q * n) + n)%nat by lia.
      unfold norm at 1. rewrite per. fold (norm (r + q * n)). apply IHq. }
    rewrite (Nat.div_mod j n) by lia. rewrite Nat.add_comm, Nat.mul_comm, E. apply G. apply Nat.mod_upper_bound. lia.
  Qed.
  Lemma far_left k : (forall j, norm j <= norm (S k)) -> left_turn O (p k) (p (S k)) -> left_turn O (p (S k)) (p (S (S k))) ->
    0 <= turn k.
  Proof.
    intros Hf R1 R2. pose proof (Hf k) as F1. pose proof (Hf (S (S k))) as F2.
    unfold left_turn, turn, norm, cross in *.
    set (a1 := px (p k)) in *. set (a2 := py (p k)) in *. set (b1 := px (p (S k))) in *. set (b2 := py (p (S k))) in *.
    set (d1 := px (p (S (S k)))) in *. set (d2 := py (p (S (S k)))) in *. set (o1 := px O) in *. set (o2 := py O) in *.
    clearbody a1 a2 b1 b2 d1 d2 o1 o2. clear - R1 R2 F1 F2.
    set (u1 := a1 - o1) in *. set (u2 := a2 - o2) in *. set (v1 := b1 - o1) in *. set (v2 := b2 - o2) in *.
    set (w1 := d1 - o1) in *. set (w2 := d2 - o2) in *.
    replace ((b1 - a1) * (d2 - a2) - (b2 - a2) * (d1 - a1)) with ((v1 - u1) * (w2 - u2) - (v2 - u2) * (w1 - u1))
      by (unfold u1, u2, v1, v2, w1, w2; ring).
    clearbody u1 u2 v1 v2 w1 w2. clear a1 a2 b1 b2 d1 d2 o1 o2.
    (* dot products of the neighbours' offsets with the way back to the center *)
    assert (D1 : 0 <= v1 * v1 + v2 * v2 - (u1 * v1 + u2 * v2)).
    { pose proof (qsq (u1 - v1)). pose proof (qsq (u2 - v2)). clear R1 R2 F2. qcl. }
    assert (D2 : 0 <= v1 * v1 + v2 * v2 - (w1 * v1 + w2 * v2)).
    { pose proof (qsq (w1 - v1)). pose proof (qsq (w2 - v2)). clear R1 R2 F1. qcl. }
    set (e1 := v1 * v1 + v2 * v2 - (u1 * v1 + u2 * v2)) in *. set (e2 := v1 * v1 + v2 * v2 - (w1 * v1 + w2 * v2)) in *.
    set (q := (v1 - u1) * (w2 - u2) - (v2 - u2) * (w1 - u1)).
    set (r1 := u1 * v2 - u2 * v1) in *. set (r2 := v1 * w2 - v2 * w1) in *.
    assert (E : q * (v1 * v1 + v2 * v2) = e1 * r2 + e2 * r1) by (unfold q, e1, e2, r1, r2; ring).
    assert (V : 0 < v1 * v1 + v2 * v2).
    { destruct (Qc_sign v1) as [G|[G|G]]; destruct (Qc_sign v2) as [G'|[G'|G']]; try (clear - G G'; qcn).
      exfalso. unfold r1 in R1. rewrite G, G' in R1. clear - R1. qcl. }
    set (v := v1 * v1 + v2 * v2) in *. clearbody e1 e2 q r1 r2 v.
    clear - D1 D2 R1 R2 E V. destruct (Qc_sign q) as [G|[G|G]]; [apply Qclt_le_weak; exact G|rewrite G; apply Qcle_refl|].
    exfalso. qcn.
  Qed.

  (** *** A point inside all the angles. *)
  Variable c : point.
  Hypothesis angles : forall k, turn k <> Q2Qc 0 /\ c <> p (S k) /\ in_angle (p (S k)) (p k) (p (S (S k))) c.
  Hypothesis angular : exists psi : Q,
    (forall k, left_turn O (p k) c -> exists z : Z, (0 < psi + 4 * inject_Z z - th k < 2)%Q)
    /\ (forall k, left_turn O c (p k) -> exists z : Z, (0 < th k - psi - 4 * inject_Z z < 2)%Q).
  Definition within (k : nat) : Prop := exists t : Qc, 0 < t /\ t < 1
    /\ px c = px (p k) + t * (px (p (S k)) - px (p k)) /\ py c = py (p k) + t * (py (p (S k)) - py (p k)).

  Lemma coefficients k : exists a b : Qc, 0 <= a /\ 0 <= b /\ (a <> Q2Qc 0 \/ b <> Q2Qc 0)
    /\ px c = px (p (S k)) + a * (px (p k) - px (p (S k))) + b * (px (p (S (S k))) - px (p (S k)))
    /\ py c = py (p (S k)) + a * (py (p k) - py (p (S k))) + b * (py (p (S (S k))) - py (p (S k)))
    /\ cross (p k) (p (S k)) c = b * turn k /\ cross (p (S k)) (p (S (S k))) c = a * turn k.
  Proof.
    destruct (angles k) as (_ & Hc & a & b & Ha & Hb & Hx & Hy). exists a, b.
    split; [exact Ha|]. split; [exact Hb|]. split.
    { destruct (Qc_sign a) as [G|[G|G]]; [left; intros ->; clear - G; qcl| |left; intros ->; clear - G; qcl].
      right. intros E. apply Hc. destruct c as (cx, cy), (p (S k)) as (bx, by_). cbn [px py] in *. subst a b.
      rewrite Hx, Hy. f_equal; ring. }
    split; [exact Hx|]. split; [exact Hy|]. unfold turn, cross. rewrite Hx, Hy. split; ring.
  Qed.
  Lemma zero_within k : cross (p (S k)) (p (S (S k))) c = Q2Qc 0 -> within (S k).
  Proof.
    intros E. destruct (coefficients k) as (a & b & Ha & Hb & Hab & Hx & Hy & _ & E2).
    destruct (coefficients (S k)) as (a' & b' & Ha' & Hb' & Hab' & Hx' & Hy' & E1' & _).
    destruct (angles k) as (T & _). destruct (angles (S k)) as (T' & _).
    rewrite E in E2, E1'.
    assert (Za : a = Q2Qc 0) by (apply (mul_zero (turn k)); [rewrite Qcmult_comm; symmetry; exact E2|exact T]).
    assert (Zb : b' = Q2Qc 0) by (apply (mul_zero (turn (S k))); [rewrite Qcmult_comm; symmetry; exact E1'|exact T']).
    assert (Pb : 0 < b).
    { apply Qcle_lt_or_eq in Hb. destruct Hb as [Hb|Hb]; [exact Hb|]. destruct Hab as [G|G]; congruence. }
    assert (Pa : 0 < a').
    { apply Qcle_lt_or_eq in Ha'. destruct Ha' as [Hb'0|Hb'0]; [exact Hb'0|]. destruct Hab' as [G|G]; congruence. }
    subst a b'. exists b. split; [exact Pb|].
    set (u := p (S k)) in *. set (v := p (S (S k))) in *.
    assert (Fx : (b + a' - 1) * (px v - px u) = 0).
    { transitivity ((px u + 0 * (px (p k) - px u) + b * (px v - px u)) - (px v + a' * (px u - px v) + 0 * (px (p (S (S (S k)))) - px v))).
      - ring.
      - rewrite <- Hx, <- Hx'. ring. }
    assert (Fy : (b + a' - 1) * (py v - py u) = 0).
    { transitivity ((py u + 0 * (py (p k) - py u) + b * (py v - py u)) - (py v + a' * (py u - py v) + 0 * (py (p (S (S (S k)))) - py v))).
      - ring.
      - rewrite <- Hy, <- Hy'. ring. }
    assert (Eb : b + a' - 1 = 0).
    { destruct (Qc_eq_dec (b + a' - 1) 0) as [G|G]; [exact G|]. exfalso. apply T.
      assert (Gx : px v - px u = 0) by (apply (mul_zero (b + a' - 1)); [exact Fx|exact G]).
      assert (Gy : py v - py u = 0) by (apply (mul_zero (b + a' - 1)); [exact Fy|exact G]).
      unfold turn. fold u v.
      replace (cross (p k) u v) with ((px u - px (p k)) * (py v - py u) - (py u - py (p k)) * (px v - px u)) by (unfold cross; ring).
      rewrite Gx, Gy. ring. }
    split; [clear - Eb Pa; qcl|]. split; [rewrite Hx; ring|rewrite Hy; ring].
  Qed.
  Lemma opposite_within k : turn k * turn (S k) < 0 -> within (S k).
  Proof.
    intros H. apply zero_within. destruct (coefficients k) as (a & b & Ha & Hb & Hab & Hx & Hy & _ & E2).
    destruct (coefficients (S k)) as (a' & b' & Ha' & Hb' & Hab' & Hx' & Hy' & E1' & _).
    rewrite E2. rewrite E2 in E1'. set (T := turn k) in *. set (T' := turn (S k)) in *. clearbody T T'. clear - Ha Hb' E1' H.
    destruct (Qc_sign a) as [G|[G|G]]; [exfalso|rewrite G; ring|exfalso; clear - G Ha; qcl].
    destruct (Qc_sign T) as [K|[K|K]].
    - assert (K' : T' < 0) by (clear - K H; qcn). qcn.
    - rewrite K in H. clear - H. qcl.
    - assert (K' : 0 < T') by (clear - K H; qcn). qcn.
  Qed.
  Lemma agree k s : ~ within (S k) -> (0 < s * turn k <-> 0 < s * turn (S k)).
  Proof.
    intros H. destruct (Qc_sign s) as [Hs|[Hs|Hs]]; destruct (Qc_sign (turn k)) as [A|[A|A]];
    destruct (Qc_sign (turn (S k))) as [B|[B|B]]; try (exfalso; apply (proj1 (angles k)); exact A);
    try (exfalso; apply (proj1 (angles (S k))); exact B);
    try (exfalso; apply H, opposite_within; clear - A B; qcn);
    try (rewrite Hs; split; intros G; exfalso; clear - G; qcl);
    (split; intros _; clear - Hs A B; qcn) || (split; intros G; exfalso; clear - Hs A B G; qcn).
  Qed.

  Lemma within_sector k : (th (S k) - th k < 2)%Q -> within k -> left_turn O (p k) c /\ left_turn O c (p (S k)).
  Proof.
    intros Hg (t & H0 & H1 & Hx & Hy). pose proof (rule k (S k) ltac:(lia) Hg) as R. unfold left_turn in *.
    replace (cross O (p k) c) with (t * cross O (p k) (p (S k))) by (unfold cross; rewrite Hx, Hy; ring).
    replace (cross O c (p (S k))) with ((1 - t) * cross O (p k) (p (S k))) by (unfold cross; rewrite Hx, Hy; ring).
    split; apply qpos; try assumption. clear - H1. qcl.
  Qed.
  Lemma sectors k m : (k < m)%nat -> (m < k + n)%nat -> (th (S k) - th k < 2)%Q -> (th (S m) - th m < 2)%Q ->
    within k -> within m -> False.
  Proof.
    intros H1 H2 G1 G2 W1 W2. destruct angular as (psi & A1 & A2).
    assert (L : forall j, (th (S j) - th j < 2)%Q -> within j -> exists z : Z, (th j < psi + 4 * inject_Z z < th (S j))%Q).
    { intros j G W. destruct (within_sector j G W) as (L1 & L2). apply A1 in L1. apply A2 in L2.
      destruct L1 as (z & Hz), L2 as (z' & Hz'). pose proof (inc j) as I. exists z.
      assert (E : z = z').
      { destruct (Z.lt_trichotomy z z') as [F|[F|F]]; [|exact F|]; exfalso.
        - assert (inject_Z z + 1 <= inject_Z z')%Q by (change 1%Q with (inject_Z 1); rewrite <- inject_Z_plus, <- Zle_Qle; lia). lra.
        - assert (inject_Z z' + 1 <= inject_Z z)%Q by (change 1%Q with (inject_Z 1); rewrite <- inject_Z_plus, <- Zle_Qle; lia). lra. }
      subst z'. lra. }
    destruct (L k G1 W1) as (z & Hz). destruct (L m G2 W2) as (z' & Hz').
    pose proof (inc_le (S k) m H1) as I1. pose proof (inc_le (S m) (k + n) H2) as I2. pose proof (thper k) as T.
    destruct (Z_lt_le_dec z z') as [F|F].
    - assert (inject_Z z + 1 <= inject_Z z')%Q by (change 1%Q with (inject_Z 1); rewrite <- inject_Z_plus, <- Zle_Qle; lia). lra.
    - assert (inject_Z z' <= inject_Z z)%Q by (rewrite <- Zle_Qle; lia). lra.
  Qed.

  Lemma change (P : nat -> Prop) (D : forall k, {P k} + {~ P k}) i j : (i < j)%nat -> P i -> ~ P j ->
    exists a, (i <= a)%nat /\ (a < j)%nat /\ P a /\ ~ P (S a).
  Proof.
    induction 1 as [|j Hij IH]; intros Hi Hj.
    - exists i. auto.
    - destruct (D j) as [G|G].
      + exists j. split; [unfold lt in Hij; lia|]. split; [lia|]. auto.
      + destruct (IH Hi G) as (a & A1 & A2 & A3). exists a. split; [exact A1|]. split; [lia|exact A3].
  Qed.
  Lemma positive_dec s k : {0 < s * turn k} + {~ 0 < s * turn k}.
  Proof. destruct (Qclt_le_dec 0 (s * turn k)) as [H|H]; [left; exact H|right; apply Qcle_not_lt; exact H]. Qed.
  Lemma change_within s k : s <> Q2Qc 0 -> 0 < s * turn k -> ~ 0 < s * turn (S k) -> within (S k).
  Proof.
    intros Hs H1 H2. apply opposite_within. pose proof (proj1 (angles (S k))) as T. destruct (Qc_sign s) as [G|[G|G]]; [|congruence|];
    destruct (Qc_sign (turn (S k))) as [B|[B|B]]; try congruence; try (exfalso; apply H2; clear - G B; qcn);
    destruct (Qc_sign (turn k)) as [A|[A|A]]; try (clear - A B; qcn); exfalso; try (rewrite A in H1); clear - G A H1; qcn.
  Qed.
  Lemma one_neq : Q2Qc 1 <> Q2Qc 0.
  Proof. intros H. apply (f_equal (fun q : Qc => qeqb q (Q2Qc 0))) in H. vm_compute in H. discriminate. Qed.

  Lemma round : (forall k, (th (S k) - th k < 2)%Q) -> convexly 1.
  Proof.
    intros Hg. apply around; [exact Hg|].
    destruct far_max as (k & Hk & Hf).
    set (k0 := (k + n - 1)%nat).
    assert (E : norm (S k0) = norm k).
    { unfold norm. replace (S k0) with (k + n)%nat by (unfold k0; lia). rewrite per. reflexivity. }
    assert (T0 : 0 <= turn k0).
    { apply far_left; [intros j; rewrite E; apply Hf|apply rule; [lia|apply Hg]|apply rule; [lia|apply Hg]]. }
    assert (P0 : 0 < 1 * turn k0).
    { apply Qcle_lt_or_eq in T0. destruct T0 as [T0|T0]; [clear - T0; qcl|].
      exfalso. apply (proj1 (angles k0)). symmetry. exact T0. }
    assert (Q : forall q r, turn (r + q * n) = turn r).
    { induction q as [|q IHq]; intros r; [f_equal; lia|]. replace (r + S q * n)%nat with ((r + q * n) + n)%nat by lia.
      rewrite turn_per. apply IHq. }
    assert (Hr : forall r, (k0 < r)%nat -> (r < k0 + n)%nat -> 0 < 1 * turn r).
    { intros r R1 R2. destruct (positive_dec 1 r) as [G|G]; [exact G|]. exfalso.
      destruct (change (fun k => 0 < 1 * turn k) (positive_dec 1) k0 r R1 P0 G) as (a & A1 & A2 & A3 & A4).
      pose proof (change_within 1 a one_neq A3 A4) as W1.
      assert (G' : ~ ~ 0 < 1 * turn (k0 + n)) by (rewrite turn_per; auto).
      destruct (change (fun k => ~ 0 < 1 * turn k)
        (fun k => match positive_dec 1 k with left H => right (fun K => K H) | right H => left H end) r (k0 + n) R2 G G') as (b & B1 & B2 & B3 & B4).
      assert (W2 : within (S b)).
      { apply (change_within (- (1))); [intros K; apply one_neq; clear - K; qcl| |].
        - destruct (Qc_sign (turn b)) as [U|[U|U]]; [exfalso; apply B3; clear - U; qcl|exfalso; apply (proj1 (angles b)); exact U|clear - U; qcl].
        - intros U. apply B4. intros V. clear - U V. qcl. }
      apply (sectors (S a) (S b)); [lia|lia|apply Hg|apply Hg|exact W1|exact W2]. }
    intros j. rewrite <- (Q k0 j). set (i := (j + k0 * n)%nat).
    assert (Hi : (k0 <= i)%nat) by (unfold i; nia).
    replace i with (k0 + (i - k0))%nat by lia. rewrite (Nat.div_mod (i - k0) n) by lia.
    replace (k0 + (n * ((i - k0) / n) + (i - k0) mod n))%nat with ((k0 + (i - k0) mod n) + ((i - k0) / n) * n)%nat by lia.
    rewrite Q. pose proof (Nat.mod_upper_bound (i - k0) n ltac:(lia)) as B.
    assert (H : 0 < 1 * turn (k0 + (i - k0) mod n)).
    { destruct (Nat.eq_dec ((i - k0) mod n) 0) as [Z|Z]; [rewrite Z, Nat.add_0_r; exact P0|]. apply Hr; lia. }
    clear - H. qcl.
  Qed.

  (** *** Within half a turn. *)
  Lemma per_mul q r : p (r + q * n)%nat = p r.
  Proof.
    induction q as [|q IHq]; [f_equal; lia|]. replace (r + S q * n)%nat with ((r + q * n) + n)%nat by lia.
    rewrite per. apply IHq.
  Qed.
  Lemma half_convex s : (2 <= th n - th (n - 1)%nat)%Q -> (forall k, (S (S k) < n)%nat -> 0 < s * turn k) -> convexly s.
  Proof.
    intros Hc Ht.
    assert (Hs : (th (n - 1)%nat - th 0%nat <= 2)%Q).
    { pose proof (thper 0) as T. cbn [Nat.add] in T. lra. }
    assert (C : forall x y z, (x < y)%nat -> (y < z)%nat -> (z < n)%nat -> 0 < s * cross (p x) (p y) (p z)).
    { intros x y z H1 H2 H3. apply (chain s 0 (n - 1) Hs); try lia. intros k _ H. apply Ht. lia. }
    assert (F : forall k m, (k < n)%nat -> (S k < m)%nat -> (m < k + n)%nat -> 0 < s * cross (p k) (p (S k)) (p m)).
    { intros k m Hk H1 H2. destruct (Nat.lt_ge_cases m n) as [G|G]; [apply C; lia|].
      assert (Em : p m = p (m - n)%nat) by (rewrite <- (per (m - n)); f_equal; lia). rewrite Em.
      destruct (Nat.eq_dec (S k) n) as [E|E].
      - assert (E0 : p (S k) = p 0%nat) by (rewrite <- (per 0); f_equal; lia). rewrite E0.
        pose proof (C 0%nat (m - n)%nat k ltac:(lia) ltac:(lia) ltac:(lia)) as H.
        replace (cross (p k) (p 0%nat) (p (m - n)%nat)) with (cross (p 0%nat) (p (m - n)%nat) (p k)) by (unfold cross; ring). exact H.
      - pose proof (C (m - n)%nat k (S k) ltac:(lia) ltac:(lia) ltac:(lia)) as H.
        replace (cross (p k) (p (S k)) (p (m - n)%nat)) with (cross (p (m - n)%nat) (p k) (p (S k))) by (unfold cross; ring). exact H. }
    intros k m H1 H2. pose proof (Nat.div_mod k n ltac:(lia)) as D. pose proof (Nat.mod_upper_bound k n ltac:(lia)) as B.
    set (q := (k / n)%nat) in *. set (r := (k mod n)%nat) in *.
    assert (E1 : p k = p r) by (rewrite <- (per_mul q r); f_equal; nia).
    assert (E2 : p (S k) = p (S r)) by (rewrite <- (per_mul q (S r)); f_equal; nia).
    assert (E3 : p m = p (m - q * n)%nat) by (rewrite <- (per_mul q (m - q * n)); f_equal; nia).
    rewrite E1, E2, E3. apply F; nia.
  Qed.

  Lemma sum_positive (g : nat -> Qc) l : (forall k, In k l -> 0 <= g k) -> (exists k, In k l /\ 0 < g k) -> 0 < qsum (map g l).
  Proof.
    induction l as [|x l IH]; intros Hp (k & Hk & Hg); [destruct Hk|]. cbn [map qsum fold_right].
    assert (N : 0 <= qsum (map g l)).
    { clear - Hp. induction l as [|y l IH]; [apply Qcle_refl|]. cbn [map qsum fold_right].
      pose proof (Hp y ltac:(right; left; reflexivity)) as Hy.
      assert (0 <= qsum (map g l)).
      { apply IH. intros k Hk. apply Hp. destruct Hk as [->|Hk]; [left; reflexivity|right; right; exact Hk]. }
      unfold qsum in *. clear - Hy H. ql. }
    destruct Hk as [->|Hk].
    - unfold qsum in *. clear - N Hg. ql.
    - pose proof (Hp x ltac:(left; reflexivity)) as Hx.
      assert (0 < qsum (map g l)) by (apply IH; [intros j Hj; apply Hp; right; exact Hj|exists k; auto]).
      unfold qsum in *. clear - Hx H. ql.
  Qed.
  (** A change of direction inside puts [c] on two edges; then it is not the centroid. *)
  Hypothesis balance : forall q, qsum (map (fun k => (cross c q (p k) + cross c q (p (S k))) * cross c (p k) (p (S k))) (seq 0 n)) = 0.

  Lemma half_mixed s i : (2 <= th n - th (n - 1)%nat)%Q -> s <> Q2Qc 0 ->
    (1 <= i)%nat -> (S (S i) < n)%nat ->
    (forall k, (k < i)%nat -> 0 < s * turn k) -> (forall k, (i <= k)%nat -> (S (S k) < n)%nat -> 0 < - s * turn k) ->
    within i -> within (n - 1) -> False.
  Proof.
    intros Hc Hsn Hi1 Hi2 Ht1 Ht2 (t & T0 & T1 & Tx & Ty) (u & U0 & U1 & Ux & Uy).
    replace (S (n - 1)) with (0 + n)%nat in Ux, Uy by lia. rewrite per in Ux, Uy.
    assert (Hspan : (th (n - 1)%nat - th 0%nat <= 2)%Q).
    { pose proof (thper 0) as T. cbn [Nat.add] in T. lra. }
    assert (C1 : forall x y z, (x < y)%nat -> (y < z)%nat -> (z <= S i)%nat -> 0 < s * cross (p x) (p y) (p z)).
    { intros x y z H1 H2 H3. apply (chain s 0 (S i)); try lia.
      - pose proof (inc_le (S i) (n - 1) ltac:(lia)). lra.
      - intros k _ H. apply Ht1. lia. }
    assert (C2 : forall x y z, (i <= x)%nat -> (x < y)%nat -> (y < z)%nat -> (z < n)%nat -> 0 < - s * cross (p x) (p y) (p z)).
    { intros x y z H0 H1 H2 H3. apply (chain (- s) i (n - 1)); try lia.
      - pose proof (inc_le 0 i ltac:(lia)). lra.
      - intros k H H'. apply Ht2; lia. }
    assert (Cc : forall a b, cross c a b = (1 - t) * cross (p i) a b + t * cross (p (S i)) a b).
    { intros a b. unfold cross. rewrite Tx, Ty. ring. }
    assert (T1' : 0 < 1 - t) by (clear - T1; qcl).
    (* edges before [i] *)
    assert (A1 : forall x y, (x < y)%nat -> (y <= i)%nat -> 0 < s * cross c (p x) (p y)).
    { intros x y H1 H2. rewrite Cc. pose proof (C1 x y (S i) H1 ltac:(lia) ltac:(lia)) as G2.
      assert (G1 : 0 <= s * cross (p i) (p x) (p y)).
      { destruct (Nat.eq_dec y i) as [->|Ne].
        - replace (s * cross (p i) (p x) (p i)) with (Q2Qc 0) by (unfold cross; ring). apply Qcle_refl.
        - apply Qclt_le_weak. replace (cross (p i) (p x) (p y)) with (cross (p x) (p y) (p i)) by (unfold cross; ring). apply C1; lia. }
      replace (cross (p (S i)) (p x) (p y)) with (cross (p x) (p y) (p (S i))) by (unfold cross; ring).
      set (a := cross (p i) (p x) (p y)) in *. set (b := cross (p x) (p y) (p (S i))) in *. clearbody a b.
      replace (s * ((1 - t) * a + t * b)) with ((1 - t) * (s * a) + t * (s * b)) by ring.
      pose proof (qpos _ _ T0 G2) as K. clear - K T1' G1. set (e := s * a) in *. set (d := s * b) in *. set (w := 1 - t) in *. clearbody e d w.
      assert (0 <= w * e) by qcn. clear G1 T1'. ql. }
    (* edges after it *)
    assert (A2 : forall x y, (i < x)%nat -> (x < y)%nat -> (y < n)%nat -> 0 < - s * cross c (p x) (p y)).
    { intros x y H0 H1 H2. rewrite Cc. pose proof (C2 i x y ltac:(lia) ltac:(lia) ltac:(lia) ltac:(lia)) as G2.
      assert (G1 : 0 <= - s * cross (p (S i)) (p x) (p y)).
      { destruct (Nat.eq_dec x (S i)) as [->|Ne].
        - replace (- s * cross (p (S i)) (p (S i)) (p y)) with (Q2Qc 0) by (unfold cross; ring). apply Qcle_refl.
        - apply Qclt_le_weak. apply C2; lia. }
      set (a := cross (p i) (p x) (p y)) in *. set (b := cross (p (S i)) (p x) (p y)) in *. clearbody a b.
      replace (- s * ((1 - t) * a + t * b)) with ((1 - t) * (- s * a) + t * (- s * b)) by ring.
      pose proof (qpos _ _ T1' G2) as K. clear - K T0 G1. set (e := - s * a) in *. set (d := - s * b) in *. set (w := 1 - t) in *. clearbody e d w.
      assert (0 <= t * d) by qcn. clear G1 T0. ql. }
    (* the first vertex is opposite to the last *)
    assert (U1' : 0 < 1 - u) by (clear - U1; qcl).
    assert (Op : forall x, u * cross c (p 0%nat) x = - ((1 - u) * cross c (p (n - 1)%nat) x)).
    { intros x. unfold cross. rewrite Ux, Uy. ring. }
    assert (B : forall k, (i < k)%nat -> (S k < n)%nat -> 0 < - s * cross c (p 0%nat) (p k)).
    { intros k H1 H2. pose proof (A2 k (n - 1)%nat H1 ltac:(lia) ltac:(lia)) as G.
      replace (cross c (p k) (p (n - 1)%nat)) with (- cross c (p (n - 1)%nat) (p k)) in G by (unfold cross; ring).
      pose proof (Op (p k)) as E. set (a := cross c (p 0%nat) (p k)) in *. set (b := cross c (p (n - 1)%nat) (p k)) in *.
      clearbody a b. clear - G E U0 U1'.
      assert (K : 0 < - s * a * u).
      { replace (- s * a * u) with ((- s * - b) * (1 - u)).
        - apply qpos; assumption.
        - replace (- s * a * u) with (- s * (u * a)) by ring. rewrite E. ring. }
      set (z := - s * a) in *. clearbody z. clear G E. destruct (Qc_sign z) as [H|[H|H]]; [exact H|rewrite H in K; exfalso; clear - K; qcl|exfalso; clear - H K U0; qcn]. }
    assert (Z0 : cross c (p 0%nat) (p 0%nat) = 0) by (unfold cross; ring).
    assert (Zl : cross c (p 0%nat) (p (n - 1)%nat) = 0) by (unfold cross; rewrite Ux, Uy; ring).
    specialize (balance (p 0%nat)).
    set (g := fun k => (cross c (p 0%nat) (p k) + cross c (p 0%nat) (p (S k))) * cross c (p k) (p (S k))) in *.
    assert (S2 : 0 < s * s).
    { destruct (Qc_sign s) as [H|[H|H]]; [clear - H; qcn|congruence|clear - H; qcn]. }
    assert (Sg : forall k, 0 < s * s * g k -> 0 < g k).
    { intros k H. generalize dependent (g k). intros z H. destruct (Qc_sign z) as [K|[K|K]]; [exact K|rewrite K in H; exfalso; clear - H; qcl|].
      exfalso. set (w := s * s) in *. clearbody w. clear - S2 H K. qcn. }
    assert (P : forall k, (k < i)%nat -> 0 < g k).
    { intros k Hk. apply Sg. pose proof (A1 k (S k) ltac:(lia) ltac:(lia)) as G1. pose proof (A1 0%nat (S k) ltac:(lia) ltac:(lia)) as G2.
      assert (G3 : 0 <= s * cross c (p 0%nat) (p k)).
      { destruct k as [|k]; [rewrite Z0; clear; qcl|]. apply Qclt_le_weak, A1; lia. }
      replace (s * s * g k) with ((s * cross c (p 0%nat) (p k) + s * cross c (p 0%nat) (p (S k))) * (s * cross c (p k) (p (S k))))
        by (unfold g; ring).
      apply qpos; [|exact G1]. clear - G2 G3. ql. }
    assert (N : forall k, (i < k)%nat -> (S k < n)%nat -> 0 < g k).
    { intros k Hk Hk'. apply Sg. pose proof (A2 k (S k) ltac:(lia) ltac:(lia) ltac:(lia)) as G1. pose proof (B k ltac:(lia) ltac:(lia)) as G2.
      assert (G3 : 0 <= - s * cross c (p 0%nat) (p (S k))).
      { destruct (Nat.eq_dec (S (S k)) n) as [E|E]; [replace (S k) with (n - 1)%nat by lia; rewrite Zl; clear; qcl|].
        apply Qclt_le_weak, B; lia. }
      replace (s * s * g k) with ((- s * cross c (p 0%nat) (p k) + - s * cross c (p 0%nat) (p (S k))) * (- s * cross c (p k) (p (S k))))
        by (unfold g; ring).
      apply qpos; [|exact G1]. clear - G2 G3. ql. }
    assert (Gi : g i = 0).
    { unfold g. replace (cross c (p i) (p (S i))) with (Q2Qc 0); [ring|]. unfold cross. rewrite Tx, Ty. ring. }
    assert (Gl : g (n - 1)%nat = 0).
    { unfold g. replace (S (n - 1)) with (0 + n)%nat by lia. rewrite per.
      replace (cross c (p (n - 1)%nat) (p 0%nat)) with (Q2Qc 0); [ring|]. unfold cross. rewrite Ux, Uy. ring. }
    assert (K : 0 < qsum (map g (seq 0 n))).
    { apply sum_positive.
      - intros k Hk. apply in_seq in Hk. destruct (lt_eq_lt_dec k i) as [[H|H]|H].
        + apply Qclt_le_weak, P, H.
        + subst k. rewrite Gi. apply Qcle_refl.
        + destruct (Nat.eq_dec (S k) n) as [E|E].
          * replace k with (n - 1)%nat by lia. rewrite Gl. apply Qcle_refl.
          * apply Qclt_le_weak, N; lia.
      - exists 0%nat. split; [apply in_seq; lia|apply P; lia]. }
    rewrite balance in K. revert K. apply Qlt_irrefl.
  Qed.

  Lemma negated s k : s <> Q2Qc 0 -> (~ 0 < s * turn k <-> 0 < - s * turn k).
  Proof.
    intros Hs. pose proof (proj1 (angles k)) as T.
    assert (N : s * turn k <> 0) by (intros E; apply Qcmult_integral in E; tauto).
    replace (- s * turn k) with (- (s * turn k)) by ring. set (z := s * turn k) in *. clearbody z.
    destruct (Qc_sign z) as [H|[H|H]]; [|congruence|]; split; intros G.
    - exfalso. apply G. exact H.
    - intros _. clear - H G. qcl.
    - clear - H. qcl.
    - intros K. clear - H K. qcl.
  Qed.
  Lemma half_sign s : (2 <= th n - th (n - 1)%nat)%Q -> s <> Q2Qc 0 -> 0 < s * turn 0 ->
    forall k, (S (S k) < n)%nat -> 0 < s * turn k.
  Proof.
    intros Hc Hs H0 j Hj. destruct (positive_dec s j) as [G|G]; [exact G|]. exfalso.
    assert (J : (0 < j)%nat) by (destruct j; [contradiction|lia]).
    destruct (change (fun k => 0 < s * turn k) (positive_dec s) 0 j J H0 G) as (a & _ & A2 & A3 & A4).
    pose proof (change_within s a Hs A3 A4) as W.
    assert (Hspan : (th (n - 1)%nat - th 0%nat <= 2)%Q).
    { pose proof (thper 0) as T. cbn [Nat.add] in T. lra. }
    assert (Gap : forall k, (S k < n)%nat -> (th (S k) - th k < 2)%Q).
    { intros k Hk. destruct k as [|k].
      - pose proof (inc_lt 1 (n - 1) ltac:(lia)). lra.
      - pose proof (inc_lt 0 (S k) ltac:(lia)). pose proof (inc_le (S (S k)) (n - 1) ltac:(lia)). lra. }
    assert (NW : forall k, (S k < n)%nat -> k <> S a -> ~ within k).
    { intros k Hk Hne Wk. destruct (Nat.lt_ge_cases k (S a)) as [L|L].
      - apply (sectors k (S a)); try assumption; try lia; apply Gap; lia.
      - apply (sectors (S a) k); try assumption; try lia; apply Gap; lia. }
    assert (P1 : forall k, (k < S a)%nat -> 0 < s * turn k).
    { induction k as [|k IH]; intros Hk; [exact H0|]. apply (agree k s); [apply NW; lia|apply IH; lia]. }
    assert (P2 : forall k, (S a <= k)%nat -> (S k < n)%nat -> 0 < - s * turn k).
    { intros k. induction 1 as [|k Hk IH]; intros Hkn; [apply (negated s _ Hs); exact A4|].
      apply (agree k (- s)); [apply NW; lia|apply IH; lia]. }
    assert (P3 : 0 < s * turn (n - 1)).
    { apply (agree (n - 1) s).
      - replace (S (n - 1)) with (0 + n)%nat by lia. intros (t & W1 & W2 & W3 & W4).
        apply (NW 0%nat ltac:(lia) ltac:(lia)). replace (S (0 + n)) with (1 + n)%nat in W3, W4 by lia.
        rewrite !per in W3, W4. exists t. auto.
      - replace (S (n - 1)) with (0 + n)%nat by lia. rewrite turn_per. exact H0. }
    assert (W' : within (n - 1)).
    { replace (n - 1)%nat with (S (n - 2)) by lia. apply (change_within (- s)).
      - intros E. apply Hs. clear - E. qcl.
      - apply P2; lia.
      - replace (S (n - 2)) with (n - 1)%nat by lia. intros E. clear - E P3. replace (- s * turn (n - 1)) with (- (s * turn (n - 1))) in E by ring.
        set (z := s * turn (n - 1)) in *. clearbody z. qcl. }
    apply (half_mixed s (S a) Hc Hs); try lia; try assumption. intros k K1 K2. apply P2; lia.
  Qed.
  Lemma half : (2 <= th n - th (n - 1)%nat)%Q -> convexly 1 \/ convexly (- (1)).
  Proof.
    intros Hc. pose proof one_neq as N.
    assert (N' : - Q2Qc 1 <> 0) by (intros E; apply N; clear - E; qcl).
    destruct (Qc_sign (turn 0)) as [H|[H|H]]; [left|exfalso; apply (proj1 (angles 0)); exact H|right];
    apply (half_convex _ Hc); apply half_sign; try assumption; clear - H; qcl.
  Qed.
End Fan.
