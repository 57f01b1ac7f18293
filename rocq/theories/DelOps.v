(** Adding an edge to a map and removing one. *)
From Coq Require Import List Lia.
From Verif Require Import Base Geometry Spec QcTac QcFast GeomProofs DelGeo DelCyc DelMap.
Import ListNotations.
Open Scope Qc_scope.

(** The neighbours of one point. *)
Record ring (v : point) (N : point -> Prop) (nx pv : point -> point) : Prop := Ring {
  r_ne : forall a, N a -> a <> v;
  r_next : forall a, N a -> N (nx a) /\ pv (nx a) = a;
  r_prev : forall a, N a -> N (pv a) /\ nx (pv a) = a;
  r_sorted : forall a x, N a -> N x -> ad v a (nx a) <= ad v a x }.
Definition skip1 (nx : point -> point) (w x : point) : point := if point_eq_dec (nx x) w then nx w else nx x.
Definition ins1 (nx : point -> point) (a w x : point) : point :=
  if point_eq_dec x w then nx a else if point_eq_dec x a then w else nx x.
Definition insp (nx pv : point -> point) (a w x : point) : point :=
  if point_eq_dec x w then a else if point_eq_dec x (nx a) then w else pv x.

Lemma ring_del v N nx pv w : ring v N nx pv -> N w -> (forall x y, N x -> N y -> ad v x y = q4 -> x = y) ->
  ring v (fun x => N x /\ x <> w) (skip1 nx w) (skip1 pv w).
Proof.
  intros [R1 R2 R3 R4] Hw U. split.
  - intros a (h & _). auto.
  - intros a (Ha & Na). unfold skip1. destruct (R2 a Ha) as (h1 & h2). destruct (R2 w Hw) as (g1 & g2).
    destruct (point_eq_dec (nx a) w) as [e|e].
    + rewrite e in h2. rewrite g2. destruct (point_eq_dec w w) as [_|n]; [|congruence]. repeat split; auto.
      intros f. rewrite f in g2. congruence.
    + rewrite h2. destruct (point_eq_dec a w); [contradiction|]. auto.
  - intros a (Ha & Na). unfold skip1. destruct (R3 a Ha) as (h1 & h2). destruct (R3 w Hw) as (g1 & g2).
    destruct (point_eq_dec (pv a) w) as [e|e].
    + rewrite e in h2. rewrite g2. destruct (point_eq_dec w w) as [_|n]; [|congruence]. repeat split; auto.
      intros f. rewrite f in g2. congruence.
    + rewrite h2. destruct (point_eq_dec a w); [contradiction|]. auto.
  - intros a x (Ha & Na) (Hx & Nx). unfold skip1. destruct (point_eq_dec (nx a) w) as [e|e]; [|auto].
    pose proof (R4 a x Ha Hx) as S1. rewrite e in S1. pose proof (R4 w x Hw Hx) as S2.
    destruct (R2 w Hw) as (g1 & _).
    destruct (Qcle_lt_or_eq _ _ S1) as [h|h].
    + pose proof (ad_step v a w x (R1 _ Ha) (R1 _ Hw) (R1 _ Hx) h) as st.
      pose proof (ad_range v a x (R1 _ Ha) (R1 _ Hx)) as (_ & r1).
      pose proof (ad_range v a (nx w) (R1 _ Ha) (R1 _ g1)) as (r2 & _).
      destruct (ad_tri v a w (nx w)) as [t|t]; auto; ql.
    + exfalso. apply Nx. symmetry. apply U; auto. apply (ad_eq v a); auto.
Qed.
Lemma ring_ins v N nx pv a w : ring v N nx pv -> N a -> ~ N w -> w <> v ->
  (forall x y, N x -> N y -> ad v x y = q4 -> x = y) -> ad v a w < ad v a (nx a) ->
  ring v (fun x => N x \/ x = w) (ins1 nx a w) (insp nx pv a w).
Proof.
  intros [R1 R2 R3 R4] Ha Nw Hw U C. split.
  - intros x [h| ->]; auto.
  - intros x [Hx| ->]; unfold ins1, insp.
    + destruct (point_eq_dec x w) as [->|n]; [contradiction|]. destruct (point_eq_dec x a) as [->|n'].
      * split; [auto|]. destruct (point_eq_dec w w); congruence.
      * destruct (R2 x Hx) as (h1 & h2). split; [auto|].
        destruct (point_eq_dec (nx x) w) as [e|e]; [congruence|].
        destruct (point_eq_dec (nx x) (nx a)) as [f|f]; [|exact h2].
        destruct (R2 a Ha) as (_ & h3). congruence.
    + destruct (point_eq_dec w w) as [_|n]; [|congruence]. destruct (R2 a Ha) as (h1 & h2). split; [auto|].
      destruct (point_eq_dec (nx a) w) as [e|e]; [congruence|]. destruct (point_eq_dec (nx a) (nx a)); congruence.
  - intros x [Hx| ->]; unfold ins1, insp.
    + destruct (point_eq_dec x w) as [->|n]; [contradiction|]. destruct (point_eq_dec x (nx a)) as [->|n'].
      * split; [auto|]. destruct (point_eq_dec w w); congruence.
      * destruct (R3 x Hx) as (h1 & h2). split; [auto|].
        destruct (point_eq_dec (pv x) w) as [e|e]; [congruence|].
        destruct (point_eq_dec (pv x) a) as [f|f]; [congruence|exact h2].
    + destruct (point_eq_dec w w) as [_|n]; [|congruence]. split; [auto|].
      destruct (point_eq_dec a w) as [e|e]; [congruence|]. destruct (point_eq_dec a a); congruence.
  - assert (Q1 : forall y, N y -> ad v a w < ad v a y).
    { intros y Hy. specialize (R4 a y Ha Hy). ql. }
    destruct (R2 a Ha) as (Hb & _).
    assert (Q2 : forall x, N x -> x <> a -> ad v x (nx x) <= ad v x w).
    { intros x Hx n. destruct (Qclt_le_dec (ad v x w) (ad v x (nx x))) as [h|h]; [exfalso|exact h].
      pose proof (R4 x a Hx Ha) as s1. pose proof (Q1 x Hx) as s2.
      assert (s3 : ad v w a = ad v x a - ad v x w) by (apply ad_step; auto; ql).
      assert (s4 : ad v w x = ad v a x - ad v a w) by (apply ad_step; auto).
      pose proof (ad_range v x w (R1 _ Hx) Hw) as (r1 & r1').
      pose proof (ad_range v a w (R1 _ Ha) Hw) as (r2 & r2').
      pose proof (ad_range v a x (R1 _ Ha) (R1 _ Hx)) as (r3 & r3').
      pose proof (ad_range v x a (R1 _ Hx) (R1 _ Ha)) as (r4 & r4').
      assert (r5 : ad v x a <> q4) by (intros e; apply n; auto).
      destruct (ad_tri v x a x) as [t1|t1]; auto; rewrite ad_self in t1.
      - destruct (ad_tri v w a w) as [t2|t2]; auto; rewrite ad_self in t2; ql.
      - apply r5. ql. }
    intros x y [Hx| ->] [Hy| ->]; unfold ins1.
    + destruct (point_eq_dec x w) as [->|n]; [contradiction|]. destruct (point_eq_dec x a) as [->|n']; [|auto].
      specialize (Q1 y Hy). ql.
    + destruct (point_eq_dec x w) as [->|n]; [contradiction|]. destruct (point_eq_dec x a) as [->|n']; [ql|auto].
    + destruct (point_eq_dec w w) as [_|n]; [|congruence].
      rewrite (ad_step v a w (nx a)), (ad_step v a w y) by auto. specialize (R4 a y Ha Hy). ql.
    + destruct (point_eq_dec w w) as [_|n]; [|congruence]. rewrite ad_self. apply ad_range; auto.
Qed.

(** ** Maps *)
Definition same_edge (u w v a : point) : Prop := (v = u /\ a = w) \/ (v = w /\ a = u).
Definition del (m : map) (u w : point) : map := Map
  (fun v a => me m v a /\ ~ same_edge u w v a)
  (fun v => if point_eq_dec v u then skip1 (mn m v) w else if point_eq_dec v w then skip1 (mn m v) u else mn m v)
  (fun v => if point_eq_dec v u then skip1 (mp m v) w else if point_eq_dec v w then skip1 (mp m v) u else mp m v).
(** [w] after [a] around [u], [u] after [b] around [w]. *)
Definition ins (m : map) (u w a b : point) : map := Map
  (fun v x => me m v x \/ same_edge u w v x)
  (fun v => if point_eq_dec v u then ins1 (mn m v) a w else if point_eq_dec v w then ins1 (mn m v) b u else mn m v)
  (fun v => if point_eq_dec v u then insp (mn m v) (mp m v) a w
            else if point_eq_dec v w then insp (mn m v) (mp m v) b u else mp m v).

Section O.
Context (S : list point) (m : map) (W : laws S m).
Lemma laws_ring v : ring v (me m v) (mn m v) (mp m v).
Proof. destruct W. split; eauto. Qed.
Lemma ring_iff v N N' nx pv : ring v N nx pv -> (forall x, N' x <-> N x) -> ring v N' nx pv.
Proof.
  intros [R1 R2 R3 R4] H. split.
  - intros a h. apply R1, H, h.
  - intros a h. apply H, R2 in h. rewrite H. exact h.
  - intros a h. apply H, R3 in h. rewrite H. exact h.
  - intros a x h h'. apply H in h, h'. auto.
Qed.
Lemma laws_of (m' : map) : (forall v, ring v (me m' v) (mn m' v) (mp m' v)) ->
  (forall v a, me m' v a -> me m' a v) -> (forall v a, me m' v a -> In v S) ->
  (forall v a q, me m' v a -> In q S -> ~ btw q v a) ->
  (forall a b c d, me m' a b -> me m' c d -> ~ crossing a b c d) -> laws S m'.
Proof.
  intros R Sy In_ Cl Pl. split; auto.
  - intros v a h. apply (r_ne _ _ _ _ (R v) a h).
  - intros v a h. apply (r_next _ _ _ _ (R v) a h).
  - intros v a h. apply (r_prev _ _ _ _ (R v) a h).
  - intros v a x h h'. apply (r_sorted _ _ _ _ (R v) a x h h').
Qed.
Lemma uniq v : forall x y, me m v x -> me m v y -> ad v x y = q4 -> x = y.
Proof. intros x y. apply (same_nbr _ _ W). Qed.

Lemma laws_del u w : me m u w -> laws S (del m u w).
Proof.
  intros H. pose proof (l_ne _ _ W _ _ H) as N. apply laws_of.
  - intros v. cbn [del me mn mp]. destruct (point_eq_dec v u) as [->|n].
    + eapply ring_iff; [apply (ring_del u _ _ _ w (laws_ring u) H (uniq u))|]. cbn. intros x. unfold same_edge. intuition congruence.
    + destruct (point_eq_dec v w) as [->|n'].
      * eapply ring_iff; [apply (ring_del w _ _ _ u (laws_ring w) (l_sym _ _ W _ _ H) (uniq w))|]. cbn. intros x. unfold same_edge. intuition congruence.
      * eapply ring_iff; [apply laws_ring|]. cbn. intros x. unfold same_edge. intuition congruence.
  - intros v a (h & h'). split; [apply (l_sym _ _ W), h|]. unfold same_edge in *. intuition congruence.
  - intros v a (h & _). apply (l_in _ _ W _ _ h).
  - intros v a q (h & _). apply (l_clean _ _ W _ _ _ h).
  - intros a b c d (h & _) (h' & _). apply (l_planar _ _ W _ _ _ _ h h').
Qed.
Lemma laws_ins u w a b : u <> w -> In u S -> In w S -> ~ me m u w -> me m u a -> me m w b ->
  ad u a w < ad u a (mn m u a) -> ad w b u < ad w b (mn m w b) ->
  (forall q, In q S -> ~ btw q u w) -> (forall x y, me m x y -> ~ crossing u w x y) ->
  laws S (ins m u w a b).
Proof.
  intros N Hu Hw Nuw Ha Hb Ca Cb Cl Pl. apply laws_of.
  - intros v. cbn [ins me mn mp]. destruct (point_eq_dec v u) as [->|n].
    + eapply ring_iff; [apply (ring_ins u _ _ _ a w (laws_ring u) Ha Nuw (not_eq_sym N) (uniq u) Ca)|].
      cbn. intros x. unfold same_edge. intuition congruence.
    + destruct (point_eq_dec v w) as [->|n'].
      * eapply ring_iff; [apply (ring_ins w _ _ _ b u (laws_ring w) Hb)|]; auto.
        -- intros h. apply Nuw, (l_sym _ _ W), h.
        -- apply uniq.
        -- cbn. intros x. unfold same_edge. intuition congruence.
      * eapply ring_iff; [apply laws_ring|]. cbn. intros x. unfold same_edge. intuition congruence.
  - intros v x [h|h]; [left; apply (l_sym _ _ W), h|right]. unfold same_edge in *. intuition congruence.
  - intros v x [h|[(-> & _)|(-> & _)]]; auto. apply (l_in _ _ W _ _ h).
  - intros v x q [h|[(-> & ->)|(-> & ->)]] Hq; [apply (l_clean _ _ W _ _ _ h Hq)|auto|].
    intros B. apply (Cl q Hq), btw_sym, B.
  - assert (P2 : forall x y, me m x y -> ~ crossing x y u w).
    { intros x y h C. apply (Pl y x (l_sym _ _ W _ _ h)). destruct C as (c1 & c2 & c3 & c4). red.
      rewrite (cross_flip x y u), (cross_flip x y w). repeat split; ql. }
    assert (P3 : forall x y, me m x y -> ~ crossing w u x y).
    { intros x y h C. apply (Pl y x (l_sym _ _ W _ _ h)). destruct C as (c1 & c2 & c3 & c4). red.
      rewrite (cross_flip w u x), (cross_flip w u y), (cross_flip x y u), (cross_flip x y w). repeat split; ql. }
    assert (P4 : forall x y, me m x y -> ~ crossing x y w u).
    { intros x y h C. apply (P2 y x (l_sym _ _ W _ _ h)). destruct C as (c1 & c2 & c3 & c4). red.
      rewrite (cross_flip w u x), (cross_flip w u y), (cross_flip x y u), (cross_flip x y w). repeat split; ql. }
    assert (P5 : forall x y c d, same_edge u w x y -> same_edge u w c d -> ~ crossing x y c d).
    { intros x y c d h h' (c1 & c2 & _). destruct h as [(-> & ->)|(-> & ->)], h' as [(-> & ->)|(-> & ->)];
        rewrite ?cross_aba, ?cross_abb in *; ql. }
    intros x y c d [h|h] [h'|h'].
    + apply (l_planar _ _ W _ _ _ _ h h').
    + destruct h' as [(-> & ->)|(-> & ->)]; auto.
    + destruct h as [(-> & ->)|(-> & ->)]; auto.
    + auto.
Qed.
End O.
