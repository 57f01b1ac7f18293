(** Delaunay triangulations: every corner is an empty triangle or a gap. *)
From Coq Require Import List Lia.
From Verif Require Import Base Geometry Spec QcTac QcFast GeomProofs DelGeo DelCyc DelMap.
Import ListNotations.
Open Scope Qc_scope.

Section F.
Context (S : list point) (m : map) (T : DT S m).
Notation E := (me m).
Let W := d_laws _ _ T.

Lemma dt_DE v a : E v a -> DE S v a.
Proof.
  intros H. destruct (l_next _ _ W _ _ H) as (H2 & _).
  destruct (d_corner _ _ T _ _ H) as [(e & _)|g].
  - apply (empty_DE _ _ _ _ e).
  - apply right_DE, (gap_right _ v a (mn m v a)); auto; eapply (l_ne _ _ W); eauto.
Qed.
(** The corner at [v] with [w] in it, the far side included. *)
Lemma dt_corner v w : In v S -> In w S -> w <> v ->
  exists a, E v a /\ ((ad v a w = ad v a (mn m v a)) \/
    (tri S m v a (mn m v a) /\ 0 < cross v a w /\ 0 < cross v w (mn m v a))).
Proof.
  intros Hv Hw N. destruct (d_nbr _ _ T v w Hv Hw N) as (a0 & Ha0).
  destruct (coverage _ _ W (fun _ => True) v a0 w Ha0 N I ltac:(auto)) as (a & Ha & _ & C).
  exists a. split; [exact Ha|]. destruct (l_next _ _ W _ _ Ha) as (Hb & _).
  pose proof (l_ne _ _ W _ _ Ha) as Na. pose proof (l_ne _ _ W _ _ Hb) as Nb.
  destruct (Qcle_lt_or_eq _ _ C) as [h|h]; [right|left; exact h].
  destruct (d_corner _ _ T _ _ Ha) as [t|(_ & g)]; [|specialize (g w Hw N); exfalso; ql].
  split; [exact t|]. destruct (ad_pos v a (mn m v a) Na Nb (proj1 (proj1 t))) as (r1 & r2).
  pose proof (ad_range v a w Na N) as (r3 & _).
  pose proof (ad_step v a w (mn m v a) Na N Nb h) as st.
  split; apply ad_pos_iff; auto; ql.
Qed.
(** An edge along the boundary of an empty disc. *)
Lemma fan D v w u : 0 < dk D -> (forall q, In q S -> 0 <= pw D q) -> In v S -> In w S -> w <> v ->
  pw D v = 0 -> pw D w = 0 -> 0 < cross v u w -> exists w', E v w' /\ pw D w' = 0 /\ 0 < cross v u w'.
Proof.
  intros Hk HS Hv Hw N Pv Pw U. destruct (dt_corner v w Hv Hw N) as (a & Ha & C).
  destruct (l_next _ _ W _ _ Ha) as (Hb & _). set (b := mn m v a) in *.
  pose proof (l_ne _ _ W _ _ Ha) as Na. pose proof (l_ne _ _ W _ _ Hb) as Nb.
  destruct C as [e|((em & Hab) & c1 & c2)].
  - destruct (same_btw v b w Nb N) as [->|[h|h]]; [apply (ad_eq v a); auto|exists w; auto|exfalso|exfalso].
    + pose proof (pw_btw D v w b Hk h Pv Pw). specialize (HS b (e_in2 _ _ W _ _ Hb)). ql.
    + apply (l_clean _ _ W v b w Hb Hw h).
  - pose proof (pw_bary D v a b w) as K. rewrite Pv, Pw in K.
    destruct em as (em0 & em).
    pose proof (HS a (e_in2 _ _ W _ _ Ha)) as Pa. pose proof (HS b (e_in2 _ _ W _ _ Hb)) as Pb.
    pose proof (mul_nonneg (cross v w b) (pw D a) ltac:(ql) Pa) as M1.
    pose proof (mul_nonneg (cross v a w) (pw D b) ltac:(ql) Pb) as M2.
    pose proof (mul_nonneg (dk D) (- inc v a b w) ltac:(ql) ltac:(specialize (em w Hw); ql)) as M3.
    assert (K2 : cross v w b * pw D a + cross v a w * pw D b + dk D * - inc v a b w = 0).
    { transitivity (cross v a b * 0); [rewrite K; ring|ring]. }
    assert (Ea : pw D a = 0) by (apply (zero_of_mul (cross v w b)); [exact c2|ql]).
    assert (Eb : pw D b = 0) by (apply (zero_of_mul (cross v a w)); [exact c1|ql]).
    pose proof (cramer v a b w u) as Cr.
    rewrite cross_swap in U.
    destruct (Qclt_le_dec 0 (cross v u a)) as [h|h]; [exists a; auto|].
    destruct (Qclt_le_dec 0 (cross v u b)) as [h'|h']; [exists b; auto|]. exfalso.
    rewrite cross_swap in h, h'.
    pose proof (mul_nonneg (cross v w b) (cross v a u) ltac:(ql) ltac:(ql)).
    pose proof (mul_nonneg (cross v a w) (cross v b u) ltac:(ql) ltac:(ql)).
    pose proof (mul_neg (cross v a b) (cross v w u) em0 ltac:(ql)). ql.
Qed.
(** The same without the line. *)
Lemma fan0 D v w : 0 < dk D -> (forall q, In q S -> 0 <= pw D q) -> In v S -> In w S -> w <> v ->
  pw D v = 0 -> pw D w = 0 -> exists w', E v w' /\ pw D w' = 0.
Proof.
  intros Hk HS Hv Hw N Pv Pw.
  set (u := Pt (px v + (py w - py v)) (py v - (px w - px v))).
  destruct (fan D v w u Hk HS Hv Hw N Pv Pw) as (w' & h1 & h2 & _); [|eauto].
  replace (cross v u w) with (d2 v w) by (unfold d2, cross, u; cbn [px py]; ring).
  apply d2_pos. congruence.
Qed.
Lemma hull_edge v w : In v S -> In w S -> w <> v -> (forall q, In q S -> 0 <= cross v w q) ->
  (forall q, In q S -> ~ btw q v w) -> E v w.
Proof.
  intros Hv Hw N HL HB. destruct (dt_corner v w Hv Hw N) as (a & Ha & C).
  destruct (l_next _ _ W _ _ Ha) as (Hb & _). set (b := mn m v a) in *.
  pose proof (l_ne _ _ W _ _ Ha) as Na. pose proof (l_ne _ _ W _ _ Hb) as Nb.
  destruct C as [e|(_ & c1 & _)].
  - destruct (same_btw v b w Nb N) as [->|[h|h]]; [apply (ad_eq v a); auto|exact Hb|exfalso|exfalso].
    + apply (HB b (e_in2 _ _ W _ _ Hb) h).
    + apply (l_clean _ _ W v b w Hb Hw h).
  - exfalso. specialize (HL a (e_in2 _ _ W _ _ Ha)). rewrite cross_swap in HL. ql.
Qed.
End F.

(** The extremal point around [v], counterclockwise from [z]. *)
Lemma hull_next (S : list point) v z w : z <> v -> In w S -> w <> v ->
  (forall q, In q S -> q <> v -> q2 <= ad v z q) ->
  exists n, In n S /\ n <> v /\ (forall q, In q S -> 0 <= cross v n q) /\ (forall q, In q S -> ~ btw q v n)
    /\ (forall q, In q S -> q <> v -> ad v z n <= ad v z q).
Proof.
  intros Nz Hw N H.
  destruct (min_exists (fun q => q <> v) (fun x y => ad v z x < ad v z y \/ ad v z x = ad v z y /\ d2 v x <= d2 v y) S)
    as (n & Hn & Nn & Mn).
  - intros x. destruct (point_eq_dec x v); [right; auto|left; auto].
  - intros x y _ _. destruct (tricho (ad v z x) (ad v z y)) as [h|[h|h]]; [auto| |auto].
    destruct (Qclt_le_dec (d2 v x) (d2 v y)); [left|right]; right; (split; [congruence|]); ql.
  - intros x y t _ _ _ [h|(h & h')] [g|(g & g')]; [left; ql|left; ql|left; ql|right; split; ql].
  - exists w; auto.
  - assert (M : forall q, In q S -> q <> v -> ad v z n <= ad v z q).
    { intros q Hq Nq. destruct (Mn q Hq Nq) as [h|(h & _)]; ql. }
    exists n. repeat split; auto.
    + apply (gap_left S v z n); auto. split; [apply H; auto|exact M].
    + intros q Hq B. destruct (btw_neq _ _ _ B) as (B1 & B2 & _). destruct B as (B & B').
      assert (e : ad v n q = q4).
      { apply ad_same_iff; auto. assert (K : dot v n q = d2 v q - dot q v n) by (unfold dot, d2; ring).
        pose proof (d2_nonneg v q). ql. }
      assert (e2 : ad v z n = ad v z q).
      { destruct (ad_tri v z n q) as [h|h]; auto; [|ql]. pose proof (ad_range v z n Nz Nn). pose proof (ad_range v z q Nz B1).
        destruct H0, H1. ql. }
      destruct (Mn q Hq B1) as [h|(_ & h)]; [ql|].
      (* q is nearer *)
      destruct (line_param v n q) as (t & tx & ty); [congruence|exact B|].
      assert (K1 : dot q v n = - (t * ((1 - t) * d2 v n))) by (unfold dot, d2; rewrite tx, ty; ring).
      assert (K2 : d2 v q = t * t * d2 v n) by (unfold d2; rewrite tx, ty; ring).
      assert (Dn : 0 < d2 v n) by (apply d2_pos; congruence).
      assert (P1 : 0 < t * (1 - t)).
      { apply (pos_of_mul (d2 v n)); [exact Dn|]. replace (d2 v n * (t * (1 - t))) with (- dot q v n) by (rewrite K1; ring). ql. }
      assert (P2 : t * t < 1).
      { clear -P1. assert (0 <= t * t) by apply sq_nonneg. pose proof (sq_nonneg (1 - t)).
        assert (t * (1 - t) = t - t * t) by ring. assert ((1-t) * (1 - t) = 1 - t - t + t * t) by ring. ql. }
      pose proof (mul_pos (1 - t * t) (d2 v n) ltac:(ql) Dn) as P3.
      assert (P4 : (1 - t * t) * d2 v n = d2 v n - d2 v q) by (rewrite K2; ring). ql.
Qed.
