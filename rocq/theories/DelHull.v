(** The boundary of a Delaunay triangulation is one cycle. *)
From Coq Require Import List Lia.
From Verif Require Import Base Geometry Spec QcTac QcFast GeomProofs DelGeo DelCyc DelMap DelFan DelOps DelCand DelMerge DelStart DelTangent.
Import ListNotations.
Open Scope Qc_scope.

(** ** A linear form *)
Definition psi (al be : Qc) (q : point) : Qc := al * px q + be * py q.
Lemma psi_cycle al be v a b c : (psi al be a - psi al be v) * cross v b c + (psi al be b - psi al be v) * cross v c a
  + (psi al be c - psi al be v) * cross v a b = 0.
Proof. unfold psi, cross. ring. Qed.
Lemma psi_neg al be q : psi (- al) (- be) q = - psi al be q.
Proof. unfold psi. ring. Qed.
Lemma psi_param al be a b q t : px q = px a + t * (px b - px a) -> py q = py a + t * (py b - py a) ->
  psi al be q = psi al be a + t * (psi al be b - psi al be a).
Proof. intros X Y. unfold psi. rewrite X, Y. ring. Qed.
Lemma psi_btw al be p q r : psi al be p < psi al be q -> psi al be q < psi al be r -> cross p q r = 0 -> btw q p r.
Proof.
  intros Hp Hq h. assert (C : cross p r q = 0) by (rewrite cross_swap, h; ring).
  assert (n : p <> r) by (intros e; rewrite e in Hp; ql).
  destruct (line_param p r q n C) as (t & X & Y). pose proof (psi_param al be _ _ _ _ X Y) as E.
  set (D := psi al be r - psi al be p) in *.
  assert (Dp : 0 <= D) by (unfold D; ql).
  apply (param_btw p r q t n); auto.
  - apply Qcnot_le_lt. intros h1. pose proof (Qcmult_le_compat_r _ _ _ h1 Dp) as M. assert (e : 0 * D = 0) by ring. rewrite e in M. ql.
  - apply Qcnot_le_lt. intros h1. pose proof (Qcmult_le_compat_r _ _ _ h1 Dp) as M. assert (e : 1 * D = D) by ring. rewrite e in M. unfold D in *. ql.
Qed.
Lemma btw_psi al be a b q : btw q a b -> psi al be q < psi al be a -> psi al be q < psi al be b -> False.
Proof.
  intros B Ha Hb. destruct (btw_param _ _ _ B) as (t & t0 & t1 & X & Y). pose proof (psi_param al be _ _ _ _ X Y) as E.
  pose proof (mul_pos (1 - t) (psi al be a - psi al be q) ltac:(ql) ltac:(ql)) as M1.
  pose proof (mul_pos t (psi al be b - psi al be q) ltac:(ql) ltac:(ql)) as M2.
  assert (e : (1 - t) * (psi al be a - psi al be q) + t * (psi al be b - psi al be q) = psi al be a + t * (psi al be b - psi al be a) - psi al be q) by ring.
  ql.
Qed.
Lemma psi_same al be v a b : psi al be v < psi al be a -> psi al be v < psi al be b -> cross v a b = 0 -> ad v a b = q4.
Proof.
  intros Ha Hb h. assert (na : a <> v) by (intros e; rewrite e in Ha; ql). assert (nb : b <> v) by (intros e; rewrite e in Hb; ql).
  destruct (ad_cases v a b na nb) as [K|[K|[K|K]]]; [destruct K as (_ & _ & K); ql| |destruct K as (_ & _ & K); ql|apply K].
  exfalso. destruct K as (_ & _ & K). apply (btw_psi al be a b v); auto. split; [rewrite cross_rot; exact h|exact K].
Qed.

Section H.
Context (S : list point) (m : map) (T : DT S m).
Context (NC : forall a b, In a S -> In b S -> a <> b -> exists c, In c S /\ cross a b c <> 0).
Let W := d_laws _ _ T.

(** Darts with everything on their left. *)
Definition hd (u w : point) : Prop := me m u w /\ forall q, In q S -> 0 <= cross u w q.

Lemma hd_gap u w : hd u w -> gap S w u (mn m w u).
Proof.
  intros (H & A). apply (gap_here S m T); [apply (l_sym _ _ W), H|]. intros q Hq. rewrite cross_flip. specialize (A q Hq). ql.
Qed.
Lemma hd_next u w : hd u w -> hd w (mn m w u).
Proof.
  intros H. pose proof (hd_gap u w H) as G. destruct H as (H & A). pose proof (l_sym _ _ W _ _ H) as H'.
  destruct (l_next _ _ W _ _ H') as (Hn & _). split; [exact Hn|].
  apply (gap_left S w u); auto; [apply (l_ne _ _ W _ _ Hn)|apply (l_ne _ _ W _ _ H')].
Qed.
Lemma hd_fun u w w' : hd u w -> hd u w' -> w = w'.
Proof.
  intros (H & A) (H' & A'). pose proof (e_in2 _ _ W _ _ H) as I. pose proof (e_in2 _ _ W _ _ H') as I'. pose proof (l_in _ _ W _ _ H) as Iu.
  pose proof (l_ne _ _ W _ _ H) as n. pose proof (l_ne _ _ W _ _ H') as n'.
  pose proof (A w' I') as h. pose proof (A' w I) as h'. rewrite cross_swap in h'.
  assert (z : cross u w w' = 0) by ql.
  destruct (ad_cases u w w' n n') as [K|[K|[K|K]]]; [destruct K as (_ & _ & K); ql| |destruct K as (_ & _ & K); ql|apply (same_nbr _ _ W u); auto; apply K].
  exfalso. destruct K as (_ & _ & K). destruct (NC u w Iu I ltac:(congruence)) as (c & Hc & Nc). apply Nc.
  assert (B : btw u w w') by (split; [rewrite cross_rot; exact z|exact K]).
  destruct (btw_param _ _ _ B) as (t & t0 & t1 & X & Y).
  pose proof (A c Hc) as k. pose proof (A' c Hc) as k'.
  assert (e : (1 - t) * cross u w c + t * cross u w' c = 0).
  { unfold cross. rewrite X, Y. ring. }
  pose proof (mul_nonneg t (cross u w' c) ltac:(ql) k') as M. 
  apply (zero_of_mul (1 - t)); [ql|]. pose proof (mul_nonneg (1 - t) (cross u w c) ltac:(ql) k). ql.
Qed.

Section P.
Context (al be : Qc) (inj : forall a b, In a S -> In b S -> psi al be a = psi al be b -> a = b).
Notation f := (psi al be).
Lemma peak a w : hd a w -> f a < f w -> f (mn m w a) < f w -> forall q, In q S -> f q <= f w.
Proof.
  intros Ha p1 p2 q Hq. pose proof (hd_gap a w Ha) as G. pose proof (hd_next a w Ha) as Hn.
  destruct Ha as (H & A). destruct Hn as (H' & A'). set (n := mn m w a) in *.
  pose proof (l_sym _ _ W _ _ H) as Hs. pose proof (l_ne _ _ W _ _ Hs) as na. pose proof (l_ne _ _ W _ _ H') as nn.
  pose proof (ad_ge2 w a n na nn (proj1 G)) as c. pose proof (A q Hq) as k. pose proof (A' q Hq) as k'.
  rewrite <- (cross_rot a w q) in k.
  destruct (Qcle_lt_or_eq _ _ c) as [c'|c'].
  - pose proof (psi_cycle al be w n q a) as E. pose proof (mul_nonneg (f w - f n) (cross w q a) ltac:(ql) k) as M1.
    pose proof (mul_nonneg (f w - f a) (cross w n q) ltac:(ql) k') as M2.
    apply Qcnot_lt_le. intros h. pose proof (mul_pos (f q - f w) (- cross w a n) ltac:(ql) ltac:(ql)) as M3.
    assert (E' : (f q - f w) * - cross w a n + (f w - f n) * cross w q a + (f w - f a) * cross w n q = 0).
    { transitivity (- ((f n - f w) * cross w q a + (f q - f w) * cross w a n + (f a - f w) * cross w n q)); [ring|rewrite E; ring]. }
    ql.
  - exfalso. pose proof (psi_same (- al) (- be) w a n) as X. rewrite !psi_neg in X.
    assert (X' : ad w a n = q4) by (apply X; [ql|ql|exact c']).
    destruct (NC w a (l_in _ _ W _ _ Hs) (l_in _ _ W _ _ H) ltac:(congruence)) as (d & Hd & Nd).
    assert (nd : d <> w) by (intros ->; apply Nd; apply cross_aba). destruct G as (_ & G). specialize (G d Hd nd). rewrite X' in G.
    pose proof (ad_range w a d na nd) as (_ & r). apply Nd, (ad_same w a d na nd). ql.
Qed.
Lemma rises u w : hd u w -> f u < f w -> (exists q, In q S /\ f w < f q) -> f w < f (mn m w u).
Proof.
  intros H p (q & Hq & h). pose proof (hd_next u w H) as Hn. destruct (Qclt_le_dec (f w) (f (mn m w u))) as [c|c]; [exact c|exfalso].
  destruct (Qcle_lt_or_eq _ _ c) as [c'|c'].
  - pose proof (peak u w H p c' q Hq). ql.
  - apply (l_ne _ _ W _ _ (proj1 Hn)). apply inj; auto; [apply (e_in2 _ _ W _ _ (proj1 Hn))|apply (l_in _ _ W _ _ (proj1 Hn))].
Qed.
Lemma overlap u w c d : hd u w -> hd c d -> f u <= f c -> f c < f w -> f c < f d -> c = u /\ d = w.
Proof.
  intros (H & A) (H' & A') p1 p2 p3.
  pose proof (l_in _ _ W _ _ H) as Iu. pose proof (e_in2 _ _ W _ _ H) as Iw. pose proof (l_in _ _ W _ _ H') as Ic. pose proof (e_in2 _ _ W _ _ H') as Id.
  pose proof (A c Ic) as k1. pose proof (A' u Iu) as k2. pose proof (A' w Iw) as k3.
  pose proof (psi_cycle al be c u w d) as E.
  assert (E' : (f c - f u) * cross c d w + (f w - f c) * cross c d u + (f d - f c) * cross u w c = 0).
  { transitivity ((f u - f c) * cross c w d + (f w - f c) * cross c d u + (f d - f c) * cross c u w); [|exact E].
    rewrite (cross_swap c d w), <- (cross_rot c u w). ring. }
  pose proof (mul_nonneg (f c - f u) (cross c d w) ltac:(ql) k3) as M1. pose proof (mul_nonneg (f w - f c) (cross c d u) ltac:(ql) k2) as M2.
  pose proof (mul_nonneg (f d - f c) (cross u w c) ltac:(ql) k1) as M3.
  assert (z : cross u w c = 0) by (apply (zero_of_mul (f d - f c)); [ql|ql]).
  assert (e : c = u).
  { destruct (point_eq_dec c u) as [e|n]; [exact e|exfalso].
    assert (p : f u < f c) by (destruct (Qcle_lt_or_eq _ _ p1) as [x|x]; [exact x|exfalso; apply n; symmetry; apply inj; auto]).
    apply (l_clean _ _ W u w c H Ic). apply (psi_btw al be); auto. rewrite cross_swap, z. ring. }
  split; [exact e|]. subst c. pose proof (A d Id) as j1. pose proof (A' w Iw) as j2. rewrite cross_swap in j2.
  symmetry. apply (same_nbr _ _ W u); auto. apply (psi_same al be); auto. ql.
Qed.

Context (O : point -> point -> Prop) (Oh : forall u w, O u w -> hd u w) (On : forall u w, O u w -> O w (mn m w u)).
Let left_over u := length (filter (fun q => qltb (f u) (f q)) S).
Lemma less_left u w : In w S -> f u < f w -> (left_over w < left_over u)%nat.
Proof.
  intros Hw h. apply (filter_lt _ _ _ w); auto.
  - intros y Hy. apply qltb_lt in Hy. apply qltb_lt. ql.
  - apply Bool.not_true_is_false. intros x. apply qltb_lt in x. ql.
  - apply qltb_lt. exact h.
Qed.
Lemma reach u w c d : O u w -> f u < f w -> hd c d -> f c < f d -> f u <= f c -> O c d.
Proof.
  intros Ouw. remember (left_over u) as k eqn:Ek. revert u w Ouw Ek. induction k as [k IH] using lt_wf_ind. intros u w Ouw Ek p Hc pc pu. subst k.
  pose proof (Oh _ _ Ouw) as H. destruct (Qclt_le_dec (f c) (f w)) as [h|h].
  - destruct (overlap u w c d H Hc pu h pc) as (-> & ->). exact Ouw.
  - pose proof (e_in2 _ _ W _ _ (proj1 H)) as Iw.
    assert (r : f w < f (mn m w u)) by (apply rises; auto; exists d; split; [apply (e_in2 _ _ W _ _ (proj1 Hc))|ql]).
    apply (IH (left_over w)) with (u := w) (w := mn m w u); auto. apply less_left; auto.
Qed.
Lemma summit u w : O u w -> f u < f w -> exists z b, O z b /\ f b < f z /\ forall q, In q S -> f q <= f z.
Proof.
  intros Ouw. remember (left_over u) as k eqn:Ek. revert u w Ouw Ek. induction k as [k IH] using lt_wf_ind. intros u w Ouw Ek p. subst k.
  pose proof (Oh _ _ Ouw) as H. pose proof (e_in2 _ _ W _ _ (proj1 H)) as Iw.
  destruct (ex_in_dec (fun q => f w < f q) S (fun q => qlt_dec _ _)) as [h|h].
  - apply (IH (left_over w)) with (u := w) (w := mn m w u); auto; [apply less_left; auto|]. apply rises; auto.
  - exists w, (mn m w u). pose proof (On _ _ Ouw) as On'. pose proof (Oh _ _ On') as (Hn & _).
    split; [exact On'|]. split; [|intros q Hq; apply Qcnot_lt_le, h, Hq].
    pose proof (e_in2 _ _ W _ _ Hn) as I. pose proof (Qcnot_lt_le _ _ (h _ I)) as c. destruct (Qcle_lt_or_eq _ _ c) as [c'|c']; [exact c'|exfalso].
    apply (l_ne _ _ W _ _ Hn). apply inj; auto.
Qed.
End P.

(** Every such dart is met. *)
Lemma one_cycle ep (O : point -> point -> Prop) x y : (forall a b, In a S -> In b S -> phi ep a = phi ep b -> a = b) ->
  (forall u w, O u w -> hd u w) -> (forall u w, O u w -> O w (mn m w u)) -> O x y -> (forall q, In q S -> phi ep x <= phi ep q) ->
  forall c d, hd c d -> O c d.
Proof.
  intros inj Oh On Oxy Mx c d Hc.
  assert (Ep : forall q, psi 1 ep q = phi ep q) by (intros; unfold psi, phi; ring).
  assert (Em : forall q, psi (- (1)) (- ep) q = - phi ep q) by (intros; unfold psi, phi; ring).
  assert (I1 : forall a b, In a S -> In b S -> psi 1 ep a = psi 1 ep b -> a = b) by (intros a b Ha Hb e; rewrite !Ep in e; auto).
  assert (I2 : forall a b, In a S -> In b S -> psi (- (1)) (- ep) a = psi (- (1)) (- ep) b -> a = b).
  { intros a b Ha Hb e; rewrite !Em in e. apply inj; auto. ql. }
  pose proof (Oh _ _ Oxy) as Hxy. pose proof (e_in2 _ _ W _ _ (proj1 Hxy)) as Iy. pose proof (l_in _ _ W _ _ (proj1 Hxy)) as Ix.
  assert (p : psi 1 ep x < psi 1 ep y).
  { rewrite !Ep. specialize (Mx y Iy). destruct (Qcle_lt_or_eq _ _ Mx) as [h|h]; [exact h|exfalso].
    apply (l_ne _ _ W _ _ (proj1 Hxy)). symmetry. apply inj; auto. }
  pose proof (e_in2 _ _ W _ _ (proj1 Hc)) as Id. pose proof (l_in _ _ W _ _ (proj1 Hc)) as Ic.
  destruct (Qclt_le_dec (phi ep c) (phi ep d)) as [h|h].
  - apply (reach 1 ep I1 O Oh On x y); auto; rewrite !Ep; auto.
  - destruct (Qcle_lt_or_eq _ _ h) as [h'|h']; [|exfalso; apply (l_ne _ _ W _ _ (proj1 Hc)); apply inj; auto].
    destruct (summit 1 ep I1 O Oh On x y Oxy p) as (z & b & Ozb & pz & Mz).
    rewrite !Ep in pz. 
    apply (reach (- (1)) (- ep) I2 O Oh On z b); auto; rewrite !Em; try ql.
    specialize (Mz c Ic). rewrite !Ep in Mz. ql.
Qed.
End H.
