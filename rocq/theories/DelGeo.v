(** Plane geometry for the correctness of [Triangulation.delaunay]: orientation and
    in-circle algebra. *)
From Verif Require Import Base Geometry Spec QcTac QcFast GeomProofs.
From Coq Require Import Lqa Field.
Open Scope Qc_scope.

(** [inc a b c d > 0]: [d] is inside the circle through the counterclockwise [a, b, c]. *)
Definition inc (a b c d : point) : Qc := incircle d a b c.
Definition d2 (a b : point) : Qc := (px b - px a) * (px b - px a) + (py b - py a) * (py b - py a).
Definition dot (v a b : point) : Qc := (px a - px v) * (px b - px v) + (py a - py v) * (py b - py v).

(** ** Signs of products *)
Lemma mul_pos (a b : Qc) : 0 < a -> 0 < b -> 0 < a * b.
Proof. qn. Qed.
Lemma mul_nonneg (a b : Qc) : 0 <= a -> 0 <= b -> 0 <= a * b.
Proof. qn. Qed.
Lemma mul_neg (a b : Qc) : 0 < a -> b < 0 -> a * b < 0.
Proof. qn. Qed.
Lemma mul_nonpos (a b : Qc) : 0 <= a -> b <= 0 -> a * b <= 0.
Proof. qn. Qed.
Lemma mul_neg_neg (a b : Qc) : a < 0 -> b < 0 -> 0 < a * b.
Proof. qn. Qed.
Lemma mul_nonpos_nonpos (a b : Qc) : a <= 0 -> b <= 0 -> 0 <= a * b.
Proof. qn. Qed.
Lemma pos_of_mul (a b : Qc) : 0 < a -> 0 < a * b -> 0 < b.
Proof. qn. Qed.
Lemma nonneg_of_mul (a b : Qc) : 0 < a -> 0 <= a * b -> 0 <= b.
Proof. qn. Qed.
Lemma nonpos_of_mul (a b : Qc) : 0 < a -> a * b <= 0 -> b <= 0.
Proof. qn. Qed.
Lemma neg_of_mul (a b : Qc) : 0 < a -> a * b < 0 -> b < 0.
Proof. qn. Qed.
Lemma mul_zero (a b : Qc) : a * b = 0 -> a = 0 \/ b = 0.
Proof. apply Qcmult_integral. Qed.
Lemma zero_of_mul (a b : Qc) : 0 < a -> a * b = 0 -> b = 0.
Proof. intros Ha H. destruct (mul_zero _ _ H) as [->|]; [ql|assumption]. Qed.
Lemma sq_nonneg (a : Qc) : 0 <= a * a.
Proof. qn. Qed.
Lemma sq_pos (a : Qc) : a <> 0 -> 0 < a * a.
Proof.
  intros H. destruct (Qcle_lt_or_eq _ _ (sq_nonneg a)) as [|E]; [assumption|].
  symmetry in E. destruct (mul_zero _ _ E); contradiction.
Qed.

(** ** Symmetries *)
Lemma cross_rot a b c : cross b c a = cross a b c.
Proof. unfold cross. ring. Qed.
Lemma cross_swap a b c : cross a c b = - cross a b c.
Proof. unfold cross. ring. Qed.
Lemma cross_flip a b c : cross b a c = - cross a b c.
Proof. unfold cross. ring. Qed.
Lemma cross_aab a b : cross a a b = 0.
Proof. unfold cross. ring. Qed.
Lemma cross_aba a b : cross a b a = 0.
Proof. unfold cross. ring. Qed.
Lemma cross_abb a b : cross a b b = 0.
Proof. unfold cross. ring. Qed.
Lemma inc_rot a b c d : inc b c a d = inc a b c d.
Proof. unfold inc, incircle. ring. Qed.
Lemma inc_swap a b c d : inc b a c d = - inc a b c d.
Proof. unfold inc, incircle. ring. Qed.
Lemma inc_swap2 a b c d : inc a c b d = - inc a b c d.
Proof. unfold inc, incircle. ring. Qed.
Lemma inc_last a b c d : inc a b d c = - inc a b c d.
Proof. unfold inc, incircle. ring. Qed.
Lemma inc_a a b c : inc a b c a = 0.
Proof. unfold inc, incircle. ring. Qed.
Lemma inc_b a b c : inc a b c b = 0.
Proof. unfold inc, incircle. ring. Qed.
Lemma inc_c a b c : inc a b c c = 0.
Proof. unfold inc, incircle. ring. Qed.
Lemma cross_sum a b c p : cross b c p + cross c a p + cross a b p = cross a b c.
Proof. unfold cross. ring. Qed.
Lemma cross_diff a b c d : cross a b c - cross a b d = cross c d b - cross c d a.
Proof. unfold cross. ring. Qed.

(** ** The pencil of circles through two points *)
Lemma pencil a b c p q :
  cross a b p * inc a b c q = cross a b q * inc a b c p + cross a b c * inc a b p q.
Proof. unfold inc, incircle, cross. ring. Qed.
(** Transitivity of the order of the points on one side of [a b]. *)
Lemma pencil_trans a b c p q : 0 < cross a b c -> 0 < cross a b p -> 0 < cross a b q ->
  inc a b c p <= 0 -> inc a b p q <= 0 -> inc a b c q <= 0.
Proof.
  intros Hc Hp Hq H1 H2. apply (nonpos_of_mul (cross a b p)); [assumption|]. rewrite pencil.
  pose proof (mul_nonpos _ _ (Qclt_le_weak _ _ Hq) H1). pose proof (mul_nonpos _ _ (Qclt_le_weak _ _ Hc) H2). ql.
Qed.
(** Cramer and barycentric identities. *)
Lemma cramer v a b w u : cross v a b * cross v w u = cross v w b * cross v a u + cross v a w * cross v b u.
Proof. unfold cross. ring. Qed.
Lemma bary a b c p u v :
  cross b c p * cross u v a + cross c a p * cross u v b + cross a b p * cross u v c = cross a b c * cross u v p.
Proof. unfold cross. ring. Qed.
Lemma bary_inc a b c p :
  cross a b c * inc a b c p =
  cross b c p * cross c a p * d2 a b + cross c a p * cross a b p * d2 b c + cross a b p * cross b c p * d2 c a.
Proof. unfold inc, incircle, cross, d2. ring. Qed.
Lemma d2_nonneg a b : 0 <= d2 a b.
Proof. unfold d2. pose proof (sq_nonneg (px b - px a)). pose proof (sq_nonneg (py b - py a)). ql. Qed.
Lemma d2_zero a b : d2 a b = 0 -> a = b.
Proof.
  unfold d2. intros H. destruct a as [ax ay], b as [bx by_]; cbn [px py] in *.
  assert (E1 : (bx - ax) = 0).
  { destruct (Qc_eq_dec (bx - ax) 0) as [|n]; [assumption|]. pose proof (sq_pos _ n). pose proof (sq_nonneg (by_ - ay)). ql. }
  assert (E2 : (by_ - ay) = 0).
  { destruct (Qc_eq_dec (by_ - ay) 0) as [|n]; [assumption|]. pose proof (sq_pos _ n). pose proof (sq_nonneg (bx - ax)). ql. }
  f_equal; ql.
Qed.
Lemma d2_pos a b : a <> b -> 0 < d2 a b.
Proof.
  intros H. destruct (Qcle_lt_or_eq _ _ (d2_nonneg a b)) as [|E]; [assumption|]. exfalso. apply H, d2_zero. auto.
Qed.
Lemma cross_neq a b c : cross a b c <> 0 -> a <> b /\ b <> c /\ a <> c.
Proof.
  intros H. repeat split; intros ->; apply H; [apply cross_aab|apply cross_abb|apply cross_aba].
Qed.
Lemma pos_neq a b c : 0 < cross a b c -> a <> b /\ b <> c /\ a <> c.
Proof. intros H. apply cross_neq. intros E. rewrite E in H. ql. Qed.

Lemma two_lines x y z q : cross x y q = 0 -> cross x z q = 0 -> cross x y z <> 0 -> q = x.
Proof.
  intros E1 E2 Hn.
  assert (F1 : cross x y z * (px q - px x) = 0).
  { transitivity (cross x y q * (px z - px x) - cross x z q * (px y - px x)); [unfold cross; ring|rewrite E1, E2; ring]. }
  assert (F2 : cross x y z * (py q - py x) = 0).
  { transitivity (cross x y q * (py z - py x) - cross x z q * (py y - py x)); [unfold cross; ring|rewrite E1, E2; ring]. }
  destruct (mul_zero _ _ F1) as [|G1]; [contradiction|]. destruct (mul_zero _ _ F2) as [|G2]; [contradiction|].
  destruct q as [qx qy], x as [xx xy]; cbn [px py] in *. f_equal; ql.
Qed.
Lemma mul3_nonneg (x y z : Qc) : 0 <= x -> 0 <= y -> 0 < z -> 0 <= x * y * z.
Proof. intros. apply mul_nonneg; [apply mul_nonneg; assumption|ql]. Qed.
Lemma mul3_pos (x y z : Qc) : 0 < x -> 0 < y -> 0 < z -> 0 < x * y * z.
Proof. intros. apply mul_pos; [apply mul_pos|]; assumption. Qed.

(** A point of the closed triangle that is not a vertex is inside the circle. *)
Lemma triangle_in_disc a b c p : 0 < cross a b c ->
  0 <= cross a b p -> 0 <= cross b c p -> 0 <= cross c a p -> p <> a -> p <> b -> p <> c -> 0 < inc a b c p.
Proof.
  intros H Hab Hbc Hca Na Nb Nc. destruct (pos_neq _ _ _ H) as (nab & nbc & nac).
  apply (pos_of_mul (cross a b c)); [assumption|]. rewrite bary_inc.
  pose proof (d2_pos a b nab) as D1. pose proof (d2_pos b c nbc) as D2. pose proof (d2_pos c a (not_eq_sym nac)) as D3.
  pose proof (mul3_nonneg _ _ _ Hbc Hca D1) as T1. pose proof (mul3_nonneg _ _ _ Hca Hab D2) as T2.
  pose proof (mul3_nonneg _ _ _ Hab Hbc D3) as T3.
  destruct (Qcle_lt_or_eq _ _ Hab) as [Pab|Zab]; [|symmetry in Zab].
  - destruct (Qcle_lt_or_eq _ _ Hbc) as [Pbc|Zbc]; [pose proof (mul3_pos _ _ _ Pab Pbc D3); clear - T1 T2 H0; ql|symmetry in Zbc].
    destruct (Qcle_lt_or_eq _ _ Hca) as [Pca|Zca]; [pose proof (mul3_pos _ _ _ Pca Pab D2); clear - T1 T3 H0; ql|symmetry in Zca].
    exfalso. apply Nc. apply (two_lines c a b); [assumption|rewrite cross_flip, Zbc; ring|].
    intros E. rewrite <- (cross_rot a b c), <- (cross_rot b c a), E in H. ql.
  - destruct (Qcle_lt_or_eq _ _ Hbc) as [Pbc|Zbc]; [|symmetry in Zbc].
    + destruct (Qcle_lt_or_eq _ _ Hca) as [Pca|Zca]; [pose proof (mul3_pos _ _ _ Pbc Pca D1); clear - T2 T3 H0; ql|symmetry in Zca].
      exfalso. apply Na. apply (two_lines a b c); [assumption|rewrite cross_flip, Zca; ring|intros E; rewrite E in H; ql].
    + exfalso. apply Nb. apply (two_lines b c a); [assumption|rewrite cross_flip, Zab; ring|].
      intros E. rewrite cross_rot in E. rewrite E in H. ql.
Qed.
