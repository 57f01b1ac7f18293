(** Basic facts about scalars, points, orientation and segments. *)
From Verif Require Import Base Geometry QcTac Prog Spec ProgProofs.
From Coq Require Import Lqa.

Lemma qltb_lt x y : qltb x y = true <-> (x < y)%Qc.
Proof. unfold qltb. rewrite Qclt_alt. destruct (x ?= y)%Qc; split; congruence. Qed.
Lemma qltb_ge x y : qltb x y = false <-> (y <= x)%Qc.
Proof.
  pose proof (qltb_lt x y) as H. destruct (qltb x y).
  - split; [discriminate|]. intros H1. assert (x < y)%Qc by (apply H; reflexivity). exfalso. qcl.
  - split; [|reflexivity]. intros _. apply Qcnot_lt_le. intros H1. apply H in H1. discriminate.
Qed.
Lemma qleb_le x y : qleb x y = true <-> (x <= y)%Qc.
Proof. unfold qleb. rewrite Qcle_alt. destruct (x ?= y)%Qc; split; try congruence; reflexivity. Qed.
Lemma qleb_gt x y : qleb x y = false <-> (y < x)%Qc.
Proof.
  pose proof (qleb_le x y) as H. destruct (qleb x y).
  - split; [discriminate|]. intros H1. assert (x <= y)%Qc by (apply H; reflexivity). exfalso. qcl.
  - split; [|reflexivity]. intros _. apply Qcnot_le_lt. intros H1. apply H in H1. discriminate.
Qed.
Lemma qeqb_neq x y : qeqb x y = false <-> x <> y.
Proof. pose proof (qeqb_eq x y). destruct (qeqb x y); intuition congruence. Qed.
Lemma qeqb_refl x : qeqb x x = true.
Proof. apply qeqb_eq; reflexivity. Qed.

Lemma qmin_le_l x y : (qmin x y <= x)%Qc.
Proof. unfold qmin. destruct (qltb y x) eqn:E; [apply qltb_lt in E; qcl | qcl]. Qed.
Lemma qmin_le_r x y : (qmin x y <= y)%Qc.
Proof. unfold qmin. destruct (qltb y x) eqn:E; [qcl | apply qltb_ge in E; exact E]. Qed.
Lemma qmin_cases x y : qmin x y = x \/ qmin x y = y.
Proof. unfold qmin. destruct (qltb y x); auto. Qed.
Lemma qmax_ge_l x y : (x <= qmax x y)%Qc.
Proof. unfold qmax. destruct (qltb x y) eqn:E; [apply qltb_lt in E; qcl | qcl]. Qed.
Lemma qmax_ge_r x y : (y <= qmax x y)%Qc.
Proof. unfold qmax. destruct (qltb x y) eqn:E; [qcl | apply qltb_ge in E; exact E]. Qed.
Lemma qmax_cases x y : qmax x y = x \/ qmax x y = y.
Proof. unfold qmax. destruct (qltb x y); auto. Qed.

Lemma point_ext p q : px p = px q -> py p = py q -> p = q.
Proof. destruct p, q; cbn; intros -> ->; reflexivity. Qed.
Lemma point_eqb_eq p q : point_eqb p q = true <-> p = q.
Proof.
  unfold point_eqb. rewrite andb_true_iff, !qeqb_eq. split.
  - intros (H1 & H2). apply point_ext; assumption.
  - intros ->. auto.
Qed.
Lemma point_eqb_refl p : point_eqb p p = true.
Proof. apply point_eqb_eq; reflexivity. Qed.
Lemma point_eqb_neq p q : point_eqb p q = false <-> p <> q.
Proof. pose proof (point_eqb_eq p q). destruct (point_eqb p q); intuition congruence. Qed.
Lemma point_eq_dec (p q : point) : {p = q} + {p <> q}.
Proof.
  destruct (point_eqb p q) eqn:E; [left; apply point_eqb_eq; exact E | right; apply point_eqb_neq; exact E].
Defined.
Lemma Qc_lt_eq_gt (x y : Qc) : (x < y)%Qc \/ x = y \/ (y < x)%Qc.
Proof. destruct (Q_dec (this x) (this y)) as [[H|H]|H]; [left; exact H | right; right; exact H | right; left; apply Qc_is_canon; exact H]. Qed.

(** Orientation. *)
Lemma orientation_eqb_eq a b : orientation_eqb a b = true <-> a = b.
Proof. destruct a, b; cbn; split; congruence. Qed.
Lemma orientation_eqb_neq a b : orientation_eqb a b = false <-> a <> b.
Proof. destruct a, b; cbn; split; congruence. Qed.
Lemma orientation_ccw v f s : angle_orientation v f s = COUNTERCLOCKWISE <-> left_turn v f s.
Proof.
  unfold angle_orientation, left_turn.
  pose proof (Qclt_alt (cross v f s) 0) as H1. pose proof (Qceq_alt (cross v f s) 0) as H2.
  pose proof (Qcgt_alt (cross v f s) 0) as H3.
  destruct (cross v f s ?= 0)%Qc; (split; intros H; [try discriminate; try (apply H3; reflexivity) |
    try (apply H3 in H; discriminate); try reflexivity]).
Qed.
Lemma orientation_cw v f s : angle_orientation v f s = CLOCKWISE <-> right_turn v f s.
Proof.
  unfold angle_orientation, right_turn. rewrite Qclt_alt. destruct (cross v f s ?= 0)%Qc; split; congruence.
Qed.
Lemma orientation_col v f s : angle_orientation v f s = COLLINEAR <-> collinear v f s.
Proof.
  unfold angle_orientation, collinear. rewrite Qceq_alt. destruct (cross v f s ?= Q2Qc 0)%Qc; split; congruence.
Qed.
