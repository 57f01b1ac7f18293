(** Proofs for C97: simple shapes and the symmetries of the square. *)
From Verif Require Import Base Prog Geometry Spec SymmetrySpec Planar ProgProofs PlanarProofs ApiProofs.
Import List ListNotations.
Local Open Scope Z_scope.

Lemma transpose_twice p : transpose (transpose p) = p.
Proof. destruct p. reflexivity. Qed.
Lemma mirror_twice p : mirror (mirror p) = p.
Proof. destruct p as [x y]. unfold mirror. cbn [px py]. f_equal. ring. Qed.
Lemma transpose_inj p q : transpose p = transpose q -> p = q.
Proof. intros E. rewrite <- (transpose_twice p), E. apply transpose_twice. Qed.
Lemma mirror_inj p q : mirror p = mirror q -> p = q.
Proof. intros E. rewrite <- (mirror_twice p), E. apply mirror_twice. Qed.
Lemma transposed_turn a b c : left_turn a b c <-> left_turn (transpose a) (transpose c) (transpose b).
Proof.
  unfold left_turn. enough (E : cross a b c = cross (transpose a) (transpose c) (transpose b)) by now rewrite E.
  unfold cross, transpose; cbn [px py]. ring.
Qed.
Lemma mirrored_turn a b c : left_turn a b c <-> left_turn (mirror a) (mirror c) (mirror b).
Proof.
  unfold left_turn. enough (E : cross a b c = cross (mirror a) (mirror c) (mirror b)) by now rewrite E.
  unfold cross, mirror; cbn [px py]. ring.
Qed.
Lemma Qc_opp_lt a b : (a < b <-> - b < - a)%Qc.
Proof.
  rewrite (Qclt_minus_iff a b), (Qclt_minus_iff (- b) (- a)).
  replace (- a + - - b)%Qc with (b + - a)%Qc by ring. reflexivity.
Qed.

Section Map.
Variables (xs xs' : scalars) (ys ys' : option scalars) (f : point -> point).
Hypothesis inj : forall p q, f p = f q -> p = q.
Hypothesis dr : forall p, drawable_point xs ys p <-> drawable_point xs' ys' (f p).

Lemma points_map w s w' s' : points xs ys = Ok (w, s) -> points xs' ys' = Ok (w', s') ->
  forall p, generates s p <-> generates s' (f p).
Proof.
  intros E E' p. rewrite (points_exact _ _ _ _ E), (points_exact _ _ _ _ E'). apply dr.
Qed.
Lemma multipoints_map mn mx w s w' s' : multipoints xs ys mn mx = Ok (w, s) -> multipoints xs' ys' mn mx = Ok (w', s') ->
  forall l, generates s l <-> generates s' (map f l).
Proof.
  intros E E' l. rewrite (multipoints_exact _ _ _ _ _ _ E), (multipoints_exact _ _ _ _ _ _ E').
  assert (L : lenZ (map f l) = lenZ l) by (unfold lenZ; now rewrite map_length).
  rewrite L. split; intros (N & S & D); (split; [|split; [exact S|]]).
  - apply FinFun.Injective_map_NoDup; [exact inj | exact N].
  - intros p [q [<- Hq]]%in_map_iff. apply dr, D, Hq.
  - exact (NoDup_map_inv _ _ N).
  - intros p Hp. apply dr, D, in_map, Hp.
Qed.
Lemma segments_map w s w' s' : segments xs ys = Ok (w, s) -> segments xs' ys' = Ok (w', s') ->
  forall a b, generates s (Seg a b) <-> generates s' (Seg (f a) (f b)).
Proof.
  intros E E' a b. rewrite (segments_exact _ _ _ _ E), (segments_exact _ _ _ _ E'). cbn [seg_start seg_end].
  rewrite <- !dr. split; intros (N & D); (split; [|exact D]); intros H; apply N; [apply inj, H | now f_equal].
Qed.
Lemma triangular_map (turn : forall a b c, left_turn a b c <-> left_turn (f a) (f c) (f b)) w s w' s' :
  triangular_contours xs ys = Ok (w, s) -> triangular_contours xs' ys' = Ok (w', s') ->
  forall a b c, generates s [a; b; c] <-> generates s' [f a; f c; f b].
Proof.
  intros E E' a b c. rewrite (triangular_exact _ _ _ _ E), (triangular_exact _ _ _ _ E'). split.
  - intros (a' & b' & c' & [= <- <- <-] & T & A & B & C). exists (f a), (f c), (f b).
    split; [reflexivity|]. split; [exact (proj1 (turn a b c) T)|]. now rewrite <- !dr.
  - intros (a' & b' & c' & [= <- <- <-] & T & A & B & C). exists a, b, c.
    split; [reflexivity|]. split; [exact (proj2 (turn a b c) T)|]. now rewrite !dr.
Qed.
End Map.

Lemma exchanged_points xs ys xs' ys' : exchanged xs ys xs' ys' ->
  forall p, drawable_point xs ys p <-> drawable_point xs' ys' (transpose p).
Proof.
  intros [X Y] p. unfold drawable_point, transpose. cbn [px py]. rewrite (X (px p)), (Y (py p)). tauto.
Qed.
Lemma reversed_points xs ys xs' ys' : reversed xs ys xs' ys' ->
  forall p, drawable_point xs ys p <-> drawable_point xs' ys' (mirror p).
Proof.
  intros [X Y] p. unfold drawable_point, mirror. cbn [px py]. rewrite (X (px p)), (Y (py p)). tauto.
Qed.

Lemma boxes_exchanged xs ys xs' ys' : exchanged xs ys xs' ys' ->
  forall w s w' s', boxes xs ys = Ok (w, s) -> boxes xs' ys' = Ok (w', s') ->
  forall x1 x2 y1 y2, generates s (Box x1 x2 y1 y2) <-> generates s' (Box y1 y2 x1 x2).
Proof.
  intros [X Y] w s w' s' E E' x1 x2 y1 y2. rewrite (boxes_exact _ _ _ _ E), (boxes_exact _ _ _ _ E').
  cbn [min_x max_x min_y max_y]. rewrite (X x1), (X x2), (Y y1), (Y y2). tauto.
Qed.
Lemma boxes_reversed xs ys xs' ys' : reversed xs ys xs' ys' ->
  forall w s w' s', boxes xs ys = Ok (w, s) -> boxes xs' ys' = Ok (w', s') ->
  forall x1 x2 y1 y2, generates s (Box x1 x2 y1 y2) <-> generates s' (Box (- x2)%Qc (- x1)%Qc y1 y2).
Proof.
  intros [X Y] w s w' s' E E' x1 x2 y1 y2. rewrite (boxes_exact _ _ _ _ E), (boxes_exact _ _ _ _ E').
  cbn [min_x max_x min_y max_y]. rewrite (X x1), (X x2), (Y y1), (Y y2), (Qc_opp_lt x1 x2). tauto.
Qed.
Lemma rectangular_exchanged xs ys xs' ys' : exchanged xs ys xs' ys' ->
  forall w s w' s', rectangular_contours xs ys = Ok (w, s) -> rectangular_contours xs' ys' = Ok (w', s') ->
  forall a b c d, generates s [a; b; c; d] <-> generates s' [transpose a; transpose d; transpose c; transpose b].
Proof.
  intros [X Y] w s w' s' E E' a b c d. rewrite (rectangular_exact _ _ _ _ E), (rectangular_exact _ _ _ _ E'). split.
  - intros (x1 & x2 & y1 & y2 & [= -> -> -> ->] & Lx & Ly & D). exists y1, y2, x1, x2.
    split; [reflexivity|]. pose proof (X x1). pose proof (X x2). pose proof (Y y1). pose proof (Y y2). tauto.
  - intros (x1 & x2 & y1 & y2 & Q & Lx & Ly & D). exists y1, y2, x1, x2. split.
    + destruct a as [ax ay], b as [bx by'], c as [cx cy], d as [dx dy]; unfold transpose in Q; cbn [px py] in Q.
      injection Q as A B C F G H I J. congruence.
    + pose proof (X y1). pose proof (X y2). pose proof (Y x1). pose proof (Y x2). tauto.
Qed.
Lemma Qc_opp_eq a b : (- a)%Qc = b -> a = (- b)%Qc.
Proof. intros <-. symmetry. apply Qcopp_involutive. Qed.
Lemma rectangular_reversed xs ys xs' ys' : reversed xs ys xs' ys' ->
  forall w s w' s', rectangular_contours xs ys = Ok (w, s) -> rectangular_contours xs' ys' = Ok (w', s') ->
  forall a b c d, generates s [a; b; c; d] <-> generates s' [mirror b; mirror a; mirror d; mirror c].
Proof.
  intros [X Y] w s w' s' E E' a b c d. rewrite (rectangular_exact _ _ _ _ E), (rectangular_exact _ _ _ _ E'). split.
  - intros (x1 & x2 & y1 & y2 & [= -> -> -> ->] & Lx & Ly & D). exists (- x2)%Qc, (- x1)%Qc, y1, y2.
    split; [reflexivity|]. pose proof (X x1). pose proof (X x2). pose proof (Y y1). pose proof (Y y2).
    pose proof (Qc_opp_lt x1 x2). tauto.
  - intros (x1 & x2 & y1 & y2 & Q & Lx & Ly & D). exists (- x2)%Qc, (- x1)%Qc, y1, y2. split.
    + destruct a as [ax ay], b as [bx by'], c as [cx cy], d as [dx dy]; unfold mirror in Q; cbn [px py] in Q.
      injection Q as A B C F G H I J. apply Qc_opp_eq in A, C, G, I. congruence.
    + pose proof (X (- x1)%Qc) as X1. pose proof (X (- x2)%Qc) as X2. rewrite Qcopp_involutive in X1, X2.
      pose proof (Y y1). pose proof (Y y2). pose proof (Qc_opp_lt x1 x2). tauto.
Qed.
