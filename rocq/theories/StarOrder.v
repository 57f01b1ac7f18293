(** A rational function with the order of the angle, and lists of points ordered by it. *)
From Verif Require Import Base Geometry Ctx Spec QcTac QcFast ProgProofs GeomProofs CyclicProofs StarSpec StarFan Reference.
From Coq Require Import Lqa.
Open Scope Qc_scope.

Definition psi (x y : Qc) : Qc :=
  let abs q := if qltb q 0 then - q else q in
  let r := abs x + abs y in
  if qeqb r 0 then Q2Qc 0 else if qltb y 0 then x / r - 1 else 1 - x / r.
Lemma ref_atan2_psi y x : ref_atan2 y x = Ok (psi x y).
Proof. reflexivity. Qed.

Definition quadrant (X Y w : Qc) : Prop :=
  (0 <= X /\ X <= 1 /\ Y = 1 - X /\ w = 1 - X)
  \/ (- (1) <= X /\ X < 0 /\ Y = 1 + X /\ w = 1 - X)
  \/ (- (1) < X /\ X < 0 /\ Y = - (1 + X) /\ w = X - 1)
  \/ (0 <= X /\ X < 1 /\ Y = - (1 - X) /\ w = X - 1).
Lemma psi_zero : psi 0 0 = 0.
Proof. reflexivity. Qed.
Lemma psi_quadrant x y : (x <> 0 \/ y <> 0) -> exists r X Y, 0 < r /\ x = r * X /\ y = r * Y /\ quadrant X Y (psi x y).
Proof.
  intros H. unfold psi.
  set (ax := if qltb x 0 then - x else x). set (ay := if qltb y 0 then - y else y).
  assert (Ax : (0 <= x /\ ax = x) \/ (x < 0 /\ ax = - x)).
  { unfold ax. destruct (qltb x 0) eqn:E; [right; split; [apply qltb_lt; exact E|reflexivity]|left; split; [|reflexivity]].
    apply Qcnot_lt_le. intros G. apply qltb_lt in G. congruence. }
  assert (Ay : (0 <= y /\ ay = y /\ qltb y 0 = false) \/ (y < 0 /\ ay = - y /\ qltb y 0 = true)).
  { unfold ay. destruct (qltb y 0) eqn:E; [right; split; [apply qltb_lt; exact E|auto]|left; split; [|auto]].
    apply Qcnot_lt_le. intros G. apply qltb_lt in G. congruence. }
  clearbody ax ay.
  assert (R : 0 < ax + ay).
  { destruct Ax as [(A1 & ->)|(A1 & ->)], Ay as [(A2 & -> & _)|(A2 & -> & _)]; try (clear - A1 A2; qcl).
    destruct (Qc_sign x) as [G|[G|G]]; [clear - G A2; qcl| |clear - A1 G; qcl].
    destruct (Qc_sign y) as [K|[K|K]]; [clear - K A1; qcl| |clear - A2 K; qcl]. destruct H; congruence. }
  cbn zeta. set (r := ax + ay) in *.
  assert (Rn : r <> 0) by (intros E; rewrite E in R; clear - R; qcl).
  assert (E0 : qeqb r 0 = false).
  { destruct (qeqb r 0) eqn:E; [|reflexivity]. apply qeqb_eq in E. contradiction. }
  rewrite E0. exists r, (x / r), (y / r). split; [exact R|]. split; [field; exact Rn|]. split; [field; exact Rn|].
  set (X := x / r). assert (EX : x = r * X) by (unfold X; field; exact Rn).
  set (Y := y / r). assert (EY : y = r * Y) by (unfold Y; field; exact Rn).
  assert (SX : forall s : Qc, s = 1 \/ s = - (1) -> 0 <= s * x -> 0 <= s * X).
  { intros s _ G. rewrite EX in G. destruct (Qc_sign (s * X)) as [K|[K|K]]; [apply Qclt_le_weak; exact K|rewrite K; apply Qcle_refl|].
    exfalso. replace (s * (r * X)) with (r * (s * X)) in G by ring. set (z := s * X) in *. clearbody z. clear - G K R. qcn. }
  assert (SX' : forall s : Qc, 0 < s * x -> 0 < s * X).
  { intros s G. rewrite EX in G. destruct (Qc_sign (s * X)) as [K|[K|K]]; [exact K| |];
    exfalso; replace (s * (r * X)) with (r * (s * X)) in G by ring; [rewrite K in G; clear - G; qcl|].
    set (z := s * X) in *. clearbody z. clear - G K R. qcn. }
  assert (SY : 0 <= y -> 0 <= Y).
  { intros G. rewrite EY in G. destruct (Qc_sign Y) as [K|[K|K]]; [apply Qclt_le_weak; exact K|rewrite K; apply Qcle_refl|].
    exfalso. clear - G K R. qcn. }
  assert (SY' : y < 0 -> Y < 0).
  { intros G. rewrite EY in G. destruct (Qc_sign Y) as [K|[K|K]]; [| |exact K]; exfalso; [clear - G K R; qcn|rewrite K in G; clear - G; qcl]. }
  assert (One : forall a b : Qc, r = r * a + r * b -> a + b = 1).
  { intros a b G. assert (Z : r * (a + b - 1) = 0).
    { replace (r * (a + b - 1)) with (r * a + r * b - r) by ring. rewrite <- G. ring. }
    apply (mul_zero r) in Z; [|exact Rn]. clear - Z. qcl. }
  unfold quadrant. destruct Ax as [(A1 & Ex)|(A1 & Ex)], Ay as [(A2 & Ey & Eb)|(A2 & Ey & Eb)]; rewrite Eb.
  - left. pose proof (One X Y ltac:(rewrite <- EX, <- EY; unfold r; rewrite Ex, Ey; reflexivity)) as O.
    pose proof (SX 1 ltac:(auto) ltac:(clear - A1; qcl)) as G1. pose proof (SY A2) as G2.
    split; [clear - G1; qcl|]. split; [clear - O G2; qcl|]. split; [clear - O; qcl|reflexivity].
  - right; right; right. pose proof (One X (- Y) ltac:(replace (r * - Y) with (- (r * Y)) by ring; rewrite <- EX, <- EY; unfold r; rewrite Ex, Ey; reflexivity)) as O.
    pose proof (SX 1 ltac:(auto) ltac:(clear - A1; qcl)) as G1. pose proof (SY' A2) as G2.
    split; [clear - G1; qcl|]. split; [clear - O G2; qcl|]. split; [clear - O; qcl|reflexivity].
  - right; left. pose proof (One (- X) Y ltac:(replace (r * - X) with (- (r * X)) by ring; rewrite <- EX, <- EY; unfold r; rewrite Ex, Ey; reflexivity)) as O.
    pose proof (SX' (- (1)) ltac:(clear - A1; qcl)) as G1. pose proof (SY A2) as G2.
    split; [clear - O G2; qcl|]. split; [clear - G1; qcl|]. split; [clear - O; qcl|reflexivity].
  - right; right; left. pose proof (One (- X) (- Y) ltac:(replace (r * - X) with (- (r * X)) by ring; replace (r * - Y) with (- (r * Y)) by ring; rewrite <- EX, <- EY; unfold r; rewrite Ex, Ey; reflexivity)) as O.
    pose proof (SX' (- (1)) ltac:(clear - A1; qcl)) as G1. pose proof (SY' A2) as G2.
    split; [clear - O G2; qcl|]. split; [clear - G1; qcl|]. split; [clear - O; qcl|reflexivity].
Qed.
Lemma quadrant_range X Y w : quadrant X Y w -> - (1 + 1) < w /\ w <= 1 + 1.
Proof. intros [(A & B & _ & ->)|[(A & B & _ & ->)|[(A & B & _ & ->)|(A & B & _ & ->)]]]; split; clear - A B; qcl. Qed.
Lemma quadrant_cross X Y w X' Y' w' : quadrant X Y w -> quadrant X' Y' w' ->
  (0 < X * Y' - X' * Y -> (0 < w' - w /\ w' - w < 1 + 1) \/ w' - w < - (1 + 1)).
Proof.
  intros [(A & B & -> & ->)|[(A & B & -> & ->)|[(A & B & -> & ->)|(A & B & -> & ->)]]]
    [(A' & B' & -> & ->)|[(A' & B' & -> & ->)|[(A' & B' & -> & ->)|(A' & B' & -> & ->)]]] H.
  all: first [left; split; [clear - A B A' B' H; qcn|clear - A B A' B' H; qcn]|right; clear - A B A' B' H; qcn].
Qed.
Lemma quadrant_cross_near X Y w X' Y' w' : quadrant X Y w -> quadrant X' Y' w' ->
  0 < w' - w -> w' - w < 1 + 1 -> 0 < X * Y' - X' * Y.
Proof.
  intros [(A & B & -> & ->)|[(A & B & -> & ->)|[(A & B & -> & ->)|(A & B & -> & ->)]]]
    [(A' & B' & -> & ->)|[(A' & B' & -> & ->)|[(A' & B' & -> & ->)|(A' & B' & -> & ->)]]] H K.
  all: clear - A B A' B' H K; first [exfalso; qcl|qcn].
Qed.
Lemma quadrant_cross_far X Y w X' Y' w' : quadrant X Y w -> quadrant X' Y' w' ->
  w' - w < - (1 + 1) -> 0 < X * Y' - X' * Y.
Proof.
  intros [(A & B & -> & ->)|[(A & B & -> & ->)|[(A & B & -> & ->)|(A & B & -> & ->)]]]
    [(A' & B' & -> & ->)|[(A' & B' & -> & ->)|[(A' & B' & -> & ->)|(A' & B' & -> & ->)]]] H.
  all: clear - A B A' B' H; first [exfalso; qcl|qcn].
Qed.
Lemma quadrant_half X Y w : quadrant X Y w -> (Y < 0 /\ - (1 + 1) < w /\ w < 0) \/ (0 <= Y /\ 0 <= w /\ w <= 1 + 1).
Proof.
  intros [(A & B & -> & ->)|[(A & B & -> & ->)|[(A & B & -> & ->)|(A & B & -> & ->)]]].
  - right. split; [|split]; clear - A B; qcl.
  - right. split; [|split]; clear - A B; qcl.
  - left. split; [|split]; clear - A B; qcl.
  - left. split; [|split]; clear - A B; qcl.
Qed.
Lemma quadrant_smaller X Y w X' Y' w' : quadrant X Y w -> quadrant X' Y' w' ->
  (smaller_direction X Y X' Y' <-> w < w').
Proof.
  intros Q Q'. pose proof (quadrant_cross _ _ _ _ _ _ Q Q') as C1. pose proof (quadrant_cross_near _ _ _ _ _ _ Q Q') as C2.
  unfold smaller_direction. split.
  - intros [(H & K)|[(H & K & L)|(H & K & [L|(L & M & N)])]].
    + destruct (quadrant_half _ _ _ Q) as [(_ & _ & G)|(G & _)]; [|clear - H G; qcl].
      destruct (quadrant_half _ _ _ Q') as [(F & _)|(_ & F & _)]; [clear - K F; qcl|clear - G F; qcl].
    + destruct (quadrant_half _ _ _ Q) as [(_ & G1 & G2)|(G & _)]; [|clear - H G; qcl].
      destruct (quadrant_half _ _ _ Q') as [(_ & F1 & F2)|(F & _)]; [|clear - K F; qcl].
      destruct (C1 L) as [(D & _)|D]; [clear - D; qcl|clear - D G1 G2 F1 F2; qcl].
    + destruct (quadrant_half _ _ _ Q) as [(G & _)|(_ & G1 & G2)]; [clear - H G; qcl|].
      destruct (quadrant_half _ _ _ Q') as [(F & _)|(_ & F1 & F2)]; [clear - K F; qcl|].
      destruct (C1 L) as [(D & _)|D]; [clear - D; qcl|clear - D G1 G2 F1 F2; qcl].
    + assert (W : w = 0).
      { destruct Q as [(A & B & E & ->)|[(A & B & E & ->)|[(A & B & E & ->)|(A & B & E & ->)]]]; rewrite E in L; clear - A B L M; qcl. }
      rewrite W. destruct Q' as [(A & B & E & ->)|[(A & B & E & ->)|[(A & B & E & ->)|(A & B & E & ->)]]]; subst Y';
      destruct N as [N|N]; clear - A B K N; qcl.
  - intros H. destruct (quadrant_half _ _ _ Q) as [(G0 & G1 & G2)|(G0 & G1 & G2)];
    destruct (quadrant_half _ _ _ Q') as [(F0 & F1 & F2)|(F0 & F1 & F2)].
    + right; left. split; [exact G0|]. split; [exact F0|]. apply C2; clear - H G1 G2 F1 F2; qcl.
    + left. auto.
    + exfalso. clear - H G1 F2. qcl.
    + right; right. split; [exact G0|]. split; [exact F0|].
      destruct (Qclt_le_dec (w' - w) (1 + 1)) as [D|D]; [left; apply C2; [clear - H; qcl|exact D]|right].
      assert (W : w = 0) by (clear - D G1 F2; qcl). assert (W' : w' = 1 + 1) by (clear - D G1 F2; qcl).
      clear C1 C2. rewrite W in Q. rewrite W' in Q'.
      destruct Q as [(A & B & E & E')|[(A & B & E & E')|[(A & B & E & E')|(A & B & E & E')]]];
      try (exfalso; clear - A B E'; qcl).
      split; [clear - E E'; qcl|]. split; [clear - E'; qcl|]. right.
      destruct Q' as [(A1 & B1 & E1 & E1')|[(A1 & B1 & E1 & E1')|[(A1 & B1 & E1 & E1')|(A1 & B1 & E1 & E1')]]];
      try (exfalso; clear - A1 B1 E1'; qcl). clear - B1. qcl.
Qed.

(** Scaling. *)
Lemma scaled_sign (r z : Qc) : 0 < r -> (0 < r * z <-> 0 < z) /\ (r * z < 0 <-> z < 0) /\ (0 <= r * z <-> 0 <= z) /\ (r * z = 0 <-> z = 0).
Proof.
  intros R. destruct (Qc_sign z) as [H|[H|H]].
  - assert (0 < r * z) by (clear - R H; qcn). clear R. split; [|split; [|split]]; split; intros G; (clear - H H0 G; qcl) || auto.
  - rewrite H. replace (r * Q2Qc 0) with (Q2Qc 0) by ring. tauto.
  - assert (r * z < 0) by (clear - R H; qcn). clear R. split; [|split; [|split]]; split; intros G; (clear - H H0 G; qcl) || auto.
Qed.
Lemma smaller_scaled r x y r' x' y' : 0 < r -> 0 < r' ->
  (smaller_direction (r * x) (r * y) (r' * x') (r' * y') <-> smaller_direction x y x' y').
Proof.
  intros R R'. unfold smaller_direction.
  destruct (scaled_sign r x R) as (X1 & X2 & X3 & X4). destruct (scaled_sign r y R) as (Y1 & Y2 & Y3 & Y4).
  destruct (scaled_sign r' x' R') as (X1' & X2' & X3' & X4'). destruct (scaled_sign r' y' R') as (Y1' & Y2' & Y3' & Y4').
  replace (r * x * (r' * y') - r' * x' * (r * y)) with (r * r' * (x * y' - x' * y)) by ring.
  destruct (scaled_sign (r * r') (x * y' - x' * y) (qpos _ _ R R')) as (C1 & _).
  rewrite Y2, Y2', Y3, Y3', Y4, Y1', C1, X3, X2'. reflexivity.
Qed.

Lemma smaller_psi x y x' y' : x <> 0 \/ y <> 0 -> x' <> 0 \/ y' <> 0 ->
  (smaller_direction x y x' y' <-> psi x y < psi x' y').
Proof.
  intros H H'. destruct (psi_quadrant x y H) as (r & X & Y & R & Ex & Ey & Q).
  destruct (psi_quadrant x' y' H') as (r' & X' & Y' & R' & Ex' & Ey' & Q').
  rewrite Ex at 1. rewrite Ey at 1. rewrite Ex' at 1. rewrite Ey' at 1. rewrite (smaller_scaled r X Y r' X' Y' R R').
  apply (quadrant_smaller X Y _ X' Y' _ Q Q').
Qed.
Lemma psi_smaller x y x' y' : psi x y < psi x' y' -> smaller_direction x y x' y'.
Proof.
  intros H. assert (D : forall a b : Qc, (a = 0 /\ b = 0) \/ (a <> 0 \/ b <> 0)).
  { intros a b. destruct (Qc_eq_dec a 0), (Qc_eq_dec b 0); auto. }
  destruct (D x y) as [(-> & ->)|N]; destruct (D x' y') as [(-> & ->)|N'].
  - exfalso. revert H. apply Qlt_irrefl.
  - rewrite psi_zero in H. destruct (psi_quadrant x' y' N') as (r & X & Y & R & -> & -> & Q).
    generalize dependent (psi (r * X) (r * Y)). intros w H Q.
    destruct (quadrant_half _ _ _ Q) as [(_ & _ & F)|(F & _)]; [clear - H F; qcl|].
    destruct (scaled_sign r X R) as (_ & X2 & _). destruct (scaled_sign r Y R) as (Y1 & _ & Y3 & _).
    unfold smaller_direction. right; right. split; [apply Qcle_refl|]. split; [apply Y3; exact F|]. right.
    split; [reflexivity|]. split; [apply Qcle_refl|].
    rewrite Y1, X2. destruct Q as [(A & B & E & E')|[(A & B & E & E')|[(A & B & E & E')|(A & B & E & E')]]];
    first [left; clear - A B E E' H; qcl|right; clear - A B E E' H; qcl|exfalso; clear - A B E E' H; qcl].
  - rewrite psi_zero in H. destruct (psi_quadrant x y N) as (r & X & Y & R & -> & -> & Q).
    generalize dependent (psi (r * X) (r * Y)). intros w H Q.
    destruct (scaled_sign r Y R) as (_ & Y2 & _). left. split; [|apply Qcle_refl]. apply Y2.
    destruct (quadrant_half _ _ _ Q) as [(F & _)|(_ & F & _)]; [exact F|clear - H F; qcl].
  - apply smaller_psi; assumption.
Qed.
Lemma reference_directions : orders_directions reference.
Proof.
  intros x y x' y' a a' E E' H. change (ref_atan2 y x = Ok a) in E. change (ref_atan2 y' x' = Ok a') in E'.
  rewrite ref_atan2_psi in E, E'. injection E as <-. injection E' as <-. apply psi_smaller. exact H.
Qed.

Lemma psi_range x y : x <> 0 \/ y <> 0 -> - (1 + 1) < psi x y /\ psi x y <= 1 + 1.
Proof. intros H. destruct (psi_quadrant x y H) as (r & X & Y & R & _ & _ & Q). apply (quadrant_range X Y _ Q). Qed.
Lemma psi_cross x y x' y' : x <> 0 \/ y <> 0 -> x' <> 0 \/ y' <> 0 ->
  (0 < x * y' - x' * y <->
    (0 < psi x' y' - psi x y /\ psi x' y' - psi x y < 1 + 1) \/ psi x' y' - psi x y < - (1 + 1)).
Proof.
  intros H H'. destruct (psi_quadrant x y H) as (r & X & Y & R & Ex & Ey & Q).
  destruct (psi_quadrant x' y' H') as (r' & X' & Y' & R' & Ex' & Ey' & Q').
  generalize dependent (psi x y). intros w Q. generalize dependent (psi x' y'). intros w' Q'. clear H H'. subst x y x' y'.
  replace (r * X * (r' * Y') - r' * X' * (r * Y)) with (r * r' * (X * Y' - X' * Y)) by ring.
  destruct (scaled_sign (r * r') (X * Y' - X' * Y) (qpos _ _ R R')) as (C1 & _). rewrite C1. split.
  - apply (quadrant_cross X Y w X' Y' w' Q Q').
  - intros [(G1 & G2)|G].
    + apply (quadrant_cross_near X Y w X' Y' w' Q Q' G1 G2).
    + apply (quadrant_cross_far X Y w X' Y' w' Q Q' G).
Qed.
