(** The winding number is the same at both ends of a segment that does not meet the contour. *)
From Coq Require Import List Lia Permutation.
From Verif Require Import Base Geometry Spec WindSpec QcTac QcFast GeomProofs ListProofs CycEdge SegmentProofs EdgeProofs
  DelGeo DelCyc DelMap DelCand DelWind Jordan.
Import ListNotations.
Open Scope Qc_scope.

Lemma div_mul (a b : Qc) : b <> 0 -> a / b * b = a.
Proof. intros n. unfold Qcdiv. rewrite <- Qcmult_assoc, (Qcmult_comm (/ _)), Qcmult_inv_r; [ring|exact n]. Qed.
Lemma div_unit (a b : Qc) : 0 < b -> 0 <= a -> a <= b -> 0 <= a / b /\ a / b <= 1.
Proof.
  intros p h1 h2. pose proof (div_mul a b ltac:(intros e; rewrite e in p; ql)) as E. set (u := a / b) in *. clearbody u. split.
  - apply Qcnot_lt_le. intros k. pose proof (mul_neg b u p k) as M. rewrite Qcmult_comm in M. ql.
  - apply Qcnot_lt_le. intros k. pose proof (mul_pos b (u - 1) p ltac:(ql)) as M. assert (e : b * (u - 1) = u * b - b) by ring. ql.
Qed.
Lemma on_sub x c d a b : on_segment c a b -> on_segment d a b -> on_segment x c d -> on_segment x a b.
Proof.
  intros (s & s0 & s1 & X1 & Y1) (t & t0 & t1 & X2 & Y2) (u & u0 & u1 & X & Y). exists (s + u * (t - s)).
  pose proof (mul_nonneg u t u0 t0). pose proof (mul_nonneg (1 - u) s ltac:(ql) s0) as M.
  pose proof (mul_nonneg u (1 - t) u0 ltac:(ql)) as M1. pose proof (mul_nonneg (1 - u) (1 - s) ltac:(ql) ltac:(ql)) as M2.
  assert (e1 : s + u * (t - s) = u * t + (1 - u) * s) by ring.
  assert (e2 : 1 - (s + u * (t - s)) = u * (1 - t) + (1 - u) * (1 - s)) by ring.
  split; [ql|]. split; [ql|]. rewrite X, Y, X1, Y1, X2, Y2. split; ring.
Qed.
(** The point of an edge over a given abscissa. *)
Lemma clip a b x0 : px a < px b -> px a <= x0 -> x0 <= px b ->
  exists c, on_segment c a b /\ px c = x0 /\ forall p, px p = x0 -> cross a b p = (px b - px a) * (py p - py c).
Proof.
  intros h h1 h2. destruct (div_unit (x0 - px a) (px b - px a) ltac:(ql) ltac:(ql) ltac:(ql)) as (t0 & t1).
  pose proof (div_mul (x0 - px a) (px b - px a) ltac:(intros e; ql)) as E. set (t := (x0 - px a) / (px b - px a)) in *. clearbody t.
  exists (Pt (px a + t * (px b - px a)) (py a + t * (py b - py a))). split; [exists t; auto|]. cbn [px py]. split; [rewrite E; ring|].
  intros p Hp. unfold cross. rewrite Hp. assert (e : x0 = px a + t * (px b - px a)) by (rewrite E; ring). rewrite e. ring.
Qed.
Lemma strip_touch p q c d : px p < px q -> px p <= px c -> px c <= px q -> px p <= px d -> px d <= px q ->
  cross p q c <= 0 -> 0 <= cross p q d -> exists x, on_segment x c d /\ on_segment x p q.
Proof.
  intros h c1 c2 d1 d2' C D.
  assert (K : exists s, 0 <= s /\ s <= 1 /\ (1 - s) * cross p q c + s * cross p q d = 0).
  { destruct (Qcle_lt_or_eq _ _ D) as [D'|D'].
    - pose proof (div_unit (- cross p q c) (cross p q d - cross p q c) ltac:(ql) ltac:(ql) ltac:(ql)) as (s0 & s1).
      pose proof (div_mul (- cross p q c) (cross p q d - cross p q c) ltac:(intros e; ql)) as E. set (s := _ / _) in *. clearbody s.
      exists s. split; [exact s0|]. split; [exact s1|]. assert (e : (1 - s) * cross p q c + s * cross p q d = cross p q c + s * (cross p q d - cross p q c)) by ring. rewrite e, E. ring.
    - exists 1. split; [ql|]. split; [ql|]. rewrite <- D'. ring. }
  destruct K as (s & s0 & s1 & E).
  set (x := Pt (px c + s * (px d - px c)) (py c + s * (py d - py c))).
  assert (Ox : on_segment x c d) by (exists s; auto). exists x. split; [exact Ox|].
  assert (Cx : cross p q x = 0).
  { assert (e : cross p q x = (1 - s) * cross p q c + s * cross p q d) by (unfold cross, x; cbn [px py]; ring). rewrite e. exact E. }
  assert (n : p <> q) by (intros e; rewrite e in h; ql).
  destruct (line_param p q x n Cx) as (t & X & Y). exists t.
  assert (x1 : px p <= px x).
  { pose proof (mul_nonneg (1 - s) (px c - px p) ltac:(ql) ltac:(ql)) as M. pose proof (mul_nonneg s (px d - px p) s0 ltac:(ql)) as M'.
    assert (e : px x - px p = (1 - s) * (px c - px p) + s * (px d - px p)) by (unfold x; cbn [px]; ring). ql. }
  assert (x2 : px x <= px q).
  { pose proof (mul_nonneg (1 - s) (px q - px c) ltac:(ql) ltac:(ql)) as M. pose proof (mul_nonneg s (px q - px d) s0 ltac:(ql)) as M'.
    assert (e : px q - px x = (1 - s) * (px q - px c) + s * (px q - px d)) by (unfold x; cbn [px]; ring). ql. }
  split; [apply (nonneg_of_mul (px q - px p)); [ql|]; rewrite Qcmult_comm; ql|]. split; [|auto].
  apply Qcnot_lt_le. intros k. pose proof (mul_pos (px q - px p) (t - 1) ltac:(ql) ltac:(ql)) as M.
  assert (e : (px q - px p) * (t - 1) = t * (px q - px p) - (px q - px p)) by ring. ql.
Qed.
Lemma on_sym x a b : on_segment x a b -> on_segment x b a.
Proof. intros (t & t0 & t1 & X & Y). exists (1 - t). split; [ql|]. split; [ql|]. rewrite X, Y. split; ring. Qed.

Definition above (p q x : point) : bool := qltb (px p) (px x) && qleb (px x) (px q) && qltb 0 (cross p q x).
Definition apart (p q a b : point) : Prop := forall x, on_segment x p q -> ~ on_segment x a b.
Lemma apart_swap p q a b : apart p q a b -> apart p q b a.
Proof. intros A x O O'. apply (A x O), on_sym, O'. Qed.
Lemma b2z_eq b b' : b = b' -> b2z b = b2z b'.
Proof. congruence. Qed.
Lemma qltb_iff x y b : (b = true -> x < y) -> (b = false -> y <= x) -> qltb x y = b.
Proof. intros h1 h2. destruct b; [apply qltb_yes; auto|apply qltb_no; auto]. Qed.
Lemma move_edge p q a b : px p < px q -> px a <= px b -> apart p q a b ->
  (passes q a b - passes p a b = b2z (above p q b) - b2z (above p q a))%Z.
Proof.
  intros h hab A.
  assert (Cl : forall c d, on_segment c a b -> on_segment d a b -> px p <= px c -> px c <= px q -> px p <= px d -> px d <= px q ->
    (0 < cross p q c /\ 0 < cross p q d) \/ (cross p q c < 0 /\ cross p q d < 0)).
  { intros c d Oc Od c1 c2 d1 d2'.
    assert (T : forall c d, on_segment c a b -> on_segment d a b -> px p <= px c -> px c <= px q -> px p <= px d -> px d <= px q -> cross p q c <= 0 -> 0 <= cross p q d -> False).
    { clear c d Oc Od c1 c2 d1 d2'. intros c d Oc Od c1 c2 d1 d2' C D. destruct (strip_touch p q c d h c1 c2 d1 d2' C D) as (x & O1 & O2).
      apply (A x O2). apply (on_sub x c d); assumption. }
    destruct (Qclt_le_dec 0 (cross p q c)) as [k|k].
    - left. split; [exact k|]. apply Qcnot_le_lt. intros k'. apply (T d c); auto. ql.
    - right. assert (k2 : cross p q d < 0) by (apply Qcnot_le_lt; intros k'; apply (T c d); auto). split; [|exact k2].
      apply Qcnot_le_lt. intros k'. apply (T d c); auto. ql. }
  assert (AL : forall x, px x <= px p -> above p q x = false).
  { intros x k. unfold above. rewrite (qltb_no (px p) (px x)) by exact k. reflexivity. }
  assert (AR : forall x, px q < px x -> above p q x = false).
  { intros x k. unfold above. rewrite (qleb_no (px x) (px q)) by exact k. rewrite andb_false_r. reflexivity. }
  assert (AM : forall x, px p < px x -> px x <= px q -> above p q x = qltb 0 (cross p q x)).
  { intros x k k'. unfold above. rewrite qltb_yes, qleb_yes by assumption. reflexivity. }
  assert (Oa : on_segment a a b) by apply on_left. assert (Ob : on_segment b a b) by apply on_right.
  assert (Pu : forall z, px z < px a -> passes z a b = 0%Z).
  { intros z k. unfold passes. rewrite (qleb_no (px b) (px z)), (qleb_no (px a) (px z)) by ql. reflexivity. }
  assert (Pd : forall z, px b <= px z -> passes z a b = 0%Z).
  { intros z k. unfold passes. rewrite (qltb_no (px z) (px a)), (qltb_no (px z) (px b)) by ql. rewrite !andb_false_r. reflexivity. }
  assert (Pm : forall z, px a <= px z -> px z < px b -> passes z a b = (- b2z (qltb (cross a b z) 0))%Z).
  { intros z k k'. unfold passes. rewrite (qleb_no (px b) (px z)), (qleb_yes (px a) (px z)), (qltb_yes (px z) (px b)) by ql. cbn [andb].
    destruct (qltb (cross a b z) 0); reflexivity. }
  (* the sign over p and over q *)
  assert (Lp : px a <= px p -> px p < px b -> exists c, on_segment c a b /\ px c = px p /\ (0 < cross p q c -> cross a b p < 0) /\ (cross p q c < 0 -> 0 < cross a b p)).
  { intros k k'. destruct (clip a b (px p) ltac:(ql) k ltac:(ql)) as (c & O & X & E). exists c. split; [exact O|]. split; [exact X|]. rewrite (E p eq_refl).
    assert (e : cross p q c = (px q - px p) * (py c - py p)) by (unfold cross; rewrite X; ring). rewrite e. split; intros s.
    - pose proof (pos_of_mul (px q - px p) _ ltac:(ql) s). apply mul_neg; ql.
    - apply mul_pos; [ql|]. apply Qcnot_le_lt. intros k2. pose proof (mul_nonneg (px q - px p) (py c - py p) ltac:(ql) ltac:(ql)). ql. }
  assert (Lq : px a <= px q -> px q < px b -> exists c, on_segment c a b /\ px c = px q /\ (0 < cross p q c -> cross a b q < 0) /\ (cross p q c < 0 -> 0 < cross a b q)).
  { intros k k'. destruct (clip a b (px q) ltac:(ql) k ltac:(ql)) as (c & O & X & E). exists c. split; [exact O|]. split; [exact X|]. rewrite (E q eq_refl).
    assert (e : cross p q c = (px q - px p) * (py c - py q)) by (unfold cross; rewrite X; ring). rewrite e. split; intros s.
    - pose proof (pos_of_mul (px q - px p) _ ltac:(ql) s). apply mul_neg; ql.
    - apply mul_pos; [ql|]. apply Qcnot_le_lt. intros k2. pose proof (mul_nonneg (px q - px p) (py c - py q) ltac:(ql) ltac:(ql)). ql. }
  destruct (Qclt_le_dec (px p) (px a)) as [a1|a1].
  - rewrite (Pu p a1). destruct (Qclt_le_dec (px q) (px a)) as [a2|a2].
    + rewrite (Pu q a2), (AR a a2), (AR b) by ql. reflexivity.
    + rewrite (AM a a1 a2). destruct (Qclt_le_dec (px q) (px b)) as [b2|b2].
      * rewrite (AR b b2), (Pm q a2 b2). destruct (Lq a2 b2) as (c & O & X & S1 & S2).
        destruct (Cl a c Oa O ltac:(ql) a2 ltac:(ql) ltac:(ql)) as [(k1 & k2)|(k1 & k2)].
        -- rewrite (qltb_yes _ _ k1), (qltb_yes _ _ (S1 k2)). reflexivity.
        -- specialize (S2 k2). rewrite (qltb_no 0), (qltb_no (cross a b q)) by ql. reflexivity.
      * rewrite (Pd q b2), (AM b ltac:(ql) b2). destruct (Cl a b Oa Ob ltac:(ql) a2 ltac:(ql) ltac:(ql)) as [(k1 & k2)|(k1 & k2)].
        -- rewrite (qltb_yes _ _ k1), (qltb_yes _ _ k2). reflexivity.
        -- rewrite !(qltb_no 0) by ql. reflexivity.
  - rewrite (AL a a1). destruct (Qclt_le_dec (px p) (px b)) as [b1|b1].
    + rewrite (Pm p a1 b1). destruct (Lp a1 b1) as (c & O & X & S1 & S2). destruct (Qclt_le_dec (px q) (px b)) as [b2|b2].
      * rewrite (AR b b2). assert (a2 : px a <= px q) by ql. rewrite (Pm q a2 b2). destruct (Lq a2 b2) as (d & O' & X' & S1' & S2').
        destruct (Cl c d O O' ltac:(ql) ltac:(ql) ltac:(ql) ltac:(ql)) as [(k1 & k2)|(k1 & k2)].
        -- rewrite (qltb_yes _ _ (S1 k1)), (qltb_yes _ _ (S1' k2)). reflexivity.
        -- specialize (S2 k1). specialize (S2' k2). rewrite (qltb_no (cross a b q)), (qltb_no (cross a b p)) by ql. reflexivity.
      * rewrite (Pd q b2), (AM b b1 b2). destruct (Cl c b O Ob ltac:(ql) ltac:(ql) ltac:(ql) ltac:(ql)) as [(k1 & k2)|(k1 & k2)].
        -- rewrite (qltb_yes _ _ (S1 k1)), (qltb_yes _ _ k2). reflexivity.
        -- specialize (S2 k1). rewrite (qltb_no (cross a b p)), (qltb_no 0) by ql. reflexivity.
    + rewrite (Pd p b1), (Pd q) by ql. rewrite (AL b b1). reflexivity.
Qed.
Lemma move_edge' p q a b : px p < px q -> apart p q a b -> (passes q a b - passes p a b = b2z (above p q b) - b2z (above p q a))%Z.
Proof.
  intros h A. destruct (Qclt_le_dec (px b) (px a)) as [k|k]; [|apply move_edge; auto].
  pose proof (move_edge p q b a h ltac:(ql) (apart_swap _ _ _ _ A)). pose proof (passes_anti q a b). pose proof (passes_anti p a b). lia.
Qed.
Lemma vertical p q c : px p = px c -> px q = px c -> py p <= py c -> py c <= py q -> on_segment c p q.
Proof.
  intros h1 h2 h3 h4. destruct (Qc_eq_dec (py p) (py q)) as [e|n].
  - exists 0. split; [ql|]. split; [ql|]. split; [rewrite h1; ring|]. assert (py c = py p) by (apply Qcle_antisym; ql). rewrite H. ring.
  - assert (D : py p < py q) by (apply Qcnot_le_lt; intros k; apply n, Qcle_antisym; ql).
    destruct (div_unit (py c - py p) (py q - py p) ltac:(ql) ltac:(ql) ltac:(ql)) as (t0 & t1).
    pose proof (div_mul (py c - py p) (py q - py p) ltac:(intros e; ql)) as E. exists ((py c - py p) / (py q - py p)). split; [exact t0|]. split; [exact t1|].
    rewrite h1, h2, E. split; ring.
Qed.
Lemma move_up p q a b : px p = px q -> apart p q a b -> passes q a b = passes p a b.
Proof.
  intros h A.
  assert (K : forall a b, apart p q a b -> px a <= px b -> passes q a b = passes p a b).
  { clear a b A. intros a b A hab. destruct (Qclt_le_dec (px q) (px a)) as [k|k]; [rewrite !passes_rr by (rewrite ?h; ql); reflexivity|].
    destruct (Qclt_le_dec (px q) (px b)) as [k'|k']; [|rewrite !passes_ll by (rewrite ?h; ql); reflexivity].
    rewrite !passes_lr by (rewrite ?h; assumption).
    destruct (clip a b (px q) ltac:(ql) k ltac:(ql)) as (c & O & X & E). rewrite (E q eq_refl), (E p h).
    assert (D : 0 < px b - px a) by ql.
    assert (Sn : forall y, sgn ((px b - px a) * (y - py c)) = if qltb y (py c) then (-1)%Z else 0%Z).
    { intros y. destruct (Qclt_le_dec y (py c)) as [l|l].
      - rewrite qltb_yes by exact l. apply sgn_neg, mul_neg; ql.
      - rewrite qltb_no by exact l. apply sgn_nneg, mul_nonneg; ql. }
    rewrite !Sn. destruct (Qclt_le_dec (py q) (py c)) as [l|l]; destruct (Qclt_le_dec (py p) (py c)) as [l'|l'].
    - rewrite !qltb_yes by assumption. reflexivity.
    - exfalso. apply (A c); [|exact O]. apply on_sym, vertical; ql.
    - exfalso. apply (A c); [|exact O]. apply vertical; ql.
    - rewrite !qltb_no by assumption. reflexivity. }
  destruct (Qclt_le_dec (px b) (px a)) as [k|k]; [|apply K; auto].
  rewrite (passes_anti q b a), (passes_anti p b a), K; auto using apart_swap. ql.
Qed.
Lemma zsum_const (f g : point * point -> Z) l : (forall x, In x l -> f x = g x) -> zsum (List.map f l) = zsum (List.map g l).
Proof. intros H. f_equal. apply map_ext_in, H. Qed.
Lemma zsum_tele (r : point -> Z) vs : zsum (List.map (fun e => r (snd e) - r (fst e))%Z (ces vs)) = 0%Z.
Proof.
  assert (E : forall l, zsum (List.map (fun e => r (snd e) - r (fst e))%Z l) = (zsum (List.map r (List.map snd l)) - zsum (List.map r (List.map fst l)))%Z).
  { induction l as [|x l IH]; [reflexivity|]. cbn [List.map]. unfold zsum in *. cbn [fold_right]. rewrite IH. lia. }
  rewrite E, ces_fst. destruct vs as [|x l]; [reflexivity|]. rewrite ces_snd.
  assert (P : Permutation (List.map r (l ++ [x])) (List.map r (x :: l))) by (apply Permutation_map, Permutation_sym, Permutation_cons_append).
  rewrite (zsum_perm _ _ P). lia.
Qed.
Lemma winding_move p q vs : (forall x, on_segment x p q -> ~ on_contour x vs) -> winding p vs = winding q vs.
Proof.
  intros H.
  assert (A : forall a b, In (a, b) (ces vs) -> apart p q a b).
  { intros a b Hab x O O'. apply (H x O). exists a, b. split; [apply ces_edge, Hab|exact O']. }
  assert (K : forall p q, (forall a b, In (a, b) (ces vs) -> apart p q a b) -> px p < px q -> winding q vs = winding p vs).
  { clear p q H A. intros p q A h. rewrite !winding_wsum. unfold wsum.
    assert (E : zsum (List.map (fun e => passes q (fst e) (snd e)) (ces vs)) =
      (zsum (List.map (fun e => passes p (fst e) (snd e)) (ces vs)) + zsum (List.map (fun e => b2z (above p q (snd e)) - b2z (above p q (fst e)))%Z (ces vs)))%Z).
    { revert A. induction (ces vs) as [|(a & b) l IH]; intros A; [reflexivity|]. cbn [List.map fst snd]. unfold zsum in *. cbn [fold_right].
      rewrite IH by (intros x y Hxy; apply A; right; exact Hxy). pose proof (move_edge' p q a b h (A a b (or_introl eq_refl))). lia. }
    rewrite E, (zsum_tele (fun x => b2z (above p q x))). lia. }
  destruct (Qc_lt_eq_gt (px p) (px q)) as [h|[h|h]].
  - symmetry. apply K; auto.
  - rewrite !winding_wsum. apply zsum_const. intros (a & b) Hab. symmetry. apply move_up; auto.
  - apply K; [|exact h]. intros a b Hab x O O'. apply (A a b Hab x); [apply on_sym, O|exact O'].
Qed.
(** Every point of a closed curve is inside another one, if a vertex is and the curves do not meet. *)
Lemma within_all vs ws q : (forall x, on_contour x ws -> ~ on_contour x vs) -> (forall x, In x ws -> winding x vs = 1%Z) -> on_contour q ws -> within q vs.
Proof.
  intros D H O. split; [|apply D, O]. destruct O as (a & b & E & O). rewrite <- (winding_move a q).
  - apply H. apply ces_edge in E. apply (ces_in _ _ _ E).
  - intros x Ox. apply D. exists a, b. split; [exact E|]. apply (on_sub x a q); auto. apply on_left.
Qed.
