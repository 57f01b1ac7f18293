(** Winding numbers: antisymmetry, triangles, straight angles. *)
From Coq Require Import List Lia Permutation ZArith.
From Verif Require Import Base Geometry Spec WindSpec QcTac QcFast GeomProofs CyclicProofs CycEdge DelGeo DelCyc DelMap DelCand.
Import ListNotations.
Open Scope Qc_scope.

Lemma qltb_spec x y : if qltb x y then x < y else y <= x.
Proof. destruct (qltb x y) eqn:E; [apply qltb_lt, E|]. apply Qcnot_lt_le. intros h. apply qltb_lt in h. congruence. Qed.
Lemma qleb_spec x y : if qleb x y then x <= y else y < x.
Proof.
  destruct (Qclt_le_dec y x) as [h|h].
  - assert (E : qleb x y = false); [|rewrite E; exact h]. unfold qleb. apply Qcgt_alt in h. rewrite h. reflexivity.
  - assert (E : qleb x y = true); [|rewrite E; exact h]. unfold qleb. unfold Qcle in h. rewrite Qle_alt in h. unfold Qccompare. destruct (this x ?= this y)%Q eqn:e; congruence.
Qed.
Lemma qltb_yes x y : x < y -> qltb x y = true.
Proof. apply qltb_lt. Qed.
Lemma qltb_no x y : y <= x -> qltb x y = false.
Proof. intros h. pose proof (qltb_spec x y) as k. destruct (qltb x y); [ql|reflexivity]. Qed.
Lemma qleb_yes x y : x <= y -> qleb x y = true.
Proof. intros h. pose proof (qleb_spec x y) as k. destruct (qleb x y); [reflexivity|ql]. Qed.
Lemma qleb_no x y : y < x -> qleb x y = false.
Proof. intros h. pose proof (qleb_spec x y) as k. destruct (qleb x y); [ql|reflexivity]. Qed.

(** [passes] by the position of the ends. *)
Definition sgp (s : Qc) : Z := if qltb 0 s then 1%Z else 0%Z.
Definition sgn (s : Qc) : Z := if qltb s 0 then (-1)%Z else 0%Z.
Lemma passes_ll q a b : px a <= px q -> px b <= px q -> passes q a b = 0%Z.
Proof. intros A B. unfold passes. rewrite (qltb_no (px q) (px a)), (qltb_no (px q) (px b)) by assumption. rewrite !andb_false_r. reflexivity. Qed.
Lemma passes_rr q a b : px q < px a -> px q < px b -> passes q a b = 0%Z.
Proof. intros A B. unfold passes. rewrite (qleb_no (px b) (px q)), (qleb_no (px a) (px q)) by assumption. reflexivity. Qed.
Lemma passes_lr q a b : px a <= px q -> px q < px b -> passes q a b = sgn (cross a b q).
Proof.
  intros A B. unfold passes, sgn. rewrite (qleb_no (px b) (px q)), (qleb_yes (px a) (px q)), (qltb_yes (px q) (px b)) by assumption. reflexivity.
Qed.
Lemma passes_rl q a b : px q < px a -> px b <= px q -> passes q a b = sgp (cross a b q).
Proof.
  intros A B. unfold passes, sgp. rewrite (qleb_yes (px b) (px q)), (qltb_yes (px q) (px a)), (qleb_no (px a) (px q)) by assumption. reflexivity.
Qed.
Lemma sgp_pos s : 0 < s -> sgp s = 1%Z.
Proof. intros h. unfold sgp. rewrite qltb_yes by exact h. reflexivity. Qed.
Lemma sgp_npos s : s <= 0 -> sgp s = 0%Z.
Proof. intros h. unfold sgp. rewrite qltb_no by exact h. reflexivity. Qed.
Lemma sgn_neg s : s < 0 -> sgn s = (-1)%Z.
Proof. intros h. unfold sgn. rewrite qltb_yes by exact h. reflexivity. Qed.
Lemma sgn_nneg s : 0 <= s -> sgn s = 0%Z.
Proof. intros h. unfold sgn. rewrite qltb_no by exact h. reflexivity. Qed.
Lemma sgn_sgp s : sgn (- s) = (- sgp s)%Z.
Proof. destruct (Qclt_le_dec 0 s) as [h|h]; [rewrite sgp_pos, sgn_neg by ql|rewrite sgp_npos, sgn_nneg by ql]; reflexivity. Qed.
Lemma passes_anti q a b : passes q b a = (- passes q a b)%Z.
Proof.
  destruct (Qclt_le_dec (px q) (px a)) as [A|A]; destruct (Qclt_le_dec (px q) (px b)) as [B|B].
  - rewrite !passes_rr by assumption. reflexivity.
  - rewrite passes_lr, passes_rl, (cross_flip a b q), sgn_sgp by assumption. reflexivity.
  - rewrite passes_rl, passes_lr, (cross_flip b a q), sgn_sgp by assumption. lia.
  - rewrite !passes_ll by assumption. reflexivity.
Qed.

(** A triangle that does not contain [q]. *)
Lemma far_side q a b c : 0 < cross a b c -> cross a b q < 0 -> (passes q a b + passes q b c + passes q c a = 0)%Z.
Proof.
  intros D g. pose proof (cross_sum a b c q) as Sm.
  assert (Cy : (px a - px q) * cross b c q + (px b - px q) * cross c a q + (px c - px q) * cross a b q = 0) by (unfold cross; ring).
  set (al := cross b c q) in *. set (be := cross c a q) in *. set (ga := cross a b q) in *.
  set (A := px a - px q) in *. set (B := px b - px q) in *. set (C := px c - px q) in *.
  destruct (Qclt_le_dec (px q) (px a)) as [hA|hA]; destruct (Qclt_le_dec (px q) (px b)) as [hB|hB]; destruct (Qclt_le_dec (px q) (px c)) as [hC|hC].
  - rewrite !passes_rr by assumption. reflexivity.
  - (* c left *) rewrite (passes_rr q a b), (passes_rl q b c), (passes_lr q c a) by assumption. fold al be ga.
    assert (hC' : 0 <= C * ga) by (replace (C * ga) with ((- C) * (- ga)) by ring; apply mul_nonneg; unfold C; ql).
    assert (pA : 0 < A) by (unfold A; ql). assert (pB : 0 < B) by (unfold B; ql).
    destruct (Qclt_le_dec 0 al) as [h1|h1].
    + destruct (Qclt_le_dec be 0) as [h2|h2]; [rewrite sgp_pos, sgn_neg by assumption; reflexivity|exfalso].
      pose proof (mul_pos _ _ pA h1). pose proof (mul_nonneg B be ltac:(ql) h2). ql.
    + destruct (Qclt_le_dec be 0) as [h2|h2]; [exfalso; ql|]. rewrite sgp_npos, sgn_nneg by assumption. reflexivity.
  - (* b left *) rewrite (passes_rl q a b), (passes_lr q b c), (passes_rr q c a) by assumption. fold al be ga.
    rewrite (sgp_npos ga) by ql. destruct (Qclt_le_dec al 0) as [h1|h1]; [exfalso|rewrite sgn_nneg by assumption; reflexivity].
    assert (pA : 0 < A) by (unfold A; ql). assert (pC : 0 < C) by (unfold C; ql).
    pose proof (mul_neg _ _ pA h1). pose proof (mul_neg _ _ pC g). assert (nB : 0 <= (- B) * be) by (apply mul_nonneg; [unfold B|]; ql).
    replace ((- B) * be) with (- (B * be)) in nB by ring. ql.
  - (* b, c left *) rewrite (passes_rl q a b), (passes_ll q b c), (passes_lr q c a) by assumption. fold al be ga.
    rewrite (sgp_npos ga) by ql. destruct (Qclt_le_dec be 0) as [h1|h1]; [exfalso|rewrite sgn_nneg by assumption; reflexivity].
    assert (pA : 0 < A) by (unfold A; ql). assert (nC : 0 <= (- C) * (- ga)) by (apply mul_nonneg; [unfold C|]; ql).
    assert (nB : 0 <= (- B) * (- be)) by (apply mul_nonneg; [unfold B|]; ql). pose proof (mul_pos A al pA ltac:(ql)).
    replace ((- C) * (- ga)) with (C * ga) in nC by ring. replace ((- B) * (- be)) with (B * be) in nB by ring. ql.
  - (* a left *) rewrite (passes_lr q a b), (passes_rr q b c), (passes_rl q c a) by assumption. fold al be ga.
    rewrite (sgn_neg ga) by ql. destruct (Qclt_le_dec 0 be) as [h1|h1]; [rewrite sgp_pos by assumption; reflexivity|exfalso].
    assert (pC : 0 < C) by (unfold C; ql). pose proof (mul_neg _ _ pC g).
    assert (nB : 0 <= B * (- be)) by (apply mul_nonneg; [unfold B|]; ql). replace (B * (- be)) with (- (B * be)) in nB by ring.
    assert (nA : 0 <= (- A) * al) by (apply mul_nonneg; [unfold A|]; ql). replace ((- A) * al) with (- (A * al)) in nA by ring. ql.
  - (* a, c left *) rewrite (passes_lr q a b), (passes_rl q b c), (passes_ll q c a) by assumption. fold al be ga.
    rewrite (sgn_neg ga) by ql. destruct (Qclt_le_dec 0 al) as [h1|h1]; [rewrite sgp_pos by assumption; reflexivity|exfalso].
    assert (nC : 0 <= (- C) * (- ga)) by (apply mul_nonneg; [unfold C|]; ql). replace ((- C) * (- ga)) with (C * ga) in nC by ring.
    assert (pB : 0 < B) by (unfold B; ql). pose proof (mul_pos B be pB ltac:(ql)).
    assert (nA : 0 <= (- A) * (- al)) by (apply mul_nonneg; [unfold A|]; ql). replace ((- A) * (- al)) with (A * al) in nA by ring. ql.
  - (* a, b left *) rewrite (passes_ll q a b), (passes_lr q b c), (passes_rl q c a) by assumption. fold al be ga.
    assert (pC : 0 < C) by (unfold C; ql). pose proof (mul_neg _ _ pC g).
    destruct (Qclt_le_dec al 0) as [h1|h1].
    + destruct (Qclt_le_dec 0 be) as [h2|h2]; [rewrite sgn_neg, sgp_pos by assumption; reflexivity|exfalso; ql].
    + destruct (Qclt_le_dec 0 be) as [h2|h2]; [exfalso|rewrite sgn_nneg, sgp_npos by assumption; reflexivity].
      assert (nA : 0 <= (- A) * al) by (apply mul_nonneg; [unfold A|]; ql). replace ((- A) * al) with (- (A * al)) in nA by ring.
      assert (nB : 0 <= (- B) * be) by (apply mul_nonneg; [unfold B|]; ql). replace ((- B) * be) with (- (B * be)) in nB by ring. ql.
  - rewrite !passes_ll by assumption. reflexivity.
Qed.
Lemma vacant_passes S q a b c : vacant S a b c -> In q S -> q <> a -> q <> b -> q <> c -> (passes q a b + passes q b c + passes q c a = 0)%Z.
Proof.
  intros (D & E) Hq na nb nc. specialize (E q Hq).
  destruct (Qclt_le_dec (cross a b q) 0) as [h|h1]; [apply far_side; assumption|].
  destruct (Qclt_le_dec (cross b c q) 0) as [h|h2].
  { pose proof (far_side q b c a ltac:(rewrite (cross_rot a b c); exact D) h). lia. }
  destruct (Qclt_le_dec (cross c a q) 0) as [h|h3].
  { pose proof (far_side q c a b ltac:(rewrite (cross_rot b c a), (cross_rot a b c); exact D) h). lia. }
  destruct (E h1 h2 h3) as [e|[e|e]]; contradiction.
Qed.
(** A straight angle. *)
Lemma btw_passes q a b c : btw b a c -> passes q a c = (passes q a b + passes q b c)%Z.
Proof.
  intros B. destruct (btw_param _ _ _ B) as (t & t0 & t1 & X & Y).
  assert (c1 : cross a b q = t * cross a c q) by (unfold cross; rewrite X, Y; ring).
  assert (c2 : cross b c q = (1 - t) * cross a c q) by (unfold cross; rewrite X, Y; ring).
  set (s := cross a c q) in *. set (r := 1 - t) in *. assert (r0 : 0 < r) by (unfold r; ql).
  assert (e : px b - px q = r * (px a - px q) + t * (px c - px q)) by (rewrite X; unfold r; ring).
  assert (P : forall k, 0 < k -> sgp (k * s) = sgp s).
  { intros k hk. destruct (Qclt_le_dec 0 s) as [h|h].
    - rewrite !sgp_pos; auto. apply mul_pos; assumption.
    - rewrite !sgp_npos; auto. apply mul_nonpos; ql. }
  assert (N : forall k, 0 < k -> sgn (k * s) = sgn s).
  { intros k hk. destruct (Qclt_le_dec s 0) as [h|h].
    - rewrite !sgn_neg; auto. apply mul_neg; assumption.
    - rewrite !sgn_nneg; auto. apply mul_nonneg; ql. }
  destruct (Qclt_le_dec (px q) (px a)) as [hA|hA]; destruct (Qclt_le_dec (px q) (px c)) as [hC|hC].
  - assert (hB : px q < px b).
    { pose proof (mul_pos r (px a - px q) r0 ltac:(ql)). pose proof (mul_pos t (px c - px q) t0 ltac:(ql)). ql. }
    rewrite !passes_rr by assumption. reflexivity.
  - rewrite (passes_rl q a c) by assumption. fold s. destruct (Qclt_le_dec (px q) (px b)) as [hB|hB].
    + rewrite (passes_rr q a b), (passes_rl q b c), c2, P by assumption. reflexivity.
    + rewrite (passes_rl q a b), (passes_ll q b c), c1, P by assumption. lia.
  - rewrite (passes_lr q a c) by assumption. fold s. destruct (Qclt_le_dec (px q) (px b)) as [hB|hB].
    + rewrite (passes_lr q a b), (passes_rr q b c), c1, N by assumption. lia.
    + rewrite (passes_ll q a b), (passes_lr q b c), c2, N by assumption. reflexivity.
  - assert (hB : px b <= px q).
    { pose proof (mul_nonpos r (px a - px q) ltac:(ql) ltac:(ql)). pose proof (mul_nonpos t (px c - px q) ltac:(ql) ltac:(ql)). ql. }
    rewrite !passes_ll by assumption. reflexivity.
Qed.

(** ** Sums over the edges. *)
Definition zsum (l : list Z) : Z := fold_right Z.add 0%Z l.
Lemma zsum_perm l l' : Permutation l l' -> zsum l = zsum l'.
Proof. unfold zsum. induction 1; cbn [fold_right] in *; try lia. Qed.
Definition wsum (q : point) (es : list (point * point)) : Z := zsum (List.map (fun e => passes q (fst e) (snd e)) es).
Lemma wsum_perm q es es' : Permutation es es' -> wsum q es = wsum q es'.
Proof. intros H. apply zsum_perm, Permutation_map, H. Qed.
Lemma wsum_cons q a b es : wsum q ((a, b) :: es) = (passes q a b + wsum q es)%Z.
Proof. reflexivity. Qed.
Lemma segments_ces (vs : contour) : Permutation (contour_segments vs) (List.map (fun e => Seg (fst e) (snd e)) (ces vs)).
Proof.
  unfold contour_segments, zip_with_prev. destruct vs as [|x vs]; [reflexivity|]. apply Permutation_map.
  destruct (exists_last (l := x :: vs) ltac:(discriminate)) as (l & z & E).
  assert (La : last (x :: vs) x = z) by (rewrite E; apply last_last). rewrite La. rewrite E.
  assert (K : combine (z :: l ++ [z]) (l ++ [z]) = ces (z :: l)).
  { cbn [ces]. change (z :: l ++ [z]) with ((z :: l) ++ [z]).
    assert (G : forall (u w : list point) r, (length w <= length u)%nat -> combine (u ++ r) w = combine u w).
    { induction u as [|p u IH]; intros [|q' w] r H; try reflexivity; cbn in *; try lia; [destruct r; reflexivity|]. f_equal. apply IH. lia. }
    apply G. rewrite app_length. cbn. lia. }
  rewrite K. apply ces_rot1.
Qed.
Lemma winding_wsum q vs : winding q vs = wsum q (ces vs).
Proof.
  reflexivity.
Qed.
Lemma contour_segment_edge vs s : In s (contour_segments vs) <-> contour_edge vs (seg_start s) (seg_end s).
Proof.
  rewrite <- ces_edge. split; intros H.
  - eapply Permutation_in in H; [|apply segments_ces]. apply in_map_iff in H. destruct H as ((a & b) & <- & H). exact H.
  - eapply Permutation_in; [symmetry; apply segments_ces|]. apply in_map_iff. exists (seg_start s, seg_end s). split; [destruct s; reflexivity|exact H].
Qed.
