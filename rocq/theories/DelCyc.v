(** Cyclic order of directions around a point. *)
From Verif Require Import Base Geometry Spec QcTac QcFast GeomProofs DelGeo.
From Coq Require Import Lqa Field.
Open Scope Qc_scope.

(** Turning counterclockwise around [v] from [a], [x] is met strictly before [b]. *)
Definition cyc (v a x b : point) : Prop :=
  (0 < cross v a x /\ 0 < cross v x b) \/ (0 < cross v x b /\ 0 < cross v b a)
  \/ (0 < cross v b a /\ 0 < cross v a x).
Definition samedir (v a b : point) : Prop := cross v a b = 0 /\ 0 < dot v a b.

Notation q2 := (Q2Qc 2).
Notation q3 := (Q2Qc 3).
Notation q4 := (Q2Qc 4).
Definition qabs (x : Qc) : Qc := if qltb x 0 then - x else x.
(** An angle of the direction from [v] to [a], between 0 and 4. *)
Definition th (v a : point) : Qc :=
  let dx := px a - px v in let dy := py a - py v in
  let p := dx / (qabs dx + qabs dy) in
  if qltb dy 0 then q3 + p else 1 - p.

Lemma qltb_lt (x y : Qc) : qltb x y = true <-> x < y.
Proof. unfold qltb. rewrite Qclt_alt. destruct (x ?= y); split; congruence || auto. Qed.
Lemma qltb_ge (x y : Qc) : qltb x y = false <-> y <= x.
Proof.
  split; intros H.
  - destruct (Qclt_le_dec x y) as [h|h]; [|exact h]. apply qltb_lt in h. congruence.
  - destruct (qltb x y) eqn:E; [|reflexivity]. apply qltb_lt in E. ql.
Qed.
Lemma qabs_cases x : (0 <= x /\ qabs x = x) \/ (x < 0 /\ qabs x = - x).
Proof.
  unfold qabs. destruct (qltb x 0) eqn:E; [apply qltb_lt in E|apply qltb_ge in E]; auto.
Qed.
Lemma th_spec v a : a <> v -> exists d p q, 0 < d /\ px a - px v = d * p /\ py a - py v = d * q /\
  ((0 <= q /\ ((0 <= p /\ q = 1 - p) \/ (p < 0 /\ q = 1 + p)) /\ th v a = 1 - p)
   \/ (q < 0 /\ ((0 <= p /\ q = p - 1) \/ (p < 0 /\ q = - (1) - p)) /\ th v a = q3 + p)).
Proof.
  intros Hn. unfold th. set (dx := px a - px v). set (dy := py a - py v). set (d := qabs dx + qabs dy).
  assert (Hd : 0 < d).
  { unfold d. destruct (qabs_cases dx) as [(h1 & ->)|(h1 & ->)], (qabs_cases dy) as [(h2 & ->)|(h2 & ->)]; try ql.
    destruct (Qcle_lt_or_eq _ _ h1) as [g1|g1]; [ql|]. destruct (Qcle_lt_or_eq _ _ h2) as [g2|g2]; [ql|].
    exfalso. apply Hn. destruct a as [ax ay], v as [vx vy]. subst dx dy; cbn [px py] in *. f_equal; ql. }
  assert (Nd : d <> 0) by (intros E; rewrite E in Hd; ql).
  exists d, (dx / d), (dy / d). split; [exact Hd|].
  assert (E1 : dx = d * (dx / d)) by (field; exact Nd).
  assert (E2 : dy = d * (dy / d)) by (field; exact Nd).
  split; [exact E1|]. split; [exact E2|].
  assert (Es : qabs dx / d + qabs dy / d = 1) by (unfold d in *; field; exact Nd).
  assert (S1 : 0 <= dx -> 0 <= dx / d) by (intros; apply (nonneg_of_mul d); [exact Hd|rewrite <- E1; assumption]).
  assert (S2 : dx < 0 -> dx / d < 0) by (intros; apply (neg_of_mul d); [exact Hd|rewrite <- E1; assumption]).
  assert (S3 : 0 <= dy -> 0 <= dy / d) by (intros; apply (nonneg_of_mul d); [exact Hd|rewrite <- E2; assumption]).
  assert (S4 : dy < 0 -> dy / d < 0) by (intros; apply (neg_of_mul d); [exact Hd|rewrite <- E2; assumption]).
  assert (N1 : forall x : Qc, (- x) / d = - (x / d)) by (intros; field; exact Nd).
  destruct (qltb dy 0) eqn:E; [apply qltb_lt in E|apply qltb_ge in E].
  - right. split; [apply S4, E|]. split; [|reflexivity].
    destruct (qabs_cases dx) as [(h1 & e1)|(h1 & e1)], (qabs_cases dy) as [(h2 & e2)|(h2 & e2)]; rewrite e1, e2 in Es;
      rewrite ?N1 in Es.
    + exfalso; clear - E h2; ql.
    + left. split; [auto|]. clear - Es. ql.
    + exfalso; clear - E h2; ql.
    + right. split; [auto|]. clear - Es. ql.
  - left. split; [apply S3, E|]. split; [|reflexivity].
    destruct (qabs_cases dx) as [(h1 & e1)|(h1 & e1)], (qabs_cases dy) as [(h2 & e2)|(h2 & e2)]; rewrite e1, e2 in Es;
      rewrite ?N1 in Es.
    + left. split; [auto|]. clear - Es. ql.
    + exfalso; clear - E h2; ql.
    + right. split; [auto|]. clear - Es. ql.
    + exfalso; clear - E h2; ql.
Qed.
Lemma th_range v a : a <> v -> 0 <= th v a /\ th v a < q4.
Proof.
  intros H. destruct (th_spec v a H) as (d & p & q & _ & _ & _ & C). clear H.
  destruct C as [(h & [(h1 & h2)|(h1 & h2)] & ->)|(h & [(h1 & h2)|(h1 & h2)] & ->)]; split; ql.
Qed.
Lemma tricho (x y : Qc) : x < y \/ x = y \/ y < x.
Proof. destruct (Q_dec x y) as [[l|l]|l]; [auto|auto|right; left; apply Qc_is_canon, l]. Qed.
Lemma unit_pos1 (p : Qc) : 0 < p * p + (1 - p) * (1 - p).
Proof. qc_unfold. qc_push. nra. Qed.
Lemma unit_pos2 (p : Qc) : 0 < p * p + (1 + p) * (1 + p).
Proof. qc_unfold. qc_push. nra. Qed.
Lemma mixed_pos (p s : Qc) : 0 <= p -> p <= 1 -> 0 <= s -> s <= 1 -> 0 < p + s -> p + s < q2 ->
  0 < p * (1 - s) + s * (1 - p).
Proof.
  intros. destruct (Qclt_le_dec 0 p) as [h|h]; [destruct (Qclt_le_dec s 1) as [g|g]|].
  - assert (0 < p * (1 - s)) by (apply mul_pos; [exact h|ql]). assert (0 <= s * (1 - p)) by (apply mul_nonneg; ql). ql.
  - assert (0 <= p * (1 - s)) by (apply mul_nonneg; ql). assert (0 < s * (1 - p)) by (apply mul_pos; ql). ql.
  - assert (0 <= p * (1 - s)) by (apply mul_nonneg; ql). assert (0 < s * (1 - p)) by (apply mul_pos; ql). ql.
Qed.
Ltac mixed_with p s :=
  let M := fresh in assert (M : 0 < p * (1 - s) + s * (1 - p)) by (apply mixed_pos; ql); qcl.
Ltac mixed p p' := first [mixed_with p p'|mixed_with p (- p')|mixed_with (- p) p'|mixed_with (- p) (- p')].
(** The sign of the cross product from the difference of the angles. *)
Lemma th_cases v a b : a <> v -> b <> v ->
  ((th v a < th v b /\ th v b < th v a + q2) \/ th v b < th v a - q2) /\ 0 < cross v a b
  \/ ((th v b < th v a /\ th v a < th v b + q2) \/ th v a < th v b - q2) /\ cross v a b < 0
  \/ th v a = th v b /\ cross v a b = 0 /\ 0 < dot v a b
  \/ (th v b = th v a + q2 \/ th v a = th v b + q2) /\ cross v a b = 0 /\ dot v a b < 0.
Proof.
  intros Ha Hb. destruct (th_spec v a Ha) as (d & p & q & Hd & Ex & Ey & C).
  destruct (th_spec v b Hb) as (d' & p' & q' & Hd' & Ex' & Ey' & C').
  assert (Ec : cross v a b = d * d' * (p * q' - q * p')) by (unfold cross; rewrite Ex, Ey, Ex', Ey'; ring).
  assert (Ed : dot v a b = d * d' * (p * p' + q * q')) by (unfold dot; rewrite Ex, Ey, Ex', Ey'; ring).
  pose proof (mul_pos _ _ Hd Hd') as HD. set (D := d * d') in *.
  assert (Cp : 0 < p * q' - q * p' -> 0 < cross v a b) by (rewrite Ec; apply mul_pos, HD).
  assert (Cn : p * q' - q * p' < 0 -> cross v a b < 0) by (rewrite Ec; apply mul_neg, HD).
  assert (Cz : p * q' - q * p' = 0 -> cross v a b = 0) by (intros E; rewrite Ec, E; ring).
  assert (Dp : 0 < p * p' + q * q' -> 0 < dot v a b) by (rewrite Ed; apply mul_pos, HD).
  assert (Dn : p * p' + q * q' < 0 -> dot v a b < 0) by (rewrite Ed; apply mul_neg, HD).
  clear Ec Ed Ex Ey Ex' Ey' Hd Hd' HD D Ha Hb.
  revert Cp Cn Cz Dp Dn. generalize (cross v a b), (dot v a b). intros c e Cp Cn Cz Dp Dn.
  destruct C as [(h & C & ->)|(h & C & ->)], C' as [(h' & C' & ->)|(h' & C' & ->)];
  destruct C as [(g & ->)|(g & ->)], C' as [(g' & ->)|(g' & ->)];
  match goal with |- ((?t < ?t' /\ _) \/ _) /\ _ \/ _ =>
    destruct (tricho t t') as [c1|[c1|c1]]; destruct (tricho t' (t + q2)) as [c2|[c2|c2]];
    destruct (tricho t (t' + q2)) as [c3|[c3|c3]]
  end; try (exfalso; clear - h h' g g' c1 c2 c3; ql);
  first
    [ left; split; [first [left; split; clear - h h' g g' c1 c2 c3; ql|right; clear - h h' g g' c1 c2 c3; ql]|];
      apply Cp; clear - h h' g g' c1 c2 c3; first [qn|mixed p p']
    | right; left; split; [first [left; split; clear - h h' g g' c1 c2 c3; ql|right; clear - h h' g g' c1 c2 c3; ql]|];
      apply Cn; clear - h h' g g' c1 c2 c3; first [qn|mixed p p']
    | right; right; left; split; [exact c1|]; assert (p' = p) by (clear - h h' g g' c1 c2 c3; ql); subst p';
      split; [apply Cz; ring|apply Dp; clear - h h' g g'; pose proof (unit_pos1 p); pose proof (unit_pos2 p); qcl]
    | right; right; right; split; [first [left; exact c2|right; exact c3]|];
      assert (p' = - p) by (clear - h h' g g' c1 c2 c3; ql); subst p';
      split; [apply Cz; ring|apply Dn; clear - h h' g g'; pose proof (unit_pos1 p); pose proof (unit_pos2 p); qcl]
    | right; right; right; split; [first [left; exact c2|right; exact c3]|];
      first [assert (e1 : p = 0) by (clear - h h' g g' c1 c2 c3; ql)|assert (e1 : p = 1) by (clear - h h' g g' c1 c2 c3; ql)|assert (e1 : p = - (1)) by (clear - h h' g g' c1 c2 c3; ql)];
      first [assert (e2 : p' = 0) by (clear - h h' g g' c1 c2 c3; ql)|assert (e2 : p' = 1) by (clear - h h' g g' c1 c2 c3; ql)|assert (e2 : p' = - (1)) by (clear - h h' g g' c1 c2 c3; ql)];
      subst p p'; split; [apply Cz; ring|apply Dn; vm_compute; reflexivity]
    | idtac ].
Qed.

(** The angle of the counterclockwise turn from [a] to [x] around [v]: above 0, at most 4 (a
    full turn, when the directions are the same). *)
Definition ad (v a x : point) : Qc :=
  if qltb (th v a) (th v x) then th v x - th v a else th v x - th v a + q4.
Lemma ad_range v a x : a <> v -> x <> v -> 0 < ad v a x /\ ad v a x <= q4.
Proof.
  intros Ha Hx. destruct (th_range v a Ha), (th_range v x Hx). unfold ad.
  destruct (qltb _ _) eqn:E; [apply qltb_lt in E|apply qltb_ge in E]; split; ql.
Qed.
Lemma ad_cases v a x : a <> v -> x <> v ->
  (0 < ad v a x /\ ad v a x < q2 /\ 0 < cross v a x) \/ (ad v a x = q2 /\ cross v a x = 0 /\ dot v a x < 0)
  \/ (q2 < ad v a x /\ ad v a x < q4 /\ cross v a x < 0) \/ (ad v a x = q4 /\ cross v a x = 0 /\ 0 < dot v a x).
Proof.
  intros Ha Hx. destruct (th_range v a Ha) as (r1 & r2), (th_range v x Hx) as (r3 & r4). unfold ad.
  destruct (qltb _ _) eqn:E; [apply qltb_lt in E|apply qltb_ge in E];
  destruct (th_cases v a x Ha Hx) as [([(t1 & t2)|t1] & c)|[([(t1 & t2)|t1] & c)|[(t1 & c & d)|([t1|t1] & c & d)]]];
  first [ exfalso; ql | left; repeat split; [ql|ql|exact c] | right; left; repeat split; [ql|exact c|exact d]
        | right; right; left; repeat split; [ql|ql|exact c] | right; right; right; repeat split; [ql|exact c|exact d] ].
Qed.
Lemma ad_self v a : ad v a a = q4.
Proof. unfold ad. destruct (qltb _ _) eqn:E; [apply qltb_lt in E; exfalso; ql|ql]. Qed.
Lemma ad_tri v a x b : a <> v -> x <> v -> b <> v ->
  ad v a x + ad v x b = ad v a b \/ ad v a x + ad v x b = ad v a b + q4.
Proof.
  intros Ha Hx Hb. destruct (th_range v a Ha), (th_range v x Hx), (th_range v b Hb). unfold ad.
  destruct (qltb (th v a) (th v x)) eqn:E1; [apply qltb_lt in E1|apply qltb_ge in E1];
  destruct (qltb (th v x) (th v b)) eqn:E2; [apply qltb_lt in E2|apply qltb_ge in E2|apply qltb_lt in E2|apply qltb_ge in E2];
  (destruct (qltb (th v a) (th v b)) eqn:E3; [apply qltb_lt in E3|apply qltb_ge in E3]);
  first [exfalso; ql|left; ql|right; ql].
Qed.
(** Consequences in the form they are used. *)
Lemma ad_pos v a x : a <> v -> x <> v -> 0 < cross v a x -> 0 < ad v a x /\ ad v a x < q2.
Proof. intros Ha Hx H. destruct (ad_cases v a x Ha Hx) as [(?&?&?)|[(?&e&?)|[(?&?&?)|(?&e&?)]]]; [split; ql|exfalso; ql..]. Qed.
Lemma ad_pos_iff v a x : a <> v -> x <> v -> ad v a x < q2 -> 0 < cross v a x.
Proof. intros Ha Hx H. destruct (ad_cases v a x Ha Hx) as [(?&?&?)|[(?&e&?)|[(?&?&?)|(?&e&?)]]]; [assumption|exfalso; ql..]. Qed.
Lemma ad_neg v a x : a <> v -> x <> v -> cross v a x < 0 -> q2 < ad v a x /\ ad v a x < q4.
Proof. intros Ha Hx H. destruct (ad_cases v a x Ha Hx) as [(?&?&?)|[(?&e&?)|[(?&?&?)|(?&e&?)]]]; [exfalso; ql|exfalso; ql|split; assumption|exfalso; ql]. Qed.
Lemma ad_ge2 v a x : a <> v -> x <> v -> q2 <= ad v a x -> cross v a x <= 0.
Proof. intros Ha Hx H. destruct (ad_cases v a x Ha Hx) as [(?&?&?)|[(?&e&?)|[(?&?&?)|(?&e&?)]]]; [exfalso|..]; ql. Qed.
Lemma ad_nonneg v a x : a <> v -> x <> v -> 0 <= cross v a x -> ad v a x <= q2 \/ ad v a x = q4.
Proof. intros Ha Hx H. destruct (ad_cases v a x Ha Hx) as [(?&?&?)|[(?&e&?)|[(?&?&?)|(?&e&?)]]]; [left; ql|left; ql|exfalso; ql|right; assumption]. Qed.
Lemma ad_nonpos v a x : a <> v -> x <> v -> cross v a x <= 0 -> q2 <= ad v a x.
Proof. intros Ha Hx H. destruct (ad_cases v a x Ha Hx) as [(?&?&?)|[(?&e&?)|[(?&?&?)|(?&e&?)]]]; [exfalso| | |]; ql. Qed.
Lemma ad_same v a x : a <> v -> x <> v -> ad v a x = q4 -> cross v a x = 0 /\ 0 < dot v a x.
Proof. intros Ha Hx H. destruct (ad_cases v a x Ha Hx) as [(?&?&?)|[(?&e&?)|[(?&?&?)|(?&e&?)]]]; [exfalso; ql|exfalso; ql|exfalso; ql|auto]. Qed.
Lemma ad_same_iff v a x : a <> v -> x <> v -> cross v a x = 0 -> 0 < dot v a x -> ad v a x = q4.
Proof. intros Ha Hx H H'. destruct (ad_cases v a x Ha Hx) as [(?&?&?)|[(?&e&?)|[(?&?&?)|(?&e&?)]]]; [exfalso; ql|exfalso; ql|exfalso; ql|auto]. Qed.
(** [p] is strictly between [a] and [b]. *)
Definition btw (p a b : point) : Prop := cross a b p = 0 /\ dot p a b < 0.
Lemma btw_sym p a b : btw p a b -> btw p b a.
Proof.
  intros (h1 & h2). split; [rewrite cross_flip, h1; ring|].
  replace (dot p b a) with (dot p a b) by (unfold dot; ring). exact h2.
Qed.
Lemma btw_neq p a b : btw p a b -> p <> a /\ p <> b /\ a <> b.
Proof.
  intros (_ & h). repeat split; intros ->; unfold dot in h.
  - replace ((px a - px a) * (px b - px a) + (py a - py a) * (py b - py a)) with 0 in h by ring. ql.
  - replace ((px a - px b) * (px b - px b) + (py a - py b) * (py b - py b)) with 0 in h by ring. ql.
  - pose proof (sq_nonneg (px b - px p)). pose proof (sq_nonneg (py b - py p)). ql.
Qed.
(** Two points in the same direction: one of them is on the way to the other. *)
Lemma same_btw v a x : a <> v -> x <> v -> ad v a x = q4 -> a = x \/ btw a v x \/ btw x v a.
Proof.
  intros Ha Hx H. destruct (ad_same v a x Ha Hx H) as (C & D).
  set (t := dot v a x) in *.
  assert (E1 : dot a v x = d2 v a - t) by (unfold t, dot, d2; ring).
  assert (E2 : dot x v a = d2 v x - t) by (unfold t, dot, d2; ring).
  destruct (Qclt_le_dec (d2 v a) t) as [h1|h1].
  { right; left. split; [rewrite cross_swap, C; ring|rewrite E1; ql]. }
  destruct (Qclt_le_dec (d2 v x) t) as [h2|h2].
  { right; right. split; [assumption|rewrite E2; ql]. }
  left. apply d2_zero.
  assert (E3 : d2 a x = d2 v a + d2 v x - t - t) by (unfold t, dot, d2; ring).
  assert (E4 : d2 v a * d2 v x = t * t).
  { transitivity (t * t + cross v a x * cross v a x); [unfold t, dot, d2, cross; ring|rewrite C; ring]. }
  assert (F1 : d2 v a = t).
  { destruct (Qcle_lt_or_eq _ _ h1) as [g|g]; [exfalso|auto].
    assert (0 < (d2 v a - t) * d2 v x) by (apply mul_pos; ql).
    assert (0 <= t * (d2 v x - t)) by (apply mul_nonneg; ql).
    assert (d2 v a * d2 v x = (d2 v a - t) * d2 v x + t * (d2 v x - t) + t * t) by ring. ql. }
  assert (F2 : d2 v x = t).
  { rewrite F1 in E4. assert (t * (d2 v x - t) = 0) by (transitivity (t * d2 v x - t * t); [ring|rewrite E4; ring]).
    apply (zero_of_mul t) in H0; [|assumption]. ql. }
  rewrite E3, F1, F2. ring.
Qed.
