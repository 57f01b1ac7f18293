(** The end of the merge: the result is a Delaunay triangulation. *)
From Coq Require Import List Lia.
From Verif Require Import Base Geometry Spec QcTac QcFast GeomProofs DelGeo DelCyc DelMap DelFan DelOps DelMir DelCand DelMerge.
Import ListNotations.
Open Scope Qc_scope.

(** ** Only the members of the list matter *)
Section X.
Context (S S' : list point) (H : forall q, In q S <-> In q S').
Lemma empty_ext a b c : empty S a b c -> empty S' a b c.
Proof. intros (P & Q). split; [exact P|]. intros q Hq. apply Q, H, Hq. Qed.
Lemma sndel_ext a b : sndel S a b -> sndel S' a b.
Proof. intros (c & q & Hc & Hq & h). exists c, q. split; [apply H, Hc|]. split; [apply H, Hq|exact h]. Qed.
Lemma laws_ext m : laws S m -> laws S' m.
Proof.
  intros [W1 W2 W3 W4 W5 W6 W7 W8]. split; auto.
  - intros v a h. apply H. eauto.
  - intros v a q h Hq. apply (W7 v a q h), H, Hq.
Qed.
End X.

(** ** Uniqueness of the common tangents *)
Section T.
Context (ep tau : Qc).
Notation ph := (phi ep).
Lemma tangents_collinear (s : Qc) l r l' r' : ph l < tau -> tau < ph r -> ph l' < tau -> tau < ph r' ->
  0 <= s * cross l r l' -> 0 <= s * cross l r r' -> 0 <= s * cross l' r' l -> 0 <= s * cross l' r' r -> s <> 0 ->
  cross l r l' = 0 /\ cross l r r' = 0.
Proof.
  intros a1 a2 a3 a4 b1 b2 b3 b4 Ns.
  destruct (xpt_on ep tau l r a1 a2) as (t & t0 & t1 & tx & ty).
  destruct (xpt_on ep tau l' r' a3 a4) as (t' & t0' & t1' & tx' & ty').
  pose proof (cross_param l r l' r' _ t' tx' ty') as K. rewrite cross_xpt in K by ql.
  pose proof (cross_param l' r' l r _ t tx ty) as K'. rewrite cross_xpt in K' by ql.
  set (h := hgt ep tau l r) in *. set (h' := hgt ep tau l' r') in *.
  pose proof (mul_nonneg (1 - t') _ ltac:(ql) b1) as M1. pose proof (mul_nonneg t' _ ltac:(ql) b2) as M2.
  pose proof (mul_nonneg (1 - t) _ ltac:(ql) b3) as M3. pose proof (mul_nonneg t _ ltac:(ql) b4) as M4.
  assert (N1 : (ph r - ph l) * (s * (h' - h)) = (1 - t') * (s * cross l r l') + t' * (s * cross l r r')).
  { transitivity (s * ((ph r - ph l) * (h' - h))); [ring|rewrite K; ring]. }
  assert (N2 : (ph r' - ph l') * (s * (h - h')) = (1 - t) * (s * cross l' r' l) + t * (s * cross l' r' r)).
  { transitivity (s * ((ph r' - ph l') * (h - h'))); [ring|rewrite K'; ring]. }
  assert (O1 : 0 <= s * (h' - h)) by (apply (nonneg_of_mul (ph r - ph l)); [ql|rewrite N1; ql]).
  assert (O2 : 0 <= s * (h - h')) by (apply (nonneg_of_mul (ph r' - ph l')); [ql|rewrite N2; ql]).
  assert (O3 : s * (h' - h) = 0) by (replace (s * (h - h')) with (- (s * (h' - h))) in O2 by ring; ql).
  rewrite O3 in N1. replace ((ph r - ph l) * 0) with 0 in N1 by ring.
  assert (Z1 : (1 - t') * (s * cross l r l') = 0) by ql. assert (Z2 : t' * (s * cross l r r') = 0) by ql.
  apply zero_of_mul in Z1; [|ql]. apply zero_of_mul in Z2; [|ql].
  apply mul_zero in Z1, Z2. split; [destruct Z1|destruct Z2]; tauto.
Qed.
Lemma beyond_left l r l' : ph l < tau -> tau < ph r -> ph l' < tau -> cross l r l' = 0 -> ~ btw l' l r ->
  ph l' <= ph l /\ (ph l' = ph l -> l' = l).
Proof.
  intros a1 a2 a3 C B. assert (N : l <> r) by (intros ->; ql).
  destruct (line_param l r l' N C) as (t & tx & ty).
  assert (K : ph l' = ph l + t * (ph r - ph l)) by (unfold phi; rewrite tx, ty; ring).
  assert (t <= 0).
  { destruct (Qclt_le_dec 0 t) as [h|h]; [exfalso|exact h]. apply B, (param_btw l r l' t); auto.
    destruct (Qclt_le_dec t 1) as [g|g]; [exact g|exfalso]. pose proof (mul_nonneg (t - 1) (ph r - ph l) ltac:(ql) ltac:(ql)) as M.
    replace ((t - 1) * (ph r - ph l)) with (t * (ph r - ph l) - (ph r - ph l)) in M by ring. ql. }
  pose proof (mul_nonneg (- t) (ph r - ph l) ltac:(ql) ltac:(ql)) as M.
  replace (- t * (ph r - ph l)) with (- (t * (ph r - ph l))) in M by ring.
  split; [ql|]. intros e. assert (Z : (ph r - ph l) * t = 0) by (rewrite Qcmult_comm; ql). apply zero_of_mul in Z; [|ql].
  rewrite Z in tx, ty. destruct l' as [x y], l as [x' y']; cbn [px py] in *. f_equal; [rewrite tx|rewrite ty]; ring.
Qed.
Lemma beyond_right l r r' : ph l < tau -> tau < ph r -> tau < ph r' -> cross l r r' = 0 -> ~ btw r' l r ->
  ph r <= ph r' /\ (ph r' = ph r -> r' = r).
Proof.
  intros a1 a2 a3 C B. assert (N : l <> r) by (intros ->; ql).
  destruct (line_param l r r' N C) as (t & tx & ty).
  assert (K : ph r' = ph l + t * (ph r - ph l)) by (unfold phi; rewrite tx, ty; ring).
  assert (1 <= t).
  { destruct (Qclt_le_dec t 1) as [h|h]; [exfalso|exact h]. apply B, (param_btw l r r' t); auto.
    destruct (Qclt_le_dec 0 t) as [g|g]; [exact g|exfalso]. pose proof (mul_nonneg (- t) (ph r - ph l) ltac:(ql) ltac:(ql)) as M.
    replace (- t * (ph r - ph l)) with (- (t * (ph r - ph l))) in M by ring. ql. }
  pose proof (mul_nonneg (t - 1) (ph r - ph l) ltac:(ql) ltac:(ql)) as M.
  assert (K2 : (t - 1) * (ph r - ph l) = ph r' - ph r) by (rewrite K; ring).
  split; [ql|]. intros e. assert (Z : (ph r - ph l) * (t - 1) = 0) by (rewrite Qcmult_comm; ql). apply zero_of_mul in Z; [|ql].
  assert (Z' : t = 1) by ql.
  rewrite Z' in tx, ty. destruct r' as [x y], r as [x' y']; cbn [px py] in *. f_equal; [rewrite tx|rewrite ty]; ring.
Qed.
Lemma tangent_unique (s : Qc) l r l' r' : ph l < tau -> tau < ph r -> ph l' < tau -> tau < ph r' ->
  0 <= s * cross l r l' -> 0 <= s * cross l r r' -> 0 <= s * cross l' r' l -> 0 <= s * cross l' r' r -> s <> 0 ->
  ~ btw l' l r -> ~ btw r' l r -> ~ btw l l' r' -> ~ btw r l' r' -> l' = l /\ r' = r.
Proof.
  intros a1 a2 a3 a4 b1 b2 b3 b4 Ns c1 c2 c3 c4.
  destruct (tangents_collinear s l r l' r') as (z1 & z2); auto.
  destruct (tangents_collinear s l' r' l r) as (z3 & z4); auto.
  destruct (beyond_left l r l') as (d1 & d2); auto. destruct (beyond_left l' r' l) as (d3 & _); auto.
  destruct (beyond_right l r r') as (d5 & d6); auto. destruct (beyond_right l' r' r) as (d7 & _); auto.
  split; [apply d2; ql|apply d6; ql].
Qed.
End T.

(** ** Walking along the band *)
Lemma chain_bottom S L R E bs : chain S L R E bs -> exists l r, In (l, r) bs /\ (forall q, In q S -> 0 <= cross l r q).
Proof.
  induction 1.
  - exists l, r. split; [left; reflexivity|assumption].
  - destruct IHchain as (x & y & h & h'). exists x, y. split; [right; exact h|exact h'].
  - destruct IHchain as (x & y & h & h'). exists x, y. split; [right; exact h|exact h'].
Qed.
Lemma chain_up S L R E bs x y : chain S L R E bs -> In (x, y) (tl bs) -> exists c, empty S x y c /\ E x c /\ (E c y \/ E y c).
Proof.
  intros H. revert x y. induction H; intros x y Hi; cbn [tl] in *.
  - destruct Hi.
  - destruct Hi as [e|Hi]; [inversion e; subst; exists c; auto|]. apply IHchain. exact Hi.
  - destruct Hi as [e|Hi]; [inversion e; subst; exists c; auto|]. apply IHchain. exact Hi.
Qed.
Lemma chain_down S L R (E : point -> point -> Prop) bs x y : (forall v a, E v a -> E a v) -> chain S L R E bs -> In (x, y) bs ->
  (forall q, In q S -> 0 <= cross x y q) \/ exists c, empty S y x c /\ E y c /\ E x c.
Proof.
  intros Sy H. revert x y. induction H; intros x y Hi.
  - destruct Hi as [e|[]]. inversion e; subst. auto.
  - destruct Hi as [e|Hi]; [|apply IHchain; exact Hi]. inversion e; subst. right. exists l.
    destruct (chain_in _ _ _ _ _ l y H) as (_ & _ & h & _); [left; reflexivity|].
    split; [apply empty_rot; assumption|]. auto.
  - destruct Hi as [e|Hi]; [|apply IHchain; exact Hi]. inversion e; subst. right. exists r.
    destruct (chain_in _ _ _ _ _ x r H) as (_ & _ & h & _); [left; reflexivity|].
    split; [apply empty_rot, empty_rot; assumption|]. auto.
Qed.
(** The triangle of the band at a given height. *)
Lemma chain_level S L R (E : point -> point -> Prop) ep tau h l0 r0 t0 :
  (forall v a, E v a -> E a v) ->
  chain S L R E ((l0, r0) :: t0) -> h <= hgt ep tau l0 r0 ->
  (forall x y, In (x, y) ((l0, r0) :: t0) -> (forall q, In q S -> 0 <= cross x y q) -> hgt ep tau x y <= h) ->
  (forall q, In q S -> 0 <= cross l0 r0 q) \/
  exists l r c, empty S l r c /\ E l r /\ E r c /\ E l c /\ In l L /\ In r R /\ In (l, r) ((l0, r0) :: t0) /\ hgt ep tau l r <= h /\
    ((In c L /\ In (c, r) ((l0, r0) :: t0) /\ h <= hgt ep tau c r) \/ (In c R /\ In (l, c) ((l0, r0) :: t0) /\ h <= hgt ep tau l c)).
Proof.
  intros Sy H. remember ((l0, r0) :: t0) as bs eqn:e. revert l0 r0 t0 e.
  induction H; intros l0 r0 t0 e Hh Hb; inversion e; subst.
  - left. assumption.
  - destruct (chain_in _ _ _ _ _ l r0 H) as (i1 & i2 & i3 & _); [left; reflexivity|].
    destruct (Qclt_le_dec h (hgt ep tau l r0)) as [g|g].
    + destruct (IHchain l r0 t eq_refl) as [K|K]; [ql|intros x y Hi; apply Hb; right; exact Hi| |].
      * exfalso. specialize (Hb l r0 ltac:(right; left; reflexivity) K). ql.
      * right. destruct K as (l' & r' & c' & k1 & k2 & k3 & k4 & k5 & k6 & k7 & k8 & k9). exists l', r', c'.
        repeat (split; [assumption|]). split; [right; assumption|]. split; [assumption|].
        destruct k9 as [(k & k' & k'')|(k & k' & k'')]; [left|right]; (split; [assumption|split; [right; assumption|assumption]]).
    + right. exists l, r0, l0. repeat (split; [solve [auto]|]). split; [right; left; reflexivity|]. split; [exact g|].
      left. split; [assumption|]. split; [left; reflexivity|assumption].
  - destruct (chain_in _ _ _ _ _ l0 r H) as (i1 & i2 & i3 & _); [left; reflexivity|].
    destruct (Qclt_le_dec h (hgt ep tau l0 r)) as [g|g].
    + destruct (IHchain l0 r t eq_refl) as [K|K]; [ql|intros x y Hi; apply Hb; right; exact Hi| |].
      * exfalso. specialize (Hb l0 r ltac:(right; left; reflexivity) K). ql.
      * right. destruct K as (l' & r' & c' & k1 & k2 & k3 & k4 & k5 & k6 & k7 & k8 & k9). exists l', r', c'.
        repeat (split; [assumption|]). split; [right; assumption|]. split; [assumption|].
        destruct k9 as [(k & k' & k'')|(k & k' & k'')]; [left|right]; (split; [assumption|split; [right; assumption|assumption]]).
    + right. exists l0, r, r0. repeat (split; [solve [auto]|]). split; [right; left; reflexivity|]. split; [exact g|].
      right. split; [assumption|]. split; [left; reflexivity|assumption].
Qed.
