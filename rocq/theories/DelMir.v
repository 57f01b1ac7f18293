(** The mirror image of a map. *)
From Coq Require Import List Lia.
From Verif Require Import Base Geometry Spec QcTac QcFast GeomProofs DelGeo DelCyc DelMap.
Import ListNotations.
Open Scope Qc_scope.

Definition mir (p : point) : point := Pt (- px p) (py p).
Definition mirm (m : map) : map := Map
  (fun v a => me m (mir v) (mir a))
  (fun v a => mir (mp m (mir v) (mir a)))
  (fun v a => mir (mn m (mir v) (mir a))).
Lemma mir_mir p : mir (mir p) = p.
Proof. destruct p as [x y]. unfold mir. cbn [px py]. f_equal. ring. Qed.
Lemma mir_inj p q : mir p = mir q -> p = q.
Proof. intros H. rewrite <- (mir_mir p), H. apply mir_mir. Qed.
Lemma mir_in p (l : list point) : In (mir p) (List.map mir l) <-> In p l.
Proof.
  rewrite in_map_iff. split; [intros (q & e & h)|intros h; eauto]. apply mir_inj in e. subst. exact h.
Qed.
Lemma in_mir p (l : list point) : In p (List.map mir l) <-> In (mir p) l.
Proof. rewrite <- (mir_mir p) at 1. apply mir_in. Qed.
Lemma cross_mir a b c : cross (mir a) (mir b) (mir c) = - cross a b c.
Proof. unfold cross, mir. cbn [px py]. ring. Qed.
Lemma inc_mir a b c d : inc (mir a) (mir b) (mir c) (mir d) = - inc a b c d.
Proof. unfold inc, incircle, mir. cbn [px py]. ring. Qed.
Lemma dot_mir a b c : dot (mir a) (mir b) (mir c) = dot a b c.
Proof. unfold dot, mir. cbn [px py]. ring. Qed.
Lemma btw_mir p a b : btw (mir p) (mir a) (mir b) <-> btw p a b.
Proof. unfold btw. rewrite cross_mir, dot_mir. split; intros (h1 & h2); (split; [ql|exact h2]). Qed.
Lemma cross_mir' a b c : cross a b c = - cross (mir a) (mir b) (mir c).
Proof. rewrite cross_mir. ring. Qed.
Lemma inc_mir' a b c d : inc a b c d = - inc (mir a) (mir b) (mir c) (mir d).
Proof. rewrite inc_mir. ring. Qed.
Lemma th_mir v a : a <> v ->
  th (mir v) (mir a) = q2 - th v a \/ th (mir v) (mir a) = q2 - th v a + q4.
Proof.
  intros H. unfold th, mir; cbn [px py].
  set (dx := px a - px v). replace (- px a - - px v) with (- dx) by (unfold dx; ring).
  set (dy := py a - py v).
  replace (qabs (- dx)) with (qabs dx).
  2:{ destruct (qabs_cases dx) as [(h & ->)|(h & ->)], (qabs_cases (- dx)) as [(h' & ->)|(h' & ->)]; ql. }
  replace (- dx / (qabs dx + qabs dy)) with (- (dx / (qabs dx + qabs dy))).
  2:{ unfold Qcdiv. ring. }
  destruct (qltb dy 0); [right|left]; ql.
Qed.
Lemma ad_mir v a x : a <> v -> x <> v -> ad (mir v) (mir a) (mir x) = ad v x a.
Proof.
  intros Ha Hx.
  assert (Ha' : mir a <> mir v) by (intros e; apply Ha, mir_inj, e).
  assert (Hx' : mir x <> mir v) by (intros e; apply Hx, mir_inj, e).
  pose proof (th_range v a Ha) as (r1 & r2). pose proof (th_range v x Hx) as (r3 & r4).
  pose proof (th_range _ _ Ha') as (r5 & r6). pose proof (th_range _ _ Hx') as (r7 & r8).
  destruct (th_mir v a Ha) as [e1|e1], (th_mir v x Hx) as [e2|e2]; unfold ad;
  destruct (qltb (th (mir v) (mir a)) (th (mir v) (mir x))) eqn:F1; [apply qltb_lt in F1|apply qltb_ge in F1| apply qltb_lt in F1|apply qltb_ge in F1| apply qltb_lt in F1|apply qltb_ge in F1| apply qltb_lt in F1|apply qltb_ge in F1];
  destruct (qltb (th v x) (th v a)) eqn:F2; (apply qltb_lt in F2 || apply qltb_ge in F2); try ql; exfalso; ql.
Qed.
Lemma ad_mir' v a x : a <> v -> x <> v -> ad v a x = ad (mir v) (mir x) (mir a).
Proof. intros. symmetry. apply ad_mir; auto. Qed.

Lemma ad_opp v a x : a <> v -> x <> v -> ad v a x + ad v x a = q4 \/ (ad v a x = q4 /\ ad v x a = q4).
Proof.
  intros Ha Hx. destruct (ad_tri v a x a) as [h|h]; auto; rewrite ad_self in h; [auto|right].
  pose proof (ad_range v a x Ha Hx) as (_ & r). pose proof (ad_range v x a Hx Ha) as (_ & r'). split; ql.
Qed.
(** The order of the predecessors. *)
Lemma ad_le_rev v y a q : y <> v -> a <> v -> q <> v -> ad v y a <= ad v y q -> ad v y a <= ad v q a.
Proof.
  intros Ny Na Nq H. pose proof (ad_range v y q Ny Nq) as (_ & r). pose proof (ad_range v y a Ny Na) as (_ & r2).
  destruct (ad_le_tri v y a q Ny Na Nq H) as [h|h]; destruct (ad_opp v a q Na Nq) as [o|(o & o')]; try ql.
  exfalso. pose proof (ad_range v q a Nq Na) as (r3 & _). ql.
Qed.
Lemma laws_mir S m : laws S m -> laws (List.map mir S) (mirm m).
Proof.
  intros W. split; cbn [mirm me mn mp].
  - intros v a. apply (l_sym _ _ W).
  - intros v a h e. apply (l_ne _ _ W _ _ h). congruence.
  - intros v a h. apply in_mir, (l_in _ _ W _ _ h).
  - intros v a h. rewrite mir_mir. destruct (l_prev _ _ W _ _ h) as (h1 & h2). rewrite h2. split; [exact h1|apply mir_mir].
  - intros v a h. rewrite mir_mir. destruct (l_next _ _ W _ _ h) as (h1 & h2). rewrite h2. split; [exact h1|apply mir_mir].
  - intros v a x ha hx. destruct (l_prev _ _ W _ _ ha) as (h1 & h2).
    pose proof (l_ne _ _ W _ _ ha). pose proof (l_ne _ _ W _ _ hx). pose proof (l_ne _ _ W _ _ h1).
    rewrite (ad_mir' v a), (ad_mir' v a x); try (intros e; congruence).
    2:{ intros e. apply H1. apply mir_inj. rewrite e, mir_mir. reflexivity. }
    rewrite mir_mir. apply ad_le_rev; auto. rewrite <- h2 at 2. apply (l_sorted _ _ W); auto.
  - intros v a q h Hq B. apply (l_clean _ _ W _ _ (mir q) h); [apply in_mir, Hq|]. apply btw_mir, B.
  - intros a b c d h1 h2 (c1 & c2 & c3 & c4). apply (l_planar _ _ W _ _ (mir d) (mir c) h1).
    + apply (l_sym _ _ W), h2.
    + red. rewrite !cross_mir, (cross_flip c d a), (cross_flip c d b). repeat split; ql.
Qed.
Lemma empty_mir S a b c : empty S a b c -> empty (List.map mir S) (mir a) (mir c) (mir b).
Proof.
  intros (P & Q). split; [rewrite cross_mir, cross_swap; ql|].
  intros q Hq. apply in_mir in Hq. rewrite <- (mir_mir q), inc_mir, inc_swap2. specialize (Q _ Hq). ql.
Qed.
Lemma DT_mir S m : DT S m -> DT (List.map mir S) (mirm m).
Proof.
  intros T. pose proof (d_laws _ _ T) as W. split.
  - apply laws_mir, W.
  - intros v w Hv Hw N. apply in_mir in Hv, Hw. destruct (d_nbr _ _ T (mir v) (mir w) Hv Hw) as (a & Ha).
    + intros e. apply N, mir_inj, e.
    + exists (mir a). cbn. rewrite mir_mir. exact Ha.
  - intros v a h. cbn [mirm me mn mp] in *. destruct (l_prev _ _ W _ _ h) as (h1 & h2).
    set (y := mp m (mir v) (mir a)) in *. pose proof (l_ne _ _ W _ _ h) as N1. pose proof (l_ne _ _ W _ _ h1) as N2.
    destruct (d_corner _ _ T _ _ h1) as [(e & e')|(g & g')]; rewrite h2 in *.
    + left. split; [|cbn [mirm me]; rewrite mir_mir; apply (l_sym _ _ W), e'].
      apply empty_mir in e. rewrite !mir_mir in e. exact e.
    + right. assert (K : ad v a (mir y) = ad (mir v) y (mir a)).
      { rewrite (ad_mir' v a (mir y)), mir_mir; [reflexivity|congruence|].
        intros e. apply N2, mir_inj. rewrite e, mir_mir. reflexivity. }
      split; rewrite K; [exact g|]. intros q Hq Nq. rewrite (ad_mir' v a q); auto; [|congruence].
      assert (mir q <> mir v) by (intros e; apply Nq, mir_inj, e).
      apply ad_le_rev; auto. apply g'; auto. apply in_mir, Hq.
Qed.
Lemma sndel_mir S a b : sndel (List.map mir S) (mir a) (mir b) -> sndel S a b.
Proof.
  intros (c & q & Hc & Hq & h1 & h2 & h3). apply in_mir in Hc, Hq.
  rewrite <- (mir_mir c), cross_mir in h1. rewrite <- (mir_mir q), cross_mir in h2. rewrite <- (mir_mir c), <- (mir_mir q), inc_mir in h3.
  exists (mir q), (mir c). repeat split; auto; try ql. rewrite inc_last. ql.
Qed.
Lemma sndel_mir' S a b : sndel S a b -> sndel (List.map mir S) (mir a) (mir b).
Proof.
  intros (c & q & Hc & Hq & h1 & h2 & h3).
  exists (mir q), (mir c). rewrite !mir_in, !cross_mir, inc_mir, inc_last. repeat split; auto; ql.
Qed.
Lemma sndel_sym S a b : sndel S a b -> sndel S b a.
Proof.
  intros (c & q & Hc & Hq & h1 & h2 & h3).
  exists q, c. rewrite (cross_flip a b q), (cross_flip a b c), inc_swap, inc_last. repeat split; auto; ql.
Qed.
Lemma DE_mir S a b : DE S a b -> DE (List.map mir S) (mir a) (mir b).
Proof.
  intros H c q Hc Hq h1 h2. apply in_mir in Hc, Hq.
  rewrite <- (mir_mir c), cross_mir in h1. rewrite <- (mir_mir q), cross_mir in h2.
  rewrite <- (mir_mir c), <- (mir_mir q), inc_mir.
  specialize (H (mir q) (mir c) Hq Hc ltac:(ql) ltac:(ql)). rewrite inc_last in H. ql.
Qed.
Lemma empty_mir' S a b c : empty (List.map mir S) (mir a) (mir b) (mir c) -> empty S a c b.
Proof.
  intros (P & Q). rewrite cross_mir in P. split; [rewrite cross_swap; ql|].
  intros q Hq. specialize (Q (mir q) (proj2 (mir_in _ _) Hq)). rewrite inc_mir in Q. rewrite inc_swap2. ql.
Qed.
