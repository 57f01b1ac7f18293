(** The merge of two triangulations separated by a line: the invariant of the loop. *)
From Coq Require Import List Lia Field.
From Verif Require Import Base Geometry Spec QcTac QcFast GeomProofs DelGeo DelCyc DelMap DelFan DelOps DelMir DelCand.
Import ListNotations.
Open Scope Qc_scope.

(** ** Heights over the separating line [phi = tau] *)
Definition phi (ep : Qc) (q : point) : Qc := px q + ep * py q.
Definition hgt (ep tau : Qc) (l r : point) : Qc :=
  py l + (tau - phi ep l) * ((py r - py l) / (phi ep r - phi ep l)).
Definition xpt (ep tau h : Qc) : point := Pt (tau - ep * h) h.
Lemma pos_nz (x : Qc) : 0 < x -> x <> 0.
Proof. intros H e. rewrite e in H. discriminate H. Qed.
Lemma cross_xpt ep tau l r h : phi ep l < phi ep r ->
  cross l r (xpt ep tau h) = (phi ep r - phi ep l) * (h - hgt ep tau l r).
Proof.
  intros H. assert (phi ep r - phi ep l <> 0) by (apply pos_nz; ql).
  unfold hgt. replace ((phi ep r - phi ep l) * (h - (py l + (tau - phi ep l) * ((py r - py l) / (phi ep r - phi ep l)))))
    with ((phi ep r - phi ep l) * (h - py l) - (tau - phi ep l) * (py r - py l)) by (field; assumption).
  unfold cross, xpt, phi; cbn [px py]. ring.
Qed.
Lemma xpt_on ep tau l r : phi ep l < tau -> tau < phi ep r ->
  exists t, 0 < t /\ t < 1 /\ px (xpt ep tau (hgt ep tau l r)) = px l + t * (px r - px l)
    /\ py (xpt ep tau (hgt ep tau l r)) = py l + t * (py r - py l).
Proof.
  intros H1 H2. assert (P : 0 < phi ep r - phi ep l) by ql. pose proof (pos_nz _ P) as NZ.
  exists ((tau - phi ep l) / (phi ep r - phi ep l)).
  set (t := (tau - phi ep l) / (phi ep r - phi ep l)).
  assert (K : (phi ep r - phi ep l) * t = tau - phi ep l) by (unfold t; field; assumption).
  split; [apply (pos_of_mul (phi ep r - phi ep l)); [exact P|rewrite K; ql]|].
  split.
  { assert (0 < 1 - t); [|ql]. apply (pos_of_mul (phi ep r - phi ep l)); [exact P|].
    replace ((phi ep r - phi ep l) * (1 - t)) with ((phi ep r - phi ep l) - (phi ep r - phi ep l) * t) by ring. rewrite K. ql. }
  assert (Y : hgt ep tau l r = py l + t * (py r - py l)) by (unfold hgt, t; field; assumption).
  cbn [xpt px py]. split; [|exact Y]. rewrite Y.
  transitivity (px l + (phi ep r - phi ep l) * t - ep * t * (py r - py l)); [rewrite K; unfold phi; ring|unfold phi; ring].
Qed.
Lemma hgt_l ep tau l r c : phi ep l < tau -> phi ep c < tau -> tau < phi ep r -> 0 < cross l r c ->
  hgt ep tau l r < hgt ep tau c r.
Proof.
  intros H1 H2 H3 C. destruct (xpt_on ep tau l r H1 H3) as (t & t0 & t1 & tx & ty).
  pose proof (cross_param c r l r _ t tx ty) as K. rewrite cross_xpt, cross_abb in K by ql.
  assert (0 < hgt ep tau c r - hgt ep tau l r); [|ql].
  apply (pos_of_mul (phi ep r - phi ep c)); [ql|].
  replace ((phi ep r - phi ep c) * (hgt ep tau c r - hgt ep tau l r)) with (- ((phi ep r - phi ep c) * (hgt ep tau l r - hgt ep tau c r))) by ring.
  rewrite K. replace (cross c r l) with (- cross l r c) by (unfold cross; ring).
  pose proof (mul_pos (1 - t) _ ltac:(ql) C) as M. replace (- ((1 - t) * - cross l r c + t * 0)) with ((1 - t) * cross l r c) by ring. exact M.
Qed.
Lemma hgt_r ep tau l r c : phi ep l < tau -> tau < phi ep c -> tau < phi ep r -> 0 < cross l r c ->
  hgt ep tau l r < hgt ep tau l c.
Proof.
  intros H1 H2 H3 C. destruct (xpt_on ep tau l r H1 H3) as (t & t0 & t1 & tx & ty).
  pose proof (cross_param l c l r _ t tx ty) as K. rewrite cross_xpt, cross_aba in K by ql.
  assert (0 < hgt ep tau l c - hgt ep tau l r); [|ql].
  apply (pos_of_mul (phi ep c - phi ep l)); [ql|].
  replace ((phi ep c - phi ep l) * (hgt ep tau l c - hgt ep tau l r)) with (- ((phi ep c - phi ep l) * (hgt ep tau l r - hgt ep tau l c))) by ring.
  rewrite K. rewrite (cross_swap l r c).
  pose proof (mul_pos t _ ltac:(ql) C) as M. replace (- ((1 - t) * 0 + t * - cross l r c)) with (t * cross l r c) by ring. exact M.
Qed.

(** ** The band of triangles between the two parts, from the last one down *)
Inductive chain (S L R : list point) (E : point -> point -> Prop) : list (point * point) -> Prop :=
| ch_bottom l r : In l L -> In r R -> E l r -> (forall q, In q S -> 0 <= cross l r q) -> chain S L R E [(l, r)]
| ch_left l r c t : chain S L R E ((l, r) :: t) -> empty S l r c -> In c L -> E l c -> E c r -> chain S L R E ((c, r) :: (l, r) :: t)
| ch_right l r c t : chain S L R E ((l, r) :: t) -> empty S l r c -> In c R -> E r c -> E l c -> chain S L R E ((l, c) :: (l, r) :: t).

Lemma chain_mono S L R (E E' : point -> point -> Prop) bs : (forall x y, E x y -> DE S x y -> E' x y) ->
  chain S L R E bs -> chain S L R E' bs.
Proof.
  intros H. induction 1.
  - constructor; auto. apply H; auto. apply left_DE. auto.
  - pose proof (empty_DE _ _ _ _ (empty_rot _ _ _ _ (empty_rot _ _ _ _ H1))) as D1.
    pose proof (empty_DE _ _ _ _ (empty_rot _ _ _ _ H1)) as D2.
    constructor; auto; apply H; auto; apply DE_sym; assumption.
  - pose proof (empty_DE _ _ _ _ (empty_rot _ _ _ _ (empty_rot _ _ _ _ H1))) as D1.
    pose proof (empty_DE _ _ _ _ (empty_rot _ _ _ _ H1)) as D2.
    constructor; auto; apply H; auto; apply DE_sym; assumption.
Qed.
Lemma chain_in S L R E bs x y : chain S L R E bs -> In (x, y) bs -> In x L /\ In y R /\ E x y /\ DE S x y.
Proof.
  intros H. revert x y. induction H; intros x y Hi.
  - destruct Hi as [e|[]]. inversion e; subst. repeat split; auto. apply left_DE; auto.
  - destruct Hi as [e|Hi]; [|apply IHchain; exact Hi]. inversion e; subst.
    destruct (IHchain l y) as (h1 & h2 & _); [left; reflexivity|].
    repeat split; auto. apply DE_sym, (empty_DE _ _ _ l), empty_rot; assumption.
  - destruct Hi as [e|Hi]; [|apply IHchain; exact Hi]. inversion e; subst.
    destruct (IHchain x r) as (h1 & h2 & _); [left; reflexivity|].
    repeat split; auto. apply DE_sym, (empty_DE _ _ _ r), empty_rot, empty_rot; assumption.
Qed.

Section M.
Context (L R : list point) (ep tau : Qc) (mL mR : map).
Context (HL : forall q, In q L -> phi ep q < tau) (HR : forall q, In q R -> tau < phi ep q).
Context (TL : DT L mL) (TR : DT R mR).
Notation S := (L ++ R).
Lemma in_S q : In q S <-> In q L \/ In q R.
Proof. apply in_app_iff. Qed.
Lemma LR_neq x y : In x L -> In y R -> x <> y.
Proof. intros h1 h2 ->. specialize (HL _ h1). specialize (HR _ h2). ql. Qed.

Lemma chain_heights (E : point -> point -> Prop) l r t : chain S L R E ((l, r) :: t) ->
  forall x y, In (x, y) t -> hgt ep tau x y < hgt ep tau l r.
Proof.
  intros H. remember ((l, r) :: t) as bs eqn:e. revert l r t e. induction H; intros l' r' t' e x y Hi; inversion e; subst.
  - destruct Hi.
  - destruct (chain_in _ _ _ _ _ l r' H) as (h1 & h2 & _); [left; reflexivity|].
    assert (K : hgt ep tau l r' < hgt ep tau l' r') by (apply hgt_l; auto; apply H0).
    destruct Hi as [f|Hi]; [inversion f; subst; exact K|]. specialize (IHchain _ _ _ eq_refl _ _ Hi). ql.
  - destruct (chain_in _ _ _ _ _ l' r H) as (h1 & h2 & _); [left; reflexivity|].
    assert (K : hgt ep tau l' r < hgt ep tau l' r') by (apply hgt_r; auto; apply H0).
    destruct Hi as [f|Hi]; [inversion f; subst; exact K|]. specialize (IHchain _ _ _ eq_refl _ _ Hi). ql.
Qed.

Record inv (m : map) (l r : point) (t : list (point * point)) : Prop := Inv {
  i_laws : laws S m;
  i_chain : chain S L R (me m) ((l, r) :: t);
  i_sub : forall v a, me m v a -> me mL v a \/ me mR v a \/ In (v, a) ((l, r) :: t) \/ In (a, v) ((l, r) :: t);
  i_L : forall v a, me mL v a -> me m v a \/ sndel S v a;
  i_R : forall v a, me mR v a -> me m v a \/ sndel S v a }.

Lemma inv_base m l r t : inv m l r t -> In l L /\ In r R /\ me m l r /\ me m r l /\ DE S l r.
Proof.
  intros I. destruct (chain_in _ _ _ _ _ l r (i_chain _ _ _ _ I)) as (h1 & h2 & h3 & h4); [left; reflexivity|].
  repeat split; auto. apply (l_sym _ _ (i_laws _ _ _ _ I)), h3.
Qed.
(** Discarding an edge that is not Delaunay. *)
Lemma inv_del m l r t u w : inv m l r t -> me m u w -> sndel S u w -> inv (del m u w) l r t.
Proof.
  intros I Hu D. split.
  - apply laws_del; [apply (i_laws _ _ _ _ I)|exact Hu].
  - eapply chain_mono; [|apply (i_chain _ _ _ _ I)]. intros x y h h'. cbn [del me]. split; [exact h|].
    intros [(-> & ->)|(-> & ->)]; [apply (DE_sndel S u w); auto|]. apply (DE_sndel S w u h'), sndel_sym, D.
  - intros v a (h & _). apply (i_sub _ _ _ _ I), h.
  - intros v a h. destruct (i_L _ _ _ _ I _ _ h) as [g|g]; [|auto].
    destruct (point_eq_dec v u) as [->|n]; [destruct (point_eq_dec a w) as [->|n']|]; [auto| |destruct (point_eq_dec v w) as [->|n']; [destruct (point_eq_dec a u) as [->|n'']|]].
    + left. split; [exact g|]. unfold same_edge. intros [(? & ?)|(? & ?)]; [auto|]. subst. apply (l_ne _ _ (i_laws _ _ _ _ I) _ _ Hu). auto.
    + right. apply sndel_sym, D.
    + left. split; [exact g|]. unfold same_edge. intuition congruence.
    + left. split; [exact g|]. unfold same_edge. intuition congruence.
  - intros v a h. destruct (i_R _ _ _ _ I _ _ h) as [g|g]; [|auto].
    destruct (point_eq_dec v u) as [->|n]; [destruct (point_eq_dec a w) as [->|n']|]; [auto| |destruct (point_eq_dec v w) as [->|n']; [destruct (point_eq_dec a u) as [->|n'']|]].
    + left. split; [exact g|]. unfold same_edge. intros [(? & ?)|(? & ?)]; [auto|]. subst. apply (l_ne _ _ (i_laws _ _ _ _ I) _ _ Hu). auto.
    + right. apply sndel_sym, D.
    + left. split; [exact g|]. unfold same_edge. intuition congruence.
    + left. split; [exact g|]. unfold same_edge. intuition congruence.
Qed.
(** Edges above the base stay on their sides. *)
Lemma side_left m l r t x : inv m l r t -> me m l x -> 0 < cross l r x -> me mL l x.
Proof.
  intros I Hx C. destruct (inv_base _ _ _ _ I) as (Hl & Hr & _).
  destruct (i_sub _ _ _ _ I _ _ Hx) as [h|[h|[h|h]]]; [exact h| | |]; exfalso.
  - apply (LR_neq l l Hl); [|reflexivity]. apply (l_in _ _ (d_laws _ _ TR) _ _ h).
  - destruct (chain_in _ _ _ _ _ _ _ (i_chain _ _ _ _ I) h) as (_ & Hx' & _).
    destruct h as [e|h]; [inversion e; subst; rewrite cross_abb in C; ql|].
    pose proof (chain_heights _ _ _ _ (i_chain _ _ _ _ I) _ _ h) as K.
    pose proof (hgt_r ep tau l r x (HL _ Hl) (HR _ Hx') (HR _ Hr) C). ql.
  - destruct (chain_in _ _ _ _ _ _ _ (i_chain _ _ _ _ I) h) as (_ & Hx' & _). apply (LR_neq l l Hl Hx' eq_refl).
Qed.
Lemma side_right m l r t x : inv m l r t -> me m r x -> 0 < cross l r x -> me mR r x.
Proof.
  intros I Hx C. destruct (inv_base _ _ _ _ I) as (Hl & Hr & _).
  destruct (i_sub _ _ _ _ I _ _ Hx) as [h|[h|[h|h]]]; [|exact h| |]; exfalso.
  - apply (LR_neq r r); [|exact Hr|reflexivity]. apply (l_in _ _ (d_laws _ _ TL) _ _ h).
  - destruct (chain_in _ _ _ _ _ _ _ (i_chain _ _ _ _ I) h) as (Hx' & _). apply (LR_neq r r Hx' Hr eq_refl).
  - destruct (chain_in _ _ _ _ _ _ _ (i_chain _ _ _ _ I) h) as (Hx' & _).
    destruct h as [e|h]; [inversion e; subst; rewrite cross_aba in C; ql|].
    pose proof (chain_heights _ _ _ _ (i_chain _ _ _ _ I) _ _ h) as K.
    pose proof (hgt_l ep tau l r x (HL _ Hl) (HL _ Hx') (HR _ Hr) C). ql.
Qed.
Lemma fresh_left m l r t c : inv m l r t -> 0 < cross l r c -> In c L -> ~ me m c r.
Proof.
  intros I C Hc h. apply (l_sym _ _ (i_laws _ _ _ _ I)) in h. apply (side_right _ _ _ _ _ I) in h; [|exact C].
  apply (LR_neq c c Hc); [|reflexivity]. apply (e_in2 _ _ (d_laws _ _ TR) _ _ h).
Qed.
Lemma fresh_right m l r t c : inv m l r t -> 0 < cross l r c -> In c R -> ~ me m l c.
Proof.
  intros I C Hc h. apply (side_left _ _ _ _ _ I) in h; [|exact C].
  apply (LR_neq c c); [|exact Hc|reflexivity]. apply (e_in2 _ _ (d_laws _ _ TL) _ _ h).
Qed.
(** One more triangle. *)
Lemma inv_left m l r t : inv m l r t -> empty S l r (mn m l r) ->
  inv (ins m (mn m l r) r l (mp m r l)) (mn m l r) r ((l, r) :: t).
Proof.
  intros I Em. destruct (inv_base _ _ _ _ I) as (Hl & Hr & E1 & E2 & _). pose proof (i_laws _ _ _ _ I) as W.
  destruct (l_next _ _ W _ _ E1) as (Hc & _). set (c := mn m l r) in *.
  pose proof (side_left _ _ _ _ _ I Hc (proj1 Em)) as Hc'.
  assert (Hcl : In c L) by (apply (e_in2 _ _ (d_laws _ _ TL) _ _ Hc')).
  split.
  - apply close_triangle; auto. apply (fresh_left m l r t); auto. apply Em.
  - apply ch_left; auto.
    + eapply chain_mono; [|apply (i_chain _ _ _ _ I)]. intros x y h _. left. exact h.
    + left. exact Hc.
    + right. left. auto.
  - intros v a [h|[(-> & ->)|(-> & ->)]].
    + destruct (i_sub _ _ _ _ I _ _ h) as [g|[g|[g|g]]]; auto; right; right; [left|right]; right; exact g.
    + right; right; left; left; reflexivity.
    + right; right; right; left; reflexivity.
  - intros v a h. destruct (i_L _ _ _ _ I _ _ h); [left; left; assumption|auto].
  - intros v a h. destruct (i_R _ _ _ _ I _ _ h); [left; left; assumption|auto].
Qed.
Lemma inv_right m l r t : inv m l r t -> empty S l r (mp m r l) ->
  inv (ins m l (mp m r l) r (mp m (mp m r l) r)) l (mp m r l) ((l, r) :: t).
Proof.
  intros I Em. destruct (inv_base _ _ _ _ I) as (Hl & Hr & E1 & E2 & _). pose proof (i_laws _ _ _ _ I) as W.
  destruct (l_prev _ _ W _ _ E2) as (Hc & En). set (c := mp m r l) in *.
  pose proof (side_right _ _ _ _ _ I Hc (proj1 Em)) as Hc'.
  assert (Hcl : In c R) by (apply (e_in2 _ _ (d_laws _ _ TR) _ _ Hc')).
  split.
  - apply close_triangle; auto.
    + apply empty_rot, Em.
    + apply (fresh_right m l r t); auto. apply Em.
  - apply ch_right; auto.
    + eapply chain_mono; [|apply (i_chain _ _ _ _ I)]. intros x y h _. left. exact h.
    + left. exact Hc.
    + right. left. auto.
  - intros v a [h|[(-> & ->)|(-> & ->)]].
    + destruct (i_sub _ _ _ _ I _ _ h) as [g|[g|[g|g]]]; auto; right; right; [left|right]; right; exact g.
    + right; right; left; left; reflexivity.
    + right; right; right; left; reflexivity.
  - intros v a h. destruct (i_L _ _ _ _ I _ _ h); [left; left; assumption|auto].
  - intros v a h. destruct (i_R _ _ _ _ I _ _ h); [left; left; assumption|auto].
Qed.
(** What the code asks before discarding. *)
Definition goes_left (m : map) (l r : point) : Prop :=
  0 < cross l r (mn m l r) /\ 0 < cross l r (mn m l (mn m l r)) /\ 0 < inc l r (mn m l r) (mn m l (mn m l r)).
Definition goes_right (m : map) (l r : point) : Prop :=
  0 < cross l r (mp m r l) /\ 0 < cross l r (mp m r (mp m r l)) /\ 0 < inc l r (mp m r l) (mp m r (mp m r l)).
Lemma inv_del_left m l r t : inv m l r t -> goes_left m l r -> inv (del m l (mn m l r)) l r t.
Proof.
  intros I (g1 & g2 & g3). destruct (inv_base _ _ _ _ I) as (Hl & Hr & E1 & E2 & _). pose proof (i_laws _ _ _ _ I) as W.
  apply inv_del; auto; [apply (l_next _ _ W), E1|]. apply (deleted_sndel S m W); auto.
Qed.
Lemma inv_del_right m l r t : inv m l r t -> goes_right m l r -> inv (del m r (mp m r l)) l r t.
Proof.
  intros I (g1 & g2 & g3). destruct (inv_base _ _ _ _ I) as (Hl & Hr & E1 & E2 & _). pose proof (i_laws _ _ _ _ I) as W.
  apply inv_del; auto; [apply (l_prev _ _ W), E2|].
  pose proof (deleted_sndel (List.map mir S) (mirm m) (laws_mir _ _ W) (mir r) (mir l)) as K.
  cbn [mirm me mn mp] in K. rewrite !mir_mir in K.
  apply sndel_mir, K; auto.
  - rewrite cross_mir, cross_flip. ql.
  - rewrite cross_mir, cross_flip. ql.
  - rewrite inc_mir, inc_swap. ql.
Qed.
Lemma best_left m l r t w : inv m l r t -> ~ goes_left m l r -> In w L -> empty S l r w ->
  0 < cross l r (mn m l r) /\ empty S l r (mn m l r).
Proof.
  intros I G Hw Em. destruct (inv_base _ _ _ _ I) as (Hl & Hr & E1 & E2 & _). pose proof (i_laws _ _ _ _ I) as W.
  destruct (stop_best S m W L mL TL l r w) as (h1 & h2 & _); auto.
  - intros q h. apply in_S; auto.
  - apply (i_L _ _ _ _ I).
  - intros x h h'. apply (side_left m l r t); auto.
Qed.
Lemma best_right m l r t w : inv m l r t -> ~ goes_right m l r -> In w R -> empty S l r w ->
  0 < cross l r (mp m r l) /\ empty S l r (mp m r l).
Proof.
  intros I G Hw Em. destruct (inv_base _ _ _ _ I) as (Hl & Hr & E1 & E2 & _). pose proof (i_laws _ _ _ _ I) as W.
  destruct (stop_best (List.map mir S) (mirm m) (laws_mir _ _ W) (List.map mir R) (mirm mR) (DT_mir _ _ TR) (mir r) (mir l) (mir w)) as (h1 & h2 & _).
  - intros q h. apply in_mir in h. apply in_mir, in_S; auto.
  - intros v a h. cbn [mirm me] in *. destruct (i_R _ _ _ _ I _ _ h) as [g|g]; [auto|right].
    apply sndel_mir' in g. rewrite !mir_mir in g. exact g.
  - intros x h h'. cbn [mirm me] in *. rewrite mir_mir in *. apply (side_right m l r t); auto.
    rewrite <- (mir_mir x), cross_mir, cross_flip in h'. ql.
  - cbn [mirm me]. rewrite !mir_mir. exact E2.
  - apply mir_in, Hr.
  - cbn [mirm me mn mp]. rewrite !mir_mir, !cross_mir, inc_mir, !(cross_flip l r), inc_swap. intros (k1 & k2 & k3).
    apply G. repeat split; ql.
  - apply mir_in, Hw.
  - apply empty_rot, empty_mir in Em. exact Em.
  - cbn [mirm me mn mp] in *. rewrite !mir_mir in *. rewrite cross_mir, cross_flip in h1.
    split; [ql|]. apply empty_mir', empty_rot, empty_rot in h2. exact h2.
Qed.
(** The lowest circle over a Delaunay edge. *)
Lemma lowest l r : DE S l r -> (exists w, In w S /\ 0 < cross l r w) ->
  (forall q, In q S -> ~ btw q l r) -> exists w, In w S /\ empty S l r w.
Proof.
  intros D Hw B.
  destruct (min_exists (fun w => 0 < cross l r w) (fun x y => inc l r x y <= 0) S) as (w & h1 & h2 & h3).
  - intros x. apply qlt_dec.
  - intros x y _ _. destruct (Qclt_le_dec 0 (inc l r x y)) as [h|h]; [right; rewrite inc_last; ql|auto].
  - intros x y z h1 h2 h3. apply (pencil_trans l r x y z); auto.
  - exact Hw.
  - exists w. split; [exact h1|]. split; [exact h2|]. intros q Hq. destruct (tricho (cross l r q) 0) as [h|[h|h]].
    + apply D; auto.
    + (* on the line: outside the chord *)
      assert (N : l <> r) by (intros e; rewrite e, cross_aab in h2; ql).
      destruct (line_param l r q N h) as (t & tx & ty).
      assert (K : inc l r w q = cross l r w * (- dot q l r)).
      { unfold inc, incircle, dot, cross. rewrite tx, ty. ring. }
      rewrite K. apply mul_nonpos; [ql|]. destruct (Qclt_le_dec (dot q l r) 0) as [g|g]; [|ql].
      exfalso. apply (B q Hq). split; assumption.
    + apply h3; auto.
Qed.
(** The choice between the two candidates. *)
Definition takes_left (m : map) (l r : point) : Prop := 0 < cross l r (mn m l r) /\
  (0 < cross l r (mp m r l) -> inc l r (mn m l r) (mp m r l) <= 0).
Definition takes_right (m : map) (l r : point) : Prop := 0 < cross l r (mp m r l) /\
  (0 < cross l r (mn m l r) -> 0 < inc l r (mn m l r) (mp m r l)).
Lemma winner m l r t : inv m l r t -> ~ goes_left m l r -> ~ goes_right m l r ->
  (takes_left m l r -> empty S l r (mn m l r)) /\ (takes_right m l r -> empty S l r (mp m r l)) /\
  (~ takes_left m l r -> ~ takes_right m l r -> forall q, In q S -> cross l r q <= 0).
Proof.
  intros I GL GR. destruct (inv_base _ _ _ _ I) as (Hl & Hr & E1 & E2 & D). pose proof (i_laws _ _ _ _ I) as W.
  destruct (l_next _ _ W _ _ E1) as (Hc & _). destruct (l_prev _ _ W _ _ E2) as (He & _).
  assert (Hc' := e_in2 _ _ W _ _ Hc). assert (He' := e_in2 _ _ W _ _ He).
  assert (Cl : forall q, In q S -> ~ btw q l r) by (intros q; apply (l_clean _ _ W _ _ _ E1)).
  assert (Low := fun h => lowest l r D h Cl).
  assert (Cases : forall w, In w S -> empty S l r w -> (0 < cross l r (mn m l r) /\ empty S l r (mn m l r)) \/ (0 < cross l r (mp m r l) /\ empty S l r (mp m r l))).
  { intros w Hw Em. apply in_S in Hw as [Hw|Hw]; [left; apply (best_left m l r t w); auto|right; apply (best_right m l r t w); auto]. }
  assert (Tr : forall x y, In x S -> In y S -> empty S l r x -> 0 < cross l r y -> inc l r y x <= 0 -> empty S l r y).
  { intros x y Hx Hy Em C K. destruct (empty_disc _ _ _ _ Em) as (k & DS & e1 & e2 & e3).
    assert (e4 : pw (circ l r x) y = 0) by (rewrite pw_circ; pose proof (proj2 Em y Hy); rewrite inc_last in K; ql).
    exact (disc_empty S (circ l r x) l r y k DS e1 e2 e4 C). }
  split; [|split].
  - intros (C & K). destruct (Low (ex_intro _ _ (conj Hc' C))) as (w & Hw & Em).
    destruct (Cases w Hw Em) as [(_ & h)|(h1 & h)]; [exact h|]. apply (Tr (mp m r l)); auto.
  - intros (C & K). destruct (Low (ex_intro _ _ (conj He' C))) as (w & Hw & Em).
    destruct (Cases w Hw Em) as [(h1 & h)|(_ & h)]; [|exact h]. apply (Tr (mn m l r)); auto. specialize (K h1). rewrite inc_last. ql.
  - intros TL' TR' q Hq. destruct (Qclt_le_dec 0 (cross l r q)) as [h|h]; [exfalso|exact h].
    destruct (Low (ex_intro _ _ (conj Hq h))) as (w & Hw & Em).
    unfold takes_left, takes_right in *.
    destruct (Qclt_le_dec 0 (cross l r (mn m l r))) as [a|a], (Qclt_le_dec 0 (cross l r (mp m r l))) as [b|b].
    + destruct (Qclt_le_dec 0 (inc l r (mn m l r) (mp m r l))) as [c|c]; [apply TR'; auto|apply TL'; auto].
    + apply TL'. split; [exact a|]. intros; exfalso; ql.
    + apply TR'. split; [exact b|]. intros; exfalso; ql.
    + destruct (Cases w Hw Em) as [(h1 & _)|(h1 & _)]; ql.
Qed.
End M.
