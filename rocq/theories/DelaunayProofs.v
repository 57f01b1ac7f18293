(** The divide-and-conquer algorithm returns the Delaunay triangulation. *)
From Coq Require Import List Lia Permutation Sorted.
From Verif Require Import Base Geometry Ctx Spec DelaunaySpec QcTac QcFast GeomProofs ListProofs SegmentProofs HullProofs
  QuadEdge Triangulation QuadProofs TriProofs DelGeo DelCyc DelMap DelFan DelOps DelMerge DelCand DelTangent DelStart DelHeap DelFind DelAll DelBorder DelGreen.
Import ListNotations.
Open Scope Qc_scope.

(** ** The circumcircle. *)
Lemma circle_exists points a b c : empty points a b c -> empty_circle points a b c.
Proof.
  intros (D & H). set (d := cross a b c) in *.
  set (lb := (px b - px a) * (px b - px a) + (py b - py a) * (py b - py a)).
  set (lc := (px c - px a) * (px c - px a) + (py c - py a) * (py c - py a)).
  set (ux := lb * (py c - py a) - lc * (py b - py a)). set (uy := lc * (px b - px a) - lb * (px c - px a)).
  set (k := / ((1 + 1) * d)).
  assert (Hk : (1 + 1) * d * k = 1) by (apply Qcmult_inv_r; intros e; apply Qcmult_integral in e; destruct e as [e|e]; [discriminate|rewrite e in D; ql]).
  set (o := Pt (px a + k * ux) (py a + k * uy)).
  assert (Pw : forall q, d * (squared_distance o q - squared_distance o a) = - inc a b c q).
  { intros q. transitivity (d * ((px q - px a) * (px q - px a) + (py q - py a) * (py q - py a)) - ((1 + 1) * d * k) * ((px q - px a) * ux + (py q - py a) * uy)).
    - unfold squared_distance, o. cbn [px py]. ring.
    - rewrite Hk. unfold inc, incircle, d, ux, uy, lb, lc, cross. ring. }
  assert (Z : forall x, d * x = 0 -> x = 0) by (intros x e; apply Qcmult_integral in e; destruct e as [e|e]; [rewrite e in D; ql|exact e]).
  exists o. split; [|split].
  - assert (e : squared_distance o b - squared_distance o a = 0); [|ql]. apply Z. rewrite Pw. unfold inc, incircle. ring.
  - assert (e : squared_distance o b - squared_distance o a = 0); [|assert (e' : squared_distance o c - squared_distance o a = 0); [|ql]];
      apply Z; rewrite Pw; unfold inc, incircle; ring.
  - intros q Hq. specialize (H q Hq). specialize (Pw q). destruct (Qclt_le_dec (squared_distance o q) (squared_distance o a)) as [h|h]; [|exact h].
    exfalso. pose proof (mul_pos d (squared_distance o a - squared_distance o q) D ltac:(ql)) as M.
    replace (d * (squared_distance o a - squared_distance o q)) with (- (d * (squared_distance o q - squared_distance o a))) in M by ring.
    rewrite Pw in M. ql.
Qed.

Section C.
Context (h : heap) (P : edge -> Prop) (S : list point) (m : map) (ep : Qc) (t : Triangulation.tri).
Context (C : comp h P S m ep t).
Let R := c_rep _ _ _ _ _ _ C.
Let T := c_dt _ _ _ _ _ _ C.
Let W : laws S m := d_laws _ _ T.
Notation E := (me m).
Notation reach := (reaches h (left_side t)).

Lemma reach_P e : reach e -> P e.
Proof.
  induction 1 as [|d _ IH|d _ IH]; [apply C|apply (rp_lfs _ _ _ _ R d IH)|apply (rp_opp _ _ _ _ R d IH)].
Qed.
(** All edges with the same start. *)
Lemma reach_ring d d' : reach d -> P d' -> start h d' = start h d -> reach d'.
Proof.
  intros H H' e. pose proof (reach_P d H) as Hd. set (v := start h d) in *.
  pose proof (rp_me _ _ _ _ R d Hd) as Ed. fold v in Ed. pose proof (rp_me _ _ _ _ R d' H') as Ed'. rewrite e in Ed'. set (w := end_ h d') in *.
  assert (Q : exists f, reach f /\ start h f = v /\ end_ h f = w).
  { apply (all_nbrs _ _ W (fun x => exists f, reach f /\ start h f = v /\ end_ h f = x) v (end_ h d) w Ed Ed'); [exists d; auto|].
    intros x _ (f & Hf & sf & ef). exists (left_from_start h f). split; [apply reaches_next, Hf|].
    destruct (rp_lfs _ _ _ _ R f (reach_P f Hf)) as (_ & s1 & e1). unfold lfs in *. rewrite s1, e1, sf, ef. auto. }
  destruct Q as (g & Hg & sg & eg). assert (d' = g); [|subst d'; exact Hg]. apply (rp_uniq _ _ _ _ R); [exact H'|apply reach_P, Hg|rewrite sg; exact e|symmetry; exact eg].
Qed.
(** Every point that is not the first one has an edge to an earlier point. *)
Lemma descend v w : In v S -> In w S -> phi ep w < phi ep v -> exists a, E v a /\ phi ep a < phi ep v.
Proof.
  intros Hv Hw L. assert (N : w <> v) by (intros ->; ql). destruct (dt_corner _ _ T v w Hv Hw N) as (a & Ea & K).
  destruct (l_next _ _ W _ _ Ea) as (Eb & _). set (b := mn m v a) in *. pose proof (l_ne _ _ W _ _ Eb) as Nb. pose proof (l_ne _ _ W _ _ Ea) as Na.
  destruct K as [K|(_ & c1 & c2)].
  - exists b. split; [exact Eb|]. destruct (same_btw v b w Nb N) as [e|[B|B]]; [apply (ad_eq v a); auto|rewrite e; exact L| |].
    + destruct (btw_param _ _ _ B) as (s & s0 & s1 & X & Y). rewrite (phi_param ep v w b s X Y).
      pose proof (mul_pos s (phi ep v - phi ep w) s0 ltac:(ql)) as M.
      replace (s * (phi ep w - phi ep v)) with (- (s * (phi ep v - phi ep w))) by ring. ql.
    + destruct (Qclt_le_dec (phi ep b) (phi ep v)) as [g|g]; [exact g|exfalso].
      destruct (btw_param _ _ _ B) as (s & s0 & s1 & X & Y). pose proof (phi_param ep v b w s X Y) as K'.
      pose proof (mul_nonneg s (phi ep b - phi ep v) ltac:(ql) ltac:(ql)) as M. ql.
  - destruct (Qclt_le_dec (phi ep a) (phi ep v)) as [g|g]; [exists a; auto|]. destruct (Qclt_le_dec (phi ep b) (phi ep v)) as [g'|g']; [exists b; auto|].
    exfalso. pose proof (phi_cycle ep v a b w) as K.
    assert (D : 0 < cross v a b).
    { destruct (d_corner _ _ T _ _ Ea) as [tr|(G1 & G2)]; [apply tr|]. exfalso. fold b in G1, G2.
      pose proof (ad_pos v a w Na N c1) as (_ & A). specialize (G2 w Hw N). ql. }
    pose proof (mul_pos (phi ep v - phi ep w) (cross v a b) ltac:(ql) D) as M1.
    pose proof (mul_nonneg (phi ep a - phi ep v) (cross v w b) ltac:(ql) ltac:(ql)) as M2.
    pose proof (mul_nonneg (phi ep b - phi ep v) (cross v a w) ltac:(ql) ltac:(ql)) as M3.
    assert (K' : (phi ep v - phi ep w) * cross v a b + (phi ep a - phi ep v) * cross v w b + (phi ep b - phi ep v) * cross v a w = 0).
    { transitivity (- ((phi ep w - phi ep v) * cross v a b + (phi ep a - phi ep v) * cross v b w + (phi ep b - phi ep v) * cross v w a)); [unfold cross; ring|].
      rewrite K. reflexivity. }
    ql.
Qed.
Lemma first_point q : In q S -> q = start h (left_side t) \/ phi ep (start h (left_side t)) < phi ep q.
Proof.
  intros Hq. destruct (point_eq_dec q (start h (left_side t))) as [e|n]; [left; exact e|right].
  destruct (c_left _ _ _ _ _ _ C) as (_ & _ & M & _). apply M; assumption.
Qed.
Lemma reach_point v : In v S -> exists e, reach e /\ start h e = v.
Proof.
  remember (length (filter (fun s => qltb (phi ep s) (phi ep v)) S)) as k eqn:Ek. revert v Ek.
  induction k as [k IH] using lt_wf_ind. intros v Ek Hv. destruct (first_point v Hv) as [e|L].
  - exists (left_side t). split; [constructor|symmetry; exact e].
  - assert (Hx : In (start h (left_side t)) S).
    { destruct (c_left _ _ _ _ _ _ C) as (Pl & _). eapply (l_in _ _ W), (rp_me _ _ _ _ R), Pl. }
    destruct (descend v _ Hv Hx L) as (a & Ea & La). pose proof (l_in _ _ W _ _ (l_sym _ _ W _ _ Ea)) as Ha.
    assert (Lk : (length (filter (fun s => qltb (phi ep s) (phi ep a)) S) < k)%nat).
    { rewrite Ek. apply (filter_lt _ _ _ a).
      - intros s K. apply DelCyc.qltb_lt in K. apply DelCyc.qltb_lt. ql.
      - exact Ha.
      - apply DelCyc.qltb_ge. ql.
      - apply DelCyc.qltb_lt. exact La. }
    destruct (IH _ Lk a eq_refl Ha) as (e & He & se).
    destruct (rp_dart _ _ _ _ R _ _ (l_sym _ _ W _ _ Ea)) as (d & Pd & sd & ed).
    assert (Rd : reach d) by (apply (reach_ring e); [exact He|exact Pd|congruence]).
    exists (opposite d). split; [apply reaches_opposite, Rd|]. exact ed.
Qed.
Lemma reach_dart v a : E v a -> exists e, reach e /\ start h e = v /\ end_ h e = a.
Proof.
  intros H. destruct (reach_point v (l_in _ _ W _ _ H)) as (e & He & se). destruct (rp_dart _ _ _ _ R _ _ H) as (d & Pd & sd & ed).
  exists d. split; [apply (reach_ring e); [exact He|exact Pd|congruence]|auto].
Qed.
Lemma reach_all d : P d -> reach d.
Proof.
  intros H. destruct (reach_dart _ _ (rp_me _ _ _ _ R d H)) as (e & He & s1 & e1). replace d with e; [exact He|].
  apply (rp_uniq _ _ _ _ R); [apply reach_P, He|exact H|exact s1|exact e1].
Qed.
Lemma comp_delaunay points : (forall q, In q points <-> In q S) -> faithful ep S -> is_delaunay points t h.
Proof.
  intros In_ Fa.
  assert (Me : forall e, reach e -> E (start h e) (end_ h e)) by (intros e He; apply (rp_me _ _ _ _ R), reach_P, He).
  split.
  - intros e He. specialize (Me e He). rewrite !In_. split; [apply (l_in _ _ W _ _ Me)|]. split; [apply (l_in _ _ W _ _ (l_sym _ _ W _ _ Me))|].
    intros K. apply (l_ne _ _ W _ _ Me). auto.
  - intros e e' He He'. apply (rp_uniq _ _ _ _ R); apply reach_P; assumption.
  - intros e He. apply (rp_lfs _ _ _ _ R e (reach_P e He)).
  - intros p Hp. apply reach_point, In_, Hp.
  - intros e q He Hq I. apply (l_clean _ _ W _ _ q (Me e He)); [apply In_, Hq|apply inside_btw, I].
  - intros e e' He He' (p & I & I'). cbn [seg_start seg_end] in *.
    destruct (edges_meet S m _ _ _ _ p W (Me e He) (Me e' He') I I') as [(s1 & e1)|(s1 & e1)].
    + left. apply (rp_uniq _ _ _ _ R); auto using reach_P.
    + right. apply (rp_uniq _ _ _ _ R); [apply reach_P, He'|apply (rp_opp _ _ _ _ R), reach_P, He|rewrite start_opposite; auto|rewrite end_opposite; auto].
  - intros e He a b c. specialize (Me e He). destruct (rp_lfs _ _ _ _ R e (reach_P e He)) as (_ & s1 & e1). unfold lfs in *.
    destruct (d_corner _ _ T _ _ Me) as [(Em & Ed)|G].
    + left. fold a b in Em, Ed, e1. unfold c. rewrite e1. split; [apply Em|]. split; [apply reach_dart, Ed|].
      apply circle_exists. destruct Em as (E1 & E2). split; [exact E1|]. intros q Hq. apply E2, In_, Hq.
    + right. intros q Hq. apply In_ in Hq. destruct (l_next _ _ W _ _ Me) as (Eb & _).
      pose proof (gap_right S _ _ _ (l_ne _ _ W _ _ Eb) (l_ne _ _ W _ _ Me) G q Hq) as K. fold a b in K. unfold left_turn. ql.
  - intros q Hq. apply In_ in Hq. destruct (c_left _ _ _ _ _ _ C) as (Pl & Ex & M & A). split; [|specialize (A q Hq); unfold right_turn; ql].
    destruct (point_eq_dec q (start h (left_side t))) as [e|n]; [left; exact e|right].
    destruct (plt_total (start h (left_side t)) q) as [K|[K|K]]; [exact K|congruence|].
    exfalso. specialize (M q Hq n). pose proof (Fa _ _ Hq (l_in _ _ W _ _ Ex) K). ql.
  - destruct (c_right _ _ _ _ _ _ C) as (Pr & Ex & M & A). split; [apply reach_all, Pr|].
    intros q Hq. apply In_ in Hq. split; [|specialize (A q Hq); unfold left_turn; ql].
    destruct (point_eq_dec q (start h (right_side t))) as [e|n]; [left; exact e|right].
    destruct (plt_total q (start h (right_side t))) as [K|[K|K]]; [exact K|congruence|].
    exfalso. specialize (M q Hq n). pose proof (Fa _ _ (l_in _ _ W _ _ Ex) Hq K). ql.
Qed.
End C.

Theorem delaunay_is_delaunay ctx points t h : NoDup points -> (forall n, (2 <= n)%nat -> is_change n (ctx_coins ctx n)) ->
  delaunay ctx points = Ok (t, h) -> is_delaunay points t h.
Proof.
  intros N Co H. destruct (delaunay_spec ctx points t h N (Co _) H) as (ep & P & m & A & C).
  eapply comp_delaunay; [exact C|intros q; symmetry; apply isort_in|].
  assert (St : StronglySorted plt (isort point_leb points)) by (apply isort_points_strict, N). intros a b Ia Ib' Lt.
  clear -A St Ia Ib' Lt. revert A St Ia Ib' Lt. generalize (isort point_leb points) as S. intros S A St Ia Ib' Lt.
    unfold asc in A. induction S as [|z l IH]; [destruct Ia|].
    inversion A as [|? ? A1 A2]; inversion St as [|? ? B1 B2]; subst. rewrite Forall_forall in A2, B2.
    destruct Ia as [<- |Ia], Ib' as [<- |Ib'].
    + exfalso. apply (plt_irrefl _ Lt).
    + apply A2, Ib'.
    + exfalso. apply (plt_irrefl z), (plt_trans _ a); auto.
    + auto.
Qed.
