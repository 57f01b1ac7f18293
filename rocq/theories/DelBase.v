(** The triangulations of two and of three points. *)
From Coq Require Import List Lia.
From Verif Require Import Base Geometry Spec QcTac QcFast GeomProofs LoopProofs QuadEdge QuadProofs Triangulation
  DelGeo DelCyc DelMap DelOps DelMir DelCand DelMerge DelDone DelTangent DelStart DelHeap DelLoop DelFind.
Import ListNotations.
Open Scope Qc_scope.

Lemma crossing_apart a b c d : crossing a b c d -> a <> c /\ a <> d /\ b <> c /\ b <> d.
Proof.
  intros (h1 & h2 & h3 & h4). repeat split; intros ->.
  - assert (e : cross c b c = 0) by (unfold cross; ring). rewrite e in h1. ql.
  - assert (e : cross d b d = 0) by (unfold cross; ring). rewrite e in h2. ql.
  - assert (e : cross a c c = 0) by (unfold cross; ring). rewrite e in h1. ql.
  - assert (e : cross a d d = 0) by (unfold cross; ring). rewrite e in h2. ql.
Qed.

Lemma btw_dot q p r : btw q p r -> 0 < dot p q r.
Proof.
  intros B. destruct (btw_neq _ _ _ B) as (n & _). destruct B as (_ & B).
  pose proof (d2_pos p q ltac:(congruence)) as D. assert (e : dot p q r = d2 p q - dot q p r) by (unfold dot, d2; ring). ql.
Qed.
Lemma cross_flip' p q r : cross q p r = - cross p q r.
Proof. unfold cross; ring. Qed.

(** ** Two points *)
Definition pair_map (p q : point) : map := Map (same_edge p q) (fun _ a => a) (fun _ a => a).
Lemma pair_laws p q : p <> q -> laws [p; q] (pair_map p q).
Proof.
  intros N. apply laws_of; cbn [pair_map me mn mp]; unfold same_edge.
  - intros v. split; unfold same_edge; [intros a h|intros a h|intros a h|intros a x h h']; try solve [intuition congruence].
    assert (x = a) by intuition congruence. subst x. ql.
  - intuition.
  - intros v a [(-> & _)|(-> & _)]; cbn; auto.
  - intros v a x h h' B. apply btw_neq in B. cbn in h'. intuition congruence.
  - intros a b c d h h' X. apply crossing_apart in X. intuition congruence.
Qed.
Lemma pair_DT p q : p <> q -> DT [p; q] (pair_map p q).
Proof.
  intros N. split; [apply pair_laws, N| |].
  - intros v w Hv Hw n. exists w. cbn in *. unfold same_edge. intuition congruence.
  - intros v a h. right. cbn [pair_map mn]. unfold gap. rewrite ad_self. split; [ql|].
    intros x Hx n. assert (x = a). { cbn in *. unfold same_edge in h. intuition congruence. }
    subst x. rewrite ad_self. ql.
Qed.

(** ** Three points on a path *)
Definition path_map (p q r : point) : map := Map (fun v a => same_edge p q v a \/ same_edge q r v a)
  (fun v a => if point_eq_dec v q then if point_eq_dec a p then r else p else a)
  (fun v a => if point_eq_dec v q then if point_eq_dec a p then r else p else a).
Section P.
Context (ep : Qc) (p q r : point) (Hpq : phi ep p < phi ep q) (Hqr : phi ep q < phi ep r).
Lemma npq : p <> q. Proof. intros e. rewrite e in Hpq. ql. Qed.
Lemma nqr : q <> r. Proof. intros e. rewrite e in Hqr. ql. Qed.
Lemma npr : p <> r. Proof. intros e. rewrite e in Hpq. ql. Qed.
Lemma path_laws : laws [p; q; r] (path_map p q r).
Proof.
  pose proof npq as A. pose proof nqr as B. pose proof npr as C. apply laws_of; cbn [path_map me mn mp]; unfold same_edge.
  - intros v. split.
    + intuition congruence.
    + intros a h. repeat destruct point_eq_dec; intuition congruence.
    + intros a h. repeat destruct point_eq_dec; intuition congruence.
    + intros a x h h'. destruct (point_eq_dec v q) as [e|n].
      * subst v. assert (a = p \/ a = r) as [-> | ->] by intuition congruence.
        -- destruct (point_eq_dec p p) as [_|n]; [|contradiction]. assert (Kx : x = p \/ x = r) by intuition congruence. destruct Kx as [-> | ->]; [|ql].
           rewrite ad_self. apply ad_range; congruence.
        -- destruct (point_eq_dec r p) as [e|_]; [congruence|]. assert (Kx : x = p \/ x = r) by intuition congruence. destruct Kx as [-> | ->]; [ql|].
           rewrite ad_self. apply ad_range; congruence.
      * assert (x = a) by intuition congruence. subst x. ql.
  - intuition.
  - intros v a h. cbn. intuition congruence.
  - intros v a x h h' b. pose proof (btw_neq _ _ _ b) as bn.
    assert (K : (x = r /\ (v = p /\ a = q \/ v = q /\ a = p)) \/ (x = p /\ (v = r /\ a = q \/ v = q /\ a = r))).
    { cbn in h'. destruct h' as [<-|[<-|[<-|[]]]]; destruct h as [[(-> & ->)|(-> & ->)]|[(-> & ->)|(-> & ->)]]; intuition congruence. }
    destruct K as [(-> & [(-> & ->)|(-> & ->)])|(-> & [(-> & ->)|(-> & ->)])].
    + pose proof (btw_phi ep (phi ep r) _ _ _ b ltac:(ql) ltac:(ql)). ql.
    + pose proof (btw_phi ep (phi ep r) _ _ _ b ltac:(ql) ltac:(ql)). ql.
    + pose proof (btw_phi' ep (phi ep p) _ _ _ b ltac:(ql) ltac:(ql)). ql.
    + pose proof (btw_phi' ep (phi ep p) _ _ _ b ltac:(ql) ltac:(ql)). ql.
  - intros a b c d h h' X. apply crossing_apart in X as (X1 & X2 & X3 & X4).
    destruct h as [[(-> & ->)|(-> & ->)]|[(-> & ->)|(-> & ->)]]; destruct h' as [[(-> & ->)|(-> & ->)]|[(-> & ->)|(-> & ->)]]; congruence.
Qed.
(** The middle one of three points on a line is between the others. *)
Lemma mid_btw : cross p q r = 0 -> btw q p r.
Proof.
  intros h. assert (C : cross p r q = 0) by (rewrite cross_swap, h; ring).
  pose proof npr as n.
  destruct (line_param p r q n C) as (t & X & Y).
  pose proof (phi_param ep _ _ _ _ X Y) as E.
  assert (D : 0 <= phi ep r - phi ep p) by ql.
  apply (param_btw p r q t n); auto.
  - apply Qcnot_le_lt. intros h1. pose proof (Qcmult_le_compat_r _ _ _ h1 D). assert (e : 0 * (phi ep r - phi ep p) = 0) by ring. rewrite e in *. ql.
  - apply Qcnot_le_lt. intros h1. pose proof (Qcmult_le_compat_r _ _ _ h1 D). assert (e : 1 * (phi ep r - phi ep p) = phi ep r - phi ep p) by ring. rewrite e in *. ql.
Qed.
Lemma path_DT : cross p q r = 0 -> DT [p; q; r] (path_map p q r).
Proof.
  intros h. pose proof npq as A. pose proof nqr as B. pose proof npr as C. pose proof (mid_btw h) as Mb. pose proof Mb as (M & M').
  split; [apply path_laws| |].
  - intros v w Hv Hw n. cbn [path_map me]. unfold same_edge. destruct (point_eq_dec v q) as [->|n'].
    + exists p. auto.
    + exists q. cbn in Hv. intuition congruence.
  - intros v a E. right. cbn [path_map me mn] in *. unfold same_edge in E. unfold gap.
    destruct (point_eq_dec v q) as [->|nv].
    + assert (Y : ad q p r = q2).
      { assert (c : cross q p r = 0) by (rewrite cross_flip', h; ring).
        destruct (ad_cases q p r ltac:(congruence) ltac:(congruence)) as [K|[K|[K|K]]]; try tauto; destruct K as (? & ? & ?); ql. }
      assert (Z : ad q r p = q2).
      { destruct (ad_opp q p r) as [o|(o & _)]; try congruence; [|rewrite Y in o; ql]. ql. }
      destruct (point_eq_dec a p) as [->|na].
      * split; [ql|]. intros x [<-|[<-|[<-|[]]]] nx; [rewrite ad_self; ql|congruence|ql].
      * assert (a = r) by intuition congruence. subst a. split; [ql|]. intros x [<-|[<-|[<-|[]]]] nx; [ql|congruence|rewrite ad_self; ql].
    + rewrite ad_self. split; [ql|].
      assert (a = q) by intuition congruence. subst a.
      assert (K : v = p \/ v = r) by intuition congruence. destruct K as [-> | ->]; intros x [<-|[<-|[<-|[]]]] nx; try congruence;
        try (rewrite ad_self; ql).
      * rewrite ad_same_iff; [ql| | |exact h|apply btw_dot, Mb]; congruence.
      * rewrite ad_same_iff; [ql| | | |apply btw_dot, btw_sym, Mb]; try congruence.
        transitivity (- cross p q r); [unfold cross; ring|rewrite h; ring].
Qed.

(** ** Triangles *)
Context (T : cross p q r <> 0).
Definition triangle_map : map := ins (path_map p q r) r p q q.
Lemma triangle_laws : laws [p; q; r] triangle_map.
Proof.
  pose proof npq as A. pose proof nqr as B. pose proof npr as C.
  assert (T1 : cross r q p <> 0) by (intros e; apply T; transitivity (- cross r q p); [unfold cross; ring|rewrite e; ring]).
  assert (T2 : cross p q r <> 0) by exact T.
  assert (X : forall v a x, a <> v -> x <> v -> cross v a x <> 0 -> ad v a x < q4).
  { intros v a x n1 n2 t. destruct (ad_cases v a x n1 n2) as [K|[K|[K|K]]]; destruct K as (K1 & K2 & K3); try ql; congruence. }
  apply laws_ins; [apply path_laws|congruence|cbn; auto|cbn; auto| | | | | | |].
  - cbn [path_map me]. unfold same_edge. intuition congruence.
  - cbn [path_map me]. unfold same_edge. auto.
  - cbn [path_map me]. unfold same_edge. auto.
  - cbn [path_map mn]. destruct (point_eq_dec r q) as [e|_]; [congruence|]. rewrite ad_self. apply X; congruence.
  - cbn [path_map mn]. destruct (point_eq_dec p q) as [e|_]; [congruence|]. rewrite ad_self. apply X; congruence.
  - intros x Hx b. pose proof (btw_neq _ _ _ b) as (b1 & b2 & _). destruct b as (b & _). destruct Hx as [<-|[<-|[<-|[]]]]; try congruence.
    apply T. transitivity (cross r p q); [unfold cross; ring|exact b].
  - intros x y h X'. apply crossing_apart in X' as (X1 & X2 & X3 & X4).
    cbn [path_map me] in h. unfold same_edge in h. intuition congruence.
Qed.
Lemma third_corner S v a b : a <> v -> b <> v -> a <> b -> (forall x, In x S -> x = v \/ x = a \/ x = b) -> cross v a b <> 0 ->
  empty S v a b \/ gap S v a b.
Proof.
  intros n1 n2 n3 H t. destruct (Qc_dec (cross v a b) 0) as [[h|h]|h]; [| |contradiction].
  - right. destruct (ad_neg v a b n1 n2 h) as (h1 & h2). split; [ql|]. intros x Hx nx.
    destruct (H x Hx) as [->|[->| ->]]; [contradiction|rewrite ad_self; ql|ql].
  - left. split; [exact h|]. intros x Hx. destruct (H x Hx) as [->|[->| ->]];
      match goal with |- ?l <= 0 => assert (e : l = 0) by (unfold inc, incircle; ring); rewrite e; ql end.
Qed.
Lemma triangle_DT : DT [p; q; r] triangle_map.
Proof.
  pose proof npq as A. pose proof nqr as B. pose proof npr as C.
  split; [apply triangle_laws| |].
  - intros v w Hv Hw n. exists w. cbn [triangle_map ins path_map me]. unfold same_edge. cbn in Hv, Hw. intuition congruence.
  - intros v a E.
    assert (K : exists b, mn triangle_map v a = b /\ a <> v /\ b <> v /\ a <> b /\ (forall x, In x [p; q; r] -> x = v \/ x = a \/ x = b)
      /\ cross v a b <> 0 /\ me triangle_map a b).
    { assert (Z : (v = p \/ v = q \/ v = r) /\ (a = p \/ a = q \/ a = r) /\ a <> v).
      { split; [|split; [|apply (l_ne _ _ triangle_laws _ _ E)]].
        - pose proof (l_in _ _ triangle_laws _ _ E) as h. cbn in h. intuition congruence.
        - pose proof (l_in _ _ triangle_laws _ _ (l_sym _ _ triangle_laws _ _ E)) as h. cbn in h. intuition congruence. }
      clear E. destruct Z as (Zv & Za & Zn).
      assert (G : forall b, mn triangle_map v a = b -> b <> v -> a <> b -> (b = p \/ b = q \/ b = r) -> exists b, mn triangle_map v a = b /\ a <> v /\ b <> v /\ a <> b /\ (forall x, In x [p; q; r] -> x = v \/ x = a \/ x = b)
      /\ cross v a b <> 0 /\ me triangle_map a b).
      { intros b Eb nb nab Hb. exists b. split; [exact Eb|]. split; [exact Zn|]. split; [exact nb|]. split; [exact nab|]. split; [|split].
        - intros x Hx. cbn in Hx. intuition congruence.
        - intros c. apply T. destruct Zv as [->|[->| ->]], Za as [->|[->| ->]], Hb as [->|[->| ->]]; try congruence;
            match type of c with ?l = _ => solve [transitivity l; [unfold cross; ring|exact c]|transitivity (- l); [unfold cross; ring|rewrite c; ring]] end.
        - cbn [triangle_map ins path_map me]. unfold same_edge. intuition congruence. }
      destruct Zv as [->|[->| ->]], Za as [->|[->| ->]]; try congruence;
        [apply (G r)|apply (G q)|apply (G r)|apply (G p)|apply (G q)|apply (G p)]; auto; try congruence;
        cbn [triangle_map ins path_map mn]; unfold ins1; repeat (destruct point_eq_dec; try congruence). }
    destruct K as (b & -> & n1 & n2 & n3 & Hs & t & Eab).
    destruct (third_corner [p; q; r] v a b n1 n2 n3 Hs t) as [h|h]; [left; split; assumption|right; exact h].
Qed.
End P.
