(** The base cases on the heap of edges. *)
From Coq Require Import List Lia.
From Verif Require Import Base Geometry Spec QcTac QcFast GeomProofs LoopProofs QuadEdge QuadProofs Triangulation
  DelGeo DelCyc DelMap DelOps DelMir DelCand DelMerge DelDone DelTangent DelStart DelHeap DelLoop DelFind DelBase.
Import ListNotations.
Open Scope Qc_scope.

Lemma fresh_edge h p q : wf h -> let '(e, h') := from_endpoints h p q in
  e = (h_count h, R0) /\ h_count h' = S (h_count h) /\ wf h' /\ live h' e /\ live h' (opposite e) /\ start h' e = p /\ end_ h' e = q
  /\ left_from_start h' e = e /\ left_from_start h' (opposite e) = opposite e
  /\ (forall x, valid h x -> start h' x = start h x) /\ (forall x, valid h x -> left_from_start h' x = left_from_start h x).
Proof.
  intros W. pose proof (from_endpoints_wf h p q W) as W'. pose proof (from_endpoints_lfs h p q) as Hl. pose proof (from_endpoints_start h p q) as Hs.
  assert (C : fst (from_endpoints h p q) = (h_count h, R0) /\ h_count (snd (from_endpoints h p q)) = S (h_count h)) by (split; reflexivity).
  destruct (from_endpoints h p q) as (e, h'). cbn [fst snd] in *. destruct C as (-> & C).
  split; [reflexivity|]. split; [exact C|]. split; [exact W'|].
  split; [split; [unfold valid; rewrite C; cbn; lia|reflexivity]|]. split; [split; [unfold valid; rewrite C; cbn; lia|reflexivity]|].
  split; [rewrite Hs; cbn; rewrite Nat.eqb_refl; reflexivity|].
  split; [unfold end_; rewrite Hs; cbn; rewrite Nat.eqb_refl; reflexivity|].
  split; [rewrite Hl; cbn; rewrite Nat.eqb_refl; reflexivity|].
  split; [rewrite Hl; cbn; rewrite Nat.eqb_refl; reflexivity|].
  split; intros x V; [rewrite Hs|rewrite Hl]; destruct (Nat.eqb_spec (fst x) (h_count h)) as [e|_]; try reflexivity; unfold valid in V; lia.
Qed.

(** What a base case leaves behind. *)
Definition fresh (h : heap) (h' : heap) (P : edge -> Prop) : Prop :=
  frame h (fun _ => False) h' /\ forall d, P d -> ~ valid h d.

Lemma two_spec ep h p q : wf h -> phi ep p < phi ep q ->
  let '(t, h') := triangulate_two_points h p q in exists P m, comp h' P [p; q] m ep t /\ fresh h h' P.
Proof.
  intros W Hpq. assert (N : p <> q) by (intros e; rewrite e in Hpq; ql).
  unfold triangulate_two_points. pose proof (fresh_edge h p q W) as F. destruct (from_endpoints h p q) as (e, h').
  destruct F as (Ee & C & W' & L1 & L2 & s1 & s2 & l1 & l2 & Fs & Fl).
  assert (s1' : start h' (opposite e) = q) by exact s2. assert (s2' : end_ h' (opposite e) = p) by (rewrite end_opposite; exact s1).
  exists (fun d => d = e \/ d = opposite e), (pair_map p q). split.
  - split.
    + split; auto.
      * apply pair_laws, N.
      * intros d [->| ->]; assumption.
      * intros d [->| ->]; [right; reflexivity|left; apply opposite_opposite].
      * intros d [->| ->]; [rewrite l1|rewrite l2]; auto.
      * intros d [->| ->]; cbn [pair_map me]; unfold same_edge; [left|right]; auto.
      * intros v a [(-> & ->)|(-> & ->)]; [exists e|exists (opposite e)]; auto.
      * intros d d' [->| ->] [->| ->]; try reflexivity; congruence.
    + apply pair_DT, N.
    + cbn [left_side]. split; [tauto|]. rewrite s1, s2. split; [left; auto|]. split.
      * intros x [<-|[<-|[]]] n; [congruence|exact Hpq].
      * intros x [<-|[<-|[]]]; [rewrite cross_aba|rewrite cross_abb]; ql.
    + cbn [right_side]. split; [tauto|]. rewrite s1', s2'. split; [right; auto|]. split.
      * intros x [<-|[<-|[]]] n; [exact Hpq|congruence].
      * intros x [<-|[<-|[]]]; [rewrite cross_abb|rewrite cross_aba]; ql.
  - split.
    + split; [lia|]. split; [exact W'|]. split; [intros x (V & _) _; apply Fl, V|exact Fs].
    + intros d [->| ->]; rewrite Ee; unfold valid; cbn; lia.
Qed.

Lemma path_rep ep h p q r : wf h -> phi ep p < phi ep q -> phi ep q < phi ep r ->
  let '(e, h1) := from_endpoints h p q in let '(f, h2) := from_endpoints h1 q r in let h3 := splice h2 (opposite e) f in
  let P := fun d => d = e \/ d = opposite e \/ d = f \/ d = opposite f in
  rep h3 P [p; q; r] (path_map p q r) /\ fresh h h3 P /\
  start h3 e = p /\ end_ h3 e = q /\ start h3 f = q /\ end_ h3 f = r.
Proof.
  intros W Hpq Hqr. pose proof (npq ep p q Hpq) as N1. pose proof (nqr ep q r Hqr) as N2. pose proof (npr ep p q r Hpq Hqr) as N3.
  pose proof (fresh_edge h p q W) as F. destruct (from_endpoints h p q) as (e, h1).
  destruct F as (Ee & C & W1 & L1 & L2 & s1 & s2 & l1 & l2 & Fs & Fl).
  pose proof (fresh_edge h1 q r W1) as F. destruct (from_endpoints h1 q r) as (f, h2).
  destruct F as (Ef & D & W2 & K1 & K2 & t1 & t2 & k1 & k2 & Gs & Gl).
  assert (V : forall x, valid h x -> valid h1 x) by (unfold valid; intros; lia).
  assert (V1 : forall x, valid h1 x -> valid h2 x) by (unfold valid; intros; lia).
  assert (Lv : forall x, live h1 x -> live h2 x) by (intros x (h0 & h0'); split; auto).
  cbn zeta.
  assert (St : forall x, start (splice h2 (opposite e) f) x = start h2 x) by reflexivity.
  assert (U1 : start h2 e = p) by (rewrite Gs; [exact s1|apply L1]).
  assert (U2 : start h2 (opposite e) = q) by (rewrite Gs; [exact s2|apply L2]).
  assert (U3 : start h2 f = q) by exact t1. assert (U4 : start h2 (opposite f) = r) by exact t2.
  assert (Nef : opposite e <> f) by (rewrite Ee, Ef, C; cbn; intros x; injection x; lia).
  assert (Ls : left_from_start h2 (opposite e) = opposite e) by (rewrite Gl; [exact l2|apply L2]).
  pose proof (fun x Lx => insert_lfs h2 (opposite e) f x W2 (Lv _ L2) K1 Lx Nef Ls) as I.
  assert (I1 : left_from_start (splice h2 (opposite e) f) e = e).
  { rewrite I by auto. rewrite (proj2 (edge_eqb_neq _ _)), (proj2 (edge_eqb_neq _ _)); [rewrite Gl; [exact l1|apply L1]| |];
      rewrite Ee, ?Ef, ?C; cbn; intros x; injection x; try lia; discriminate. }
  assert (I2 : left_from_start (splice h2 (opposite e) f) (opposite e) = f).
  { rewrite I by auto. rewrite (proj2 (edge_eqb_neq _ _) Nef), (proj2 (edge_eqb_eq _ _) eq_refl). exact k1. }
  assert (I3 : left_from_start (splice h2 (opposite e) f) f = opposite e).
  { rewrite I by auto. rewrite (proj2 (edge_eqb_eq _ _) eq_refl). reflexivity. }
  assert (I4 : left_from_start (splice h2 (opposite e) f) (opposite f) = opposite f).
  { rewrite I by auto. rewrite (proj2 (edge_eqb_neq _ _)), (proj2 (edge_eqb_neq _ _)); [exact k2| |];
      rewrite Ef, ?Ee, ?C; cbn; intros x; injection x; try lia; discriminate. }
  assert (O : forall x, end_ (splice h2 (opposite e) f) (opposite x) = start h2 x) by (intros x; rewrite end_opposite; reflexivity).
  assert (O' : forall x, end_ (splice h2 (opposite e) f) x = start h2 (opposite x)) by reflexivity.
  assert (Wf : wf (splice h2 (opposite e) f)) by (apply splice_wf'; auto).
  split; [|split].
  - split; auto.
    + apply (path_laws ep); assumption.
    + intros d H. apply splice_live. destruct H as [->|[->|[->| ->]]]; auto.
    + intros d [->|[->|[->| ->]]]; rewrite ?opposite_opposite; auto.
    + intros d [->|[->|[->| ->]]]; [rewrite I1|rewrite I2|rewrite I3|rewrite I4]; rewrite ?O, ?O', ?St, ?U1, ?U2, ?U3, ?U4; cbn [path_map mn];
        repeat (destruct point_eq_dec; try congruence); auto 6.
    + intros d [->|[->|[->| ->]]]; rewrite ?O, ?O', ?St, ?U1, ?U2, ?U3, ?U4; cbn [path_map me]; unfold same_edge; auto.
    + intros v a [[(-> & ->)|(-> & ->)]|[(-> & ->)|(-> & ->)]]; [exists e|exists (opposite e)|exists f|exists (opposite f)];
        rewrite ?O, ?O', ?St, ?U1, ?U2, ?U3, ?U4; auto 6.
    + intros d d' [->|[->|[->| ->]]] [->|[->|[->| ->]]]; rewrite ?O, ?O', ?St, ?U1, ?U2, ?U3, ?U4; congruence.
  - split.
    + split; [cbn; lia|]. split; [exact Wf|]. split.
      * intros x Lx _. pose proof Lx as (Vx & Px). assert (Lx2 : live h2 x) by (split; auto). rewrite (I x Lx2).
        rewrite (proj2 (edge_eqb_neq _ _)), (proj2 (edge_eqb_neq _ _)); [rewrite Gl, Fl; auto| |];
          intros ->; rewrite ?Ef, ?Ee, ?C in Vx; unfold valid in Vx; cbn in Vx; lia.
      * intros x Vx. rewrite St, Gs, Fs; auto.
    + intros d [->|[->|[->| ->]]]; rewrite ?Ee, ?Ef, ?C; unfold valid; cbn; lia.
  - rewrite O', St, St, O', U1, U2, U3, U4. auto.
Qed.

Lemma three_spec ep h p q r : wf h -> phi ep p < phi ep q -> phi ep q < phi ep r ->
  let '(t, h') := triangulate_three_points h p q r in exists P m, comp h' P [p; q; r] m ep t /\ fresh h h' P.
Proof.
  intros W Hpq Hqr. pose proof (npq ep p q Hpq) as N1. pose proof (nqr ep q r Hqr) as N2. pose proof (npr ep p q r Hpq Hqr) as N3.
  unfold triangulate_three_points. pose proof (path_rep ep h p q r W Hpq Hqr) as F.
  destruct (from_endpoints h p q) as (e, h1). destruct (from_endpoints h1 q r) as (f, h2).
  cbn zeta in *. set (h3 := splice h2 (opposite e) f) in *. destruct F as (Rp & (Fr & Fv) & s1 & s2 & s3 & s4).
  assert (Mp : mp (path_map p q r) r q = q) by (cbn [path_map mp]; destruct (point_eq_dec r q); congruence).
  assert (Mn : ~ me (path_map p q r) r p) by (cbn [path_map me]; unfold same_edge; intuition congruence).
  pose proof (rep_connect h3 _ _ _ Rp f e (or_intror (or_intror (or_introl eq_refl))) (or_introl eq_refl)) as K. rewrite s1, s2, s3, s4 in K. cbn zeta in K. rewrite Mp in K.
  specialize (K ltac:(congruence) Mn).
  assert (Min : forall x, In x [p; q; r] -> x <> p -> phi ep p < phi ep x) by (intros x [<-|[<-|[<-|[]]]] n; try congruence; ql).
  assert (Max : forall x, In x [p; q; r] -> x <> r -> phi ep x < phi ep r) by (intros x [<-|[<-|[<-|[]]]] n; try congruence; ql).
  assert (Oe : orientation_of h3 e r = angle_orientation p q r) by (unfold orientation_of; rewrite s1, s2; reflexivity).
  rewrite Oe. clear Oe.
  assert (X : forall h', frame h3 (fun d => d = e \/ d = opposite e \/ d = f \/ d = opposite f) h' -> frame h (fun _ => False) h').
  { intros h' (a1 & a2 & a3 & a4). destruct Fr as (b1 & b2 & b3 & b4).
    assert (V : forall x, valid h x -> valid h3 x) by (unfold valid; intros; lia).
    split; [lia|]. split; [exact a2|]. split.
    - intros x Lx _. pose proof Lx as (Vx & Px). rewrite a3; [apply b3; auto|split; auto|]. intros h0. apply (Fv x h0 Vx).
    - intros x Vx. rewrite a4, b4; auto. }
  destruct (angle_orientation p q r) eqn:O.
  - apply orientation_cw in O. unfold right_turn in O.
    specialize (K (triangle_laws ep p q r Hpq Hqr ltac:(intros x; rewrite x in O; ql))).
    destruct (connect h3 f e) as (g, h4). destruct K as (K1 & K2 & K3 & K4 & K5).
    exists (fun d => (d = e \/ d = opposite e \/ d = f \/ d = opposite f) \/ d = g \/ d = opposite g), (triangle_map p q r). split.
    + split; [exact K1|apply (triangle_DT ep); auto; intros x; rewrite x in O; ql| |].
      * cbn [left_side]. split; [tauto|]. rewrite start_opposite, end_opposite, K4, K5. split; [|split; [exact Min|]].
        -- cbn [triangle_map ins me]. unfold same_edge. auto.
        -- intros x [<-|[<-|[<-|[]]]]; [rewrite cross_aba; ql| |rewrite cross_abb; ql]. rewrite cross_swap. ql.
      * cbn [right_side]. split; [tauto|]. rewrite K4, K5. split; [|split; [exact Max|]].
        -- cbn [triangle_map ins me]. unfold same_edge. auto.
        -- intros x [<-|[<-|[<-|[]]]]; [rewrite cross_abb; ql| |rewrite cross_aba; ql].
           assert (z : cross r p q = cross p q r) by (unfold cross; ring). rewrite z. ql.
    + split; [apply X, K2|]. intros d [h0|[->| ->]]; [apply Fv, h0| |]; intros v; apply K3.
      * destruct Fr as (b1 & _). unfold valid in *; lia.
      * destruct Fr as (b1 & _). apply (proj1 (valid_opposite _ _)) in v. unfold valid in *; lia.
  - apply orientation_col in O. unfold collinear in O.
    exists (fun d => d = e \/ d = opposite e \/ d = f \/ d = opposite f), (path_map p q r). split; [|split; [exact Fr|exact Fv]].
    split; [exact Rp|apply (path_DT ep); auto| |].
    + cbn [left_side]. split; [tauto|]. rewrite s1, s2. split; [|split; [exact Min|]].
      * cbn [path_map me]. unfold same_edge. auto.
      * intros x [<-|[<-|[<-|[]]]]; [rewrite cross_aba; ql|rewrite cross_abb; ql|rewrite O; ql].
    + cbn [right_side]. split; [tauto|]. rewrite start_opposite, end_opposite, s3, s4. split; [|split; [exact Max|]].
      * cbn [path_map me]. unfold same_edge. auto.
      * intros x [<-|[<-|[<-|[]]]]; [|rewrite cross_abb; ql|rewrite cross_aba; ql].
        assert (z : cross r q p = - cross p q r) by (unfold cross; ring). rewrite z, O. ql.
  - apply orientation_ccw in O. unfold left_turn in O.
    specialize (K (triangle_laws ep p q r Hpq Hqr ltac:(intros x; rewrite x in O; ql))).
    destruct (connect h3 f e) as (g, h4). destruct K as (K1 & K2 & K3 & K4 & K5).
    destruct K2 as (c1 & c2 & c3 & c4).
    assert (Lv : forall d, (d = e \/ d = opposite e \/ d = f \/ d = opposite f) -> start h4 d = start h3 d).
    { intros d Hd. apply c4, (rp_live _ _ _ _ Rp), Hd. }
    exists (fun d => (d = e \/ d = opposite e \/ d = f \/ d = opposite f) \/ d = g \/ d = opposite g), (triangle_map p q r). split.
    + split; [exact K1|apply (triangle_DT ep); auto; intros x; rewrite x in O; ql| |].
      * cbn [left_side]. split; [tauto|]. unfold end_. rewrite !Lv by auto. unfold end_ in s2. rewrite s1, s2. split; [|split; [exact Min|]].
        -- cbn [triangle_map ins path_map me]. unfold same_edge. auto.
        -- intros x [<-|[<-|[<-|[]]]]; [rewrite cross_aba; ql|rewrite cross_abb; ql|ql].
      * cbn [right_side]. split; [tauto|]. unfold end_. rewrite opposite_opposite. rewrite !Lv by auto. unfold end_ in s4. rewrite s3, s4. split; [|split; [exact Max|]].
        -- cbn [triangle_map ins path_map me]. unfold same_edge. auto.
        -- intros x [<-|[<-|[<-|[]]]]; [|rewrite cross_abb; ql|rewrite cross_aba; ql].
           assert (z : cross r q p = - cross p q r) by (unfold cross; ring). rewrite z. ql.
    + split; [apply X; split; [exact c1|]; split; [exact c2|]; split; [exact c3|exact c4]|]. intros d [h0|[->| ->]]; [apply Fv, h0| |]; intros v; apply K3.
      * destruct Fr as (b1 & _). unfold valid in *; lia.
      * destruct Fr as (b1 & _). apply (proj1 (valid_opposite _ _)) in v. unfold valid in *; lia.
Qed.
