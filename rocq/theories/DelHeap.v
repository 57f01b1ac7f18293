(** Maps in the heap of edges: what [delete] and [connect] do to them. *)
From Coq Require Import List Lia.
From Verif Require Import Base Geometry Spec QcTac QcFast GeomProofs QuadEdge QuadProofs DelGeo DelCyc DelMap DelOps DelMerge DelStart.
Import ListNotations.
Open Scope nat_scope.

Notation lfs := left_from_start (only parsing).
Notation rfs := right_from_start (only parsing).

Record rep (h : heap) (P : edge -> Prop) (S : list point) (m : map) : Prop := Rep {
  rp_wf : wf h;
  rp_laws : laws S m;
  rp_live : forall d, P d -> live h d;
  rp_opp : forall d, P d -> P (opposite d);
  rp_lfs : forall d, P d -> P (lfs h d) /\ start h (lfs h d) = start h d /\ end_ h (lfs h d) = mn m (start h d) (end_ h d);
  rp_me : forall d, P d -> me m (start h d) (end_ h d);
  rp_dart : forall v a, me m v a -> exists d, P d /\ start h d = v /\ end_ h d = a;
  rp_uniq : forall d d', P d -> P d' -> start h d = start h d' -> end_ h d = end_ h d' -> d = d' }.

Lemma end_opposite h e : end_ h (opposite e) = start h e.
Proof. unfold end_. rewrite opposite_opposite. reflexivity. Qed.
Lemma start_opposite h e : start h (opposite e) = end_ h e.
Proof. reflexivity. Qed.

Section R.
Context (h : heap) (P : edge -> Prop) (S : list point) (m : map) (H : rep h P S m).
Lemma rep_ne d : P d -> end_ h d <> start h d.
Proof. intros Hd. apply (l_ne _ _ (rp_laws _ _ _ _ H)), (rp_me _ _ _ _ H), Hd. Qed.
Lemma rep_rfs d : P d -> P (rfs h d) /\ start h (rfs h d) = start h d /\ end_ h (rfs h d) = mp m (start h d) (end_ h d).
Proof.
  intros Hd. pose proof (rp_me _ _ _ _ H _ Hd) as E. destruct (l_prev _ _ (rp_laws _ _ _ _ H) _ _ E) as (E1 & E2).
  destruct (rp_dart _ _ _ _ H _ _ E1) as (d0 & H0 & s0 & e0). destruct (rp_lfs _ _ _ _ H _ H0) as (H1 & s1 & e1).
  assert (X : lfs h d0 = d).
  { apply (rp_uniq _ _ _ _ H); auto; [congruence|]. rewrite e1, s0, e0. exact E2. }
  assert (Y : rfs h d = d0).
  { rewrite <- X. apply rfs_lfs; [apply (rp_wf _ _ _ _ H)|apply (rp_live _ _ _ _ H _ H0)]. }
  rewrite Y. auto.
Qed.
Lemma rep_lfs_of d v a : P d -> start h d = v -> end_ h d = a ->
  P (lfs h d) /\ start h (lfs h d) = v /\ end_ h (lfs h d) = mn m v a.
Proof. intros Hd <- <-. apply (rp_lfs _ _ _ _ H), Hd. Qed.
Lemma rep_rfs_of d v a : P d -> start h d = v -> end_ h d = a ->
  P (rfs h d) /\ start h (rfs h d) = v /\ end_ h (rfs h d) = mp m v a.
Proof. intros Hd <- <-. apply rep_rfs, Hd. Qed.
Lemma rep_fresh d : P d -> d <> (h_count h, R0) /\ d <> opposite (h_count h, R0).
Proof.
  intros Hd. destruct (rp_live _ _ _ _ H _ Hd) as (V & _). unfold valid in V. split; intros ->; cbn in V; lia.
Qed.

(** The other parts of the heap do not change. *)
Definition frame (h' : heap) : Prop := h_count h <= h_count h' /\ wf h' /\
  (forall x, live h x -> ~ P x -> lfs h' x = lfs h x) /\ (forall x, valid h x -> start h' x = start h x).

Lemma rep_delete e : P e ->
  rep (delete h e) (fun d => P d /\ d <> e /\ d <> opposite e) S (del m (start h e) (end_ h e)).
Proof.
  intros He. set (u := start h e). set (w := end_ h e). pose proof (rp_me _ _ _ _ H _ He) as Euw. fold u w in Euw.
  pose proof (rep_ne _ He) as Nwu. fold u w in Nwu.
  assert (St : forall x, start (delete h e) x = start h x) by (intros; unfold delete; rewrite !splice_start; reflexivity).
  assert (En : forall x, end_ (delete h e) x = end_ h x) by (intros; apply St).
  pose proof (rp_wf _ _ _ _ H) as Wf. pose proof (rp_live _ _ _ _ H _ He) as Le.
  pose proof (rp_opp _ _ _ _ H _ He) as Ho.
  assert (Dec : forall d, P d -> start h d = u -> end_ h d = w -> d = e) by (intros; apply (rp_uniq _ _ _ _ H); auto).
  assert (Dec' : forall d, P d -> start h d = w -> end_ h d = u -> d = opposite e).
  { intros. apply (rp_uniq _ _ _ _ H); auto. rewrite end_opposite. auto. }
  split.
  - apply delete_wf; auto.
  - apply laws_del; [apply (rp_laws _ _ _ _ H)|exact Euw].
  - intros d (Hd & _). apply (rp_live _ _ _ _ H _ Hd).
  - intros d (Hd & n1 & n2). split; [apply (rp_opp _ _ _ _ H), Hd|]. split; intros f.
    + apply n2. rewrite <- f, opposite_opposite. reflexivity.
    + apply n1, opposite_inj, f.
  - intros d (Hd & n1 & n2). rewrite St, En, St, En. rewrite delete_lfs by (auto; apply (rp_live _ _ _ _ H _ Hd)).
    destruct (rp_lfs _ _ _ _ H _ Hd) as (F1 & F2 & F3). destruct (rp_lfs _ _ _ _ H _ He) as (G1 & G2 & G3). fold u w in G2, G3.
    destruct (rp_lfs _ _ _ _ H _ Ho) as (K1 & K2 & K3). rewrite start_opposite in K2, K3. rewrite end_opposite in K3. fold u w in K2, K3.
    assert (Ie : lfs h d = e -> lfs h e <> e).
    { intros f g. apply n1, (lfs_inj h Wf); [apply (rp_live _ _ _ _ H _ Hd)|apply Le|congruence]. }
    assert (Io : lfs h d = opposite e -> lfs h (opposite e) <> opposite e).
    { intros f g. apply n2, (lfs_inj h Wf); [apply (rp_live _ _ _ _ H _ Hd)|apply Le|congruence]. }
    assert (E1 : edge_eqb d e = false) by (apply edge_eqb_neq, n1).
    assert (E2 : edge_eqb d (opposite e) = false) by (apply edge_eqb_neq, n2).
    assert (E3 : edge_eqb (opposite e) e = false) by (apply edge_eqb_neq, opposite_neq).
    assert (E4 : edge_eqb (lfs h (opposite e)) e = false).
    { apply edge_eqb_neq. intros f. rewrite f in K2. apply Nwu. auto. }
    unfold skip. rewrite E2, E1, E3, E4. cbn [del mn].
    destruct (edge_eqb (lfs h d) e) eqn:E5; [apply edge_eqb_eq in E5|apply edge_eqb_neq in E5].
    + assert (su : start h d = u) by (rewrite E5 in F2; auto).
      assert (mw : mn m u (end_ h d) = w) by (rewrite <- su, <- F3, E5; reflexivity).
      assert (E6 : edge_eqb (lfs h e) (opposite e) = false).
      { apply edge_eqb_neq. intros f. rewrite f in G2. apply Nwu. exact G2. }
      rewrite E6. split.
      * split; [exact G1|]. split; [apply Ie, E5|]. apply edge_eqb_neq, E6.
      * rewrite su. destruct (point_eq_dec u u) as [_|n]; [|congruence]. unfold skip1. rewrite mw.
        destruct (point_eq_dec w w) as [_|n]; [|congruence]. auto.
    + destruct (edge_eqb (lfs h d) (opposite e)) eqn:E6; [apply edge_eqb_eq in E6|apply edge_eqb_neq in E6].
      * assert (sw : start h d = w) by (rewrite E6 in F2; auto).
        assert (mu : mn m w (end_ h d) = u) by (rewrite <- sw, <- F3, E6; apply end_opposite).
        split.
        -- split; [exact K1|]. split; [apply edge_eqb_neq, E4|apply Io, E6].
        -- rewrite sw. destruct (point_eq_dec w u) as [f|_]; [congruence|]. destruct (point_eq_dec w w) as [_|n]; [|congruence].
           unfold skip1. rewrite mu. destruct (point_eq_dec u u) as [_|n]; [|congruence]. auto.
      * split; [auto|]. split; [exact F2|]. rewrite F3. unfold skip1.
        destruct (point_eq_dec (start h d) u) as [f|f].
        -- destruct (point_eq_dec (mn m (start h d) (end_ h d)) w) as [g|g]; [|reflexivity]. exfalso. apply E5, Dec; auto; congruence.
        -- destruct (point_eq_dec (start h d) w) as [f'|f']; [|reflexivity].
           destruct (point_eq_dec (mn m (start h d) (end_ h d)) u) as [g|g]; [|reflexivity]. exfalso. apply E6, Dec'; auto; congruence.
  - intros d (Hd & n1 & n2). rewrite St, En. split; [apply (rp_me _ _ _ _ H), Hd|]. intros [(s & t)|(s & t)]; auto.
  - intros v a (Ha & N). destruct (rp_dart _ _ _ _ H _ _ Ha) as (d & Hd & s & t). exists d. rewrite St, En. repeat split; auto.
    + intros ->. apply N. left. auto.
    + intros ->. apply N. right. rewrite end_opposite in t. split; [rewrite <- s|rewrite <- t]; reflexivity.
  - intros d d' (Hd & _) (Hd' & _). rewrite !St, !En. apply (rp_uniq _ _ _ _ H); auto.
Qed.
Lemma delete_frame e : P e -> frame (delete h e).
Proof.
  intros He. pose proof (rp_wf _ _ _ _ H) as Wf. pose proof (rp_live _ _ _ _ H _ He) as Le.
  split; [unfold delete; rewrite !splice_count; lia|]. split; [apply delete_wf; auto|]. split.
  - intros x Lx Nx. rewrite delete_lfs by auto. unfold skip.
    assert (Nf : forall d, P d -> lfs h x <> d).
    { intros d Hd f. apply Nx. rewrite <- (rfs_lfs h Wf x (proj1 Lx)), f. apply rep_rfs, Hd. }
    assert (Nd : forall d, P d -> x <> d) by (intros d Hd ->; auto).
    rewrite (proj2 (edge_eqb_neq _ _) (Nd _ He)), (proj2 (edge_eqb_neq _ _) (Nd _ (rp_opp _ _ _ _ H _ He))).
    rewrite (proj2 (edge_eqb_neq _ _) (Nf _ He)), (proj2 (edge_eqb_neq _ _) (Nf _ (rp_opp _ _ _ _ H _ He))). reflexivity.
  - intros x _. unfold delete. rewrite !splice_start. reflexivity.
Qed.

Lemma rep_connect e o : P e -> P o -> end_ h e <> start h o -> ~ me m (end_ h e) (start h o) ->
  let a := mp m (end_ h e) (start h e) in
  laws S (ins m (end_ h e) (start h o) a (end_ h o)) ->
  let '(r, h') := connect h e o in
  rep h' (fun d => P d \/ d = r \/ d = opposite r) S (ins m (end_ h e) (start h o) a (end_ h o)) /\
  frame h' /\ ~ valid h r /\ start h' r = end_ h e /\ end_ h' r = start h o.
Proof.
  intros He Ho. set (u := end_ h e). set (w := start h o). set (b := end_ h o). intros Nuw NE a Law.
  pose proof (rp_wf _ _ _ _ H) as Wf.
  pose proof (connect_wf h e o Wf (rp_live _ _ _ _ H _ He) (rp_live _ _ _ _ H _ Ho)) as C.
  destruct (connect h e o) as (r & h'). destruct C as (W' & -> & Hc & F & Fr & Fo & Sr & So & Ss).
  set (r := (h_count h, R0)) in *. fold u in Sr. fold w in So.
  set (c := left_from_end h e) in *.
  destruct (rep_rfs_of (opposite e) u (start h e) (rp_opp _ _ _ _ H _ He) eq_refl (end_opposite h e)) as (Pc & Sc & Ec).
  change (rfs h (opposite e)) with c in Pc, Sc, Ec. fold a in Ec.
  assert (Noc : o <> c) by (intros f; apply Nuw; rewrite <- Sc; unfold w; rewrite f; reflexivity).
  rewrite (proj2 (edge_eqb_neq _ _) Noc) in Fo.
  assert (Ps : forall d, P d -> start h' d = start h d) by (intros d Hd; apply Ss, (rp_live _ _ _ _ H _ Hd)).
  assert (Pe : forall d, P d -> end_ h' d = end_ h d) by (intros d Hd; apply Ps, (rp_opp _ _ _ _ H), Hd).
  assert (Er : end_ h' r = w) by exact So. assert (Eo : end_ h' (opposite r) = u) by (rewrite end_opposite; exact Sr).
  assert (Lr : live h' r) by (split; [unfold valid; rewrite Hc; cbn; lia|reflexivity]).
  assert (Fre : forall d, P d -> d <> r /\ d <> opposite r) by (apply rep_fresh).
  destruct (rp_lfs _ _ _ _ H _ Pc) as (Qc1 & Qc2 & Qc3). destruct (rp_lfs _ _ _ _ H _ Ho) as (Qo1 & Qo2 & Qo3).
  rewrite Sc in Qc2, Qc3. rewrite Ec in Qc3. fold w in Qo2, Qo3. fold b in Qo3.
  split; [split|split; [split; [lia|split; [exact W'|split]]|split; [|auto]]].
  - exact W'.
  - exact Law.
  - intros d [Hd|[->| ->]]; [|exact Lr|apply live_opposite, Lr].
    destruct (rp_live _ _ _ _ H _ Hd) as (V & Pd). split; [unfold valid in *; lia|exact Pd].
  - intros d [Hd|[->| ->]]; [left; apply (rp_opp _ _ _ _ H), Hd|auto|rewrite opposite_opposite; auto].
  - cbn [ins mn]. intros d [Hd|[->| ->]].
    + destruct (rp_lfs _ _ _ _ H _ Hd) as (D1 & D2 & D3).
      rewrite (Ps d Hd), (Pe d Hd), (F d (rp_live _ _ _ _ H _ Hd)). unfold ins1.
      destruct (edge_eqb d o) eqn:E1; [apply edge_eqb_eq in E1|apply edge_eqb_neq in E1].
      * subst d. fold w. fold b. rewrite Eo. split; [auto|]. split; [exact So|].
        destruct (point_eq_dec w u) as [f|_]; [congruence|]. destruct (point_eq_dec w w) as [_|n]; [|congruence].
        destruct (point_eq_dec b u) as [f|_]; [exfalso|destruct (point_eq_dec b b); congruence].
        apply NE. rewrite <- f. apply (l_sym _ _ (rp_laws _ _ _ _ H)), (rp_me _ _ _ _ H), Ho.
      * destruct (edge_eqb d c) eqn:E2; [apply edge_eqb_eq in E2|apply edge_eqb_neq in E2].
        -- subst d. rewrite Sc, Ec, Er. split; [auto|]. split; [exact Sr|].
           destruct (point_eq_dec u u) as [_|n]; [|congruence].
           destruct (point_eq_dec a w) as [f|_]; [exfalso|destruct (point_eq_dec a a); congruence].
           apply NE. rewrite <- f, <- Ec, <- Sc. apply (rp_me _ _ _ _ H), Pc.
        -- rewrite (Ps _ D1), (Pe _ D1). split; [auto|]. split; [exact D2|]. rewrite D3.
           destruct (point_eq_dec (start h d) u) as [f|f].
           ++ destruct (point_eq_dec (end_ h d) w) as [g|_].
              { exfalso. apply NE. rewrite <- f, <- g. apply (rp_me _ _ _ _ H), Hd. }
              destruct (point_eq_dec (end_ h d) a) as [g|_]; [|reflexivity].
              exfalso. apply E2, (rp_uniq _ _ _ _ H); auto; congruence.
           ++ destruct (point_eq_dec (start h d) w) as [f'|_]; [|reflexivity].
              destruct (point_eq_dec (end_ h d) u) as [g|_].
              { exfalso. apply NE. apply (l_sym _ _ (rp_laws _ _ _ _ H)). rewrite <- f', <- g. apply (rp_me _ _ _ _ H), Hd. }
              destruct (point_eq_dec (end_ h d) b) as [g|_]; [|reflexivity].
              exfalso. apply E1, (rp_uniq _ _ _ _ H); auto.
    + rewrite Fr, Sr, Er, (Ps _ Qc1), (Pe _ Qc1). split; [auto|]. split; [exact Qc2|]. rewrite Qc3.
      destruct (point_eq_dec u u) as [_|n]; [|congruence]. unfold ins1. destruct (point_eq_dec w w) as [_|n]; [reflexivity|congruence].
    + rewrite Fo, So, Eo, (Ps _ Qo1), (Pe _ Qo1). split; [auto|]. split; [exact Qo2|]. rewrite Qo3.
      destruct (point_eq_dec w u) as [f|_]; [congruence|]. destruct (point_eq_dec w w) as [_|n]; [|congruence].
      unfold ins1. destruct (point_eq_dec u u) as [_|n]; [reflexivity|congruence].
  - intros d [Hd|[->| ->]].
    + left. rewrite (Ps d Hd), (Pe d Hd). apply (rp_me _ _ _ _ H), Hd.
    + right. left. auto.
    + right. right. auto.
  - intros v x [h1|[(-> & ->)|(-> & ->)]].
    + destruct (rp_dart _ _ _ _ H _ _ h1) as (d & Hd & s & t). exists d. rewrite (Ps d Hd), (Pe d Hd). auto.
    + exists r. auto.
    + exists (opposite r). auto.
  - assert (X1 : forall d, P d -> start h' d = u -> end_ h' d = w -> False).
    { intros d Hd s t. rewrite (Ps d Hd) in s. rewrite (Pe d Hd) in t. apply NE. rewrite <- s, <- t. apply (rp_me _ _ _ _ H), Hd. }
    assert (X2 : forall d, P d -> start h' d = w -> end_ h' d = u -> False).
    { intros d Hd s t. rewrite (Ps d Hd) in s. rewrite (Pe d Hd) in t. apply NE, (l_sym _ _ (rp_laws _ _ _ _ H)). rewrite <- s, <- t. apply (rp_me _ _ _ _ H), Hd. }
    intros d d' [Hd|[->| ->]] [Hd'|[->| ->]]; rewrite ?Sr, ?So, ?Er, ?Eo; intros s t; try reflexivity; try congruence;
      try solve [exfalso; first [apply (X1 d); assumption|apply (X2 d); assumption|apply (X1 d'); auto; fail|apply (X2 d'); auto; fail]].
    rewrite (Ps d Hd), (Ps d' Hd') in s. rewrite (Pe d Hd), (Pe d' Hd') in t. apply (rp_uniq _ _ _ _ H); auto.
  - intros x Lx Nx. rewrite F by exact Lx.
    rewrite (proj2 (edge_eqb_neq x o)) by (intros ->; auto). rewrite (proj2 (edge_eqb_neq x c)) by (intros ->; auto). reflexivity.
  - exact Ss.
  - unfold valid. cbn. lia.
Qed.
End R.

Lemma rep_frame h P Q S m h' : rep h Q S m -> frame h P h' -> (forall d, Q d -> ~ P d) -> rep h' Q S m.
Proof.
  intros H (Fc & Fw & Fl & Fs) D. pose proof (rp_live _ _ _ _ H) as Lv.
  assert (Ps : forall d, Q d -> start h' d = start h d) by (intros d Hd; apply Fs, (Lv _ Hd)).
  assert (Pe : forall d, Q d -> end_ h' d = end_ h d) by (intros d Hd; apply Ps, (rp_opp _ _ _ _ H), Hd).
  split.
  - exact Fw.
  - apply (rp_laws _ _ _ _ H).
  - intros d Hd. destruct (Lv _ Hd) as (V & p). split; [unfold valid in *; lia|exact p].
  - apply (rp_opp _ _ _ _ H).
  - intros d Hd. destruct (rp_lfs _ _ _ _ H _ Hd) as (D1 & D2 & D3).
    rewrite (Fl d (Lv _ Hd) (D _ Hd)), (Ps d Hd), (Pe d Hd), (Ps _ D1), (Pe _ D1). auto.
  - intros d Hd. rewrite (Ps d Hd), (Pe d Hd). apply (rp_me _ _ _ _ H), Hd.
  - intros v a h1. destruct (rp_dart _ _ _ _ H _ _ h1) as (d & Hd & s & t). exists d. rewrite (Ps d Hd), (Pe d Hd). auto.
  - intros d d' Hd Hd'. rewrite (Ps d Hd), (Ps d' Hd'), (Pe d Hd), (Pe d' Hd'). apply (rp_uniq _ _ _ _ H); auto.
Qed.
(** Later parts: new edges or edges of the part, no Delaunay edge being lost. *)
Definition ext (S : list point) (h : heap) (P : edge -> Prop) (h' : heap) (P' : edge -> Prop) : Prop :=
  frame h P h' /\ (forall d, P' d -> P d \/ ~ valid h d) /\
  (forall d, valid h d -> P d -> DE S (start h d) (end_ h d) -> P' d).
Lemma ext_refl S h P : wf h -> ext S h P h P.
Proof. intros W. split; [|auto]. split; [lia|auto]. Qed.
Lemma ext_trans S h P h' P' h'' P'' : ext S h P h' P' -> ext S h' P' h'' P'' -> ext S h P h'' P''.
Proof.
  intros ((c1 & w1 & l1 & s1) & e1 & k1) ((c2 & w2 & l2 & s2) & e2 & k2). split; [|split].
  - split; [lia|]. split; [exact w2|]. split.
    + intros x Lx Nx. rewrite <- l1 by auto. apply l2.
      * destruct Lx. split; [unfold valid in *; lia|auto].
      * intros h0. destruct (e1 _ h0) as [h1|h1]; [auto|]. apply h1, Lx.
    + intros x V. rewrite <- s1 by auto. apply s2. unfold valid in *. lia.
  - intros d Hd. destruct (e2 _ Hd) as [h1|h1]; [auto|]. right. intros V. apply h1. unfold valid in *. lia.
  - intros d V Hd D. apply k2; [unfold valid in *; lia|auto|]. unfold end_. rewrite !s1; auto.
Qed.
Lemma rep_union h P Q L R mL mR (ep tau : Qc) :
  (forall q, In q L -> (phi ep q < tau)%Qc) -> (forall q, In q R -> (tau < phi ep q)%Qc) ->
  rep h P L mL -> rep h Q R mR -> rep h (fun d => P d \/ Q d) (L ++ R) (union L mL mR).
Proof.
  intros HL HR H K. pose proof (rp_laws _ _ _ _ H) as WL. pose proof (rp_laws _ _ _ _ K) as WR.
  assert (IL : forall d, P d -> In (start h d) L) by (intros d Hd; apply (l_in _ _ WL _ _ (rp_me _ _ _ _ H _ Hd))).
  assert (IR : forall d, Q d -> In (start h d) R) by (intros d Hd; apply (l_in _ _ WR _ _ (rp_me _ _ _ _ K _ Hd))).
  split.
  - apply (rp_wf _ _ _ _ H).
  - apply (union_laws L R ep tau); auto.
  - intros d [Hd|Hd]; [apply (rp_live _ _ _ _ H _ Hd)|apply (rp_live _ _ _ _ K _ Hd)].
  - intros d [Hd|Hd]; [left; apply (rp_opp _ _ _ _ H _ Hd)|right; apply (rp_opp _ _ _ _ K _ Hd)].
  - intros d [Hd|Hd].
    + destruct (union_L L R ep tau mL mR HL HR WR _ (IL d Hd)) as (-> & _). destruct (rp_lfs _ _ _ _ H _ Hd) as (? & ? & ?). auto.
    + destruct (union_R L R ep tau mL mR HL HR WL _ (IR d Hd)) as (-> & _). destruct (rp_lfs _ _ _ _ K _ Hd) as (? & ? & ?). auto.
  - intros d [Hd|Hd]; [left; apply (rp_me _ _ _ _ H _ Hd)|right; apply (rp_me _ _ _ _ K _ Hd)].
  - intros v a [h1|h1].
    + destruct (rp_dart _ _ _ _ H _ _ h1) as (d & Hd & s). exists d. auto.
    + destruct (rp_dart _ _ _ _ K _ _ h1) as (d & Hd & s). exists d. auto.
  - intros d d' [Hd|Hd] [Hd'|Hd'] s t.
    + apply (rp_uniq _ _ _ _ H); auto.
    + exfalso. apply (apart L R ep tau HL HR (start h d)); [auto|]. rewrite s. auto.
    + exfalso. apply (apart L R ep tau HL HR (start h d)); [|auto]. rewrite s. auto.
    + apply (rp_uniq _ _ _ _ K); auto.
Qed.

(** Equal maps. *)
Definition meq (m m' : map) : Prop := (forall v a, me m v a <-> me m' v a) /\
  (forall v a, mn m v a = mn m' v a) /\ (forall v a, mp m v a = mp m' v a).
Lemma laws_meq S m m' : meq m m' -> laws S m -> laws S m'.
Proof.
  intros (E & N & V) [W1 W2 W3 W4 W5 W6 W7 W8]. split.
  - intros v a h. apply E. apply E in h. auto.
  - intros v a h. apply E in h. auto.
  - intros v a h. apply E in h. eauto.
  - intros v a h. apply E in h. rewrite <- N, <- V, <- E. auto.
  - intros v a h. apply E in h. rewrite <- N, <- V, <- E. auto.
  - intros v a x h h'. apply E in h, h'. rewrite <- N. auto.
  - intros v a q h. apply E in h. eauto.
  - intros a b c d h h'. apply E in h, h'. auto.
Qed.
Lemma rep_meq h P S m m' : meq m m' -> rep h P S m -> rep h P S m'.
Proof.
  intros M H. pose proof M as (E & N & V). split.
  - apply (rp_wf _ _ _ _ H).
  - apply (laws_meq S m m' M), (rp_laws _ _ _ _ H).
  - apply (rp_live _ _ _ _ H).
  - apply (rp_opp _ _ _ _ H).
  - intros d Hd. rewrite <- N. apply (rp_lfs _ _ _ _ H), Hd.
  - intros d Hd. apply E, (rp_me _ _ _ _ H), Hd.
  - intros v a h0. apply E in h0. apply (rp_dart _ _ _ _ H), h0.
  - apply (rp_uniq _ _ _ _ H).
Qed.
Lemma ins_swap m u w a b : u <> w -> meq (ins m u w a b) (ins m w u b a).
Proof.
  intros N. split; [|split]; intros v x; cbn [ins me mn mp].
  - unfold same_edge. tauto.
  - destruct (point_eq_dec v u), (point_eq_dec v w); congruence || reflexivity.
  - destruct (point_eq_dec v u), (point_eq_dec v w); congruence || reflexivity.
Qed.
