(** The loops of the merge in the heap of edges. *)
From Coq Require Import List Lia.
From Verif Require Import Base Geometry Spec QcTac QcFast GeomProofs LoopProofs QuadEdge QuadProofs Triangulation
  DelGeo DelCyc DelMap DelOps DelMir DelCand DelMerge DelDone DelTangent DelStart DelHeap.
From Verif Require TriProofs.
Import ListNotations.
Open Scope Qc_scope.

Lemma cw_iff v f s : orientation_eqb (angle_orientation v f s) CLOCKWISE = true <-> cross v f s < 0.
Proof.
  unfold angle_orientation. rewrite Qclt_alt. destruct (cross v f s ?= 0); cbn; split; congruence || auto.
Qed.
Lemma ccw_iff v f s : orientation_eqb (angle_orientation v f s) COUNTERCLOCKWISE = true <-> 0 < cross v f s.
Proof.
  unfold angle_orientation. destruct (cross v f s ?= 0) eqn:E; cbn; split; intros H; try congruence.
  - exfalso. apply Qceq_alt in E. rewrite E in H. ql.
  - exfalso. apply Qclt_alt in E. ql.
  - apply Qcgt_alt in E. exact E.
Qed.
Lemma inc_iff a b c d : in_circle_interior d a b c = true <-> 0 < inc a b c d.
Proof. unfold in_circle_interior. apply qltb_lt. Qed.
Lemma bool_false (b : bool) (Q : Prop) : (b = true <-> Q) -> b = false -> ~ Q.
Proof. intros H e q. apply H in q. congruence. Qed.

Section M.
Context (L R : list point) (ep tau : Qc) (mL mR : map).
Context (HL : forall q, In q L -> phi ep q < tau) (HR : forall q, In q R -> tau < phi ep q).
Context (TL : DT L mL) (TR : DT R mR).
Notation S := (L ++ R).

Record state (h : heap) (P : edge -> Prop) (base : edge) (m : map) (l r : point) (t : list (point * point)) : Prop := St {
  s_rep : rep h P S m;
  s_inv : inv L R mL mR m l r t;
  s_base : P base;
  s_start : start h base = r;
  s_end : end_ h base = l }.

Lemma left_sndel m l r t : inv L R mL mR m l r t -> goes_left m l r -> sndel S l (mn m l r).
Proof.
  intros I (g1 & g2 & g3). destruct (inv_base L R mL mR m l r t I) as (Hl & Hr & E1 & E2 & _).
  apply (deleted_sndel S m (i_laws _ _ _ _ _ _ _ _ I)); auto.
Qed.
Lemma right_sndel m l r t : inv L R mL mR m l r t -> goes_right m l r -> sndel S r (mp m r l).
Proof.
  intros I (g1 & g2 & g3). destruct (inv_base L R mL mR m l r t I) as (Hl & Hr & E1 & E2 & _).
  pose proof (deleted_sndel (List.map mir S) (mirm m) (laws_mir _ _ (i_laws _ _ _ _ _ _ _ _ I)) (mir r) (mir l)) as K.
  cbn [mirm me mn mp] in K. rewrite !mir_mir in K.
  apply sndel_mir, K; auto.
  - rewrite cross_mir, cross_flip. ql.
  - rewrite cross_mir, cross_flip. ql.
  - rewrite inc_mir, inc_swap. ql.
Qed.
Lemma kept h (P : edge -> Prop) e u w : sndel S u w -> start h e = u -> end_ h e = w ->
  forall d, P d -> DE S (start h d) (end_ h d) -> P d /\ d <> e /\ d <> opposite e.
Proof.
  intros D <- <- d Hd De. split; [exact Hd|]. split; intros ->.
  - apply (DE_sndel S _ _ De D).
  - rewrite end_opposite in De. apply (DE_sndel S _ _ De), sndel_sym, D.
Qed.
Lemma left_spec fuel h base P m l r t lc h' : state h P base m l r t -> to_left_candidate fuel h base = Ok (lc, h') ->
  exists P' m', state h' P' base m' l r t /\ ext S h P h' P' /\ ~ goes_left m' l r /\
    match lc with
    | None => ~ 0 < cross l r (mn m' l r)
    | Some c => P' c /\ start h' c = l /\ end_ h' c = mn m' l r /\ 0 < cross l r (mn m' l r)
    end.
Proof.
  intros St E. unfold to_left_candidate in E. pose proof St as [Hr Hi Hb Hs He].
  destruct (rep_lfs_of h P S m Hr (opposite base) l r) as (X1 & X2 & X3); [apply (rp_opp _ _ _ _ Hr), Hb|exact He|rewrite end_opposite; exact Hs|].
  set (res := left_from_start h (opposite base)) in *.
  assert (CW : forall g x, start g base = r -> end_ g base = l -> orientation_eqb (orientation_of g base x) CLOCKWISE = true <-> 0 < cross l r x).
  { intros g x e1 e2. unfold orientation_of. rewrite e1, e2, cw_iff, cross_flip. split; intros; ql. }
  destruct (orientation_eqb (orientation_of h base (end_ h res)) CLOCKWISE) eqn:O; cbn [negb] in E.
  2:{ injection E as <- <-. exists P, m. split; [exact St|]. split; [apply ext_refl, (rp_wf _ _ _ _ Hr)|].
      apply (bool_false _ _ (CW h _ Hs He)) in O. rewrite X3 in O. split; [|exact O]. intros (g & _). auto. }
  apply (CW h _ Hs He) in O. rewrite X3 in O.
  revert E.
  apply (while_inv (fun st : edge * heap => exists P' m', state (snd st) P' base m' l r t /\ ext S h P (snd st) P' /\
           P' (fst st) /\ start (snd st) (fst st) = l /\ end_ (snd st) (fst st) = mn m' l r /\ 0 < cross l r (mn m' l r))
         (fun x => x = Ok (lc, h') -> exists P' m', state h' P' base m' l r t /\ ext S h P h' P' /\ ~ goes_left m' l r /\
    match lc with
    | None => ~ 0 < cross l r (mn m' l r)
    | Some c => P' c /\ start h' c = l /\ end_ h' c = mn m' l r /\ 0 < cross l r (mn m' l r)
    end)).
  - intros (res', g) (P' & m' & St' & Ex & Y1 & Y2 & Y3 & Y4). cbn [fst snd] in *.
    pose proof St' as [Hr' Hi' Hb' Hs' He'].
    destruct (rep_lfs_of g P' S m' Hr' res' l (mn m' l r) Y1 Y2 Y3) as (Z1 & Z2 & Z3).
    destruct (in_circle_interior _ _ _ _ && orientation_eqb _ _) eqn:B.
    + apply andb_prop in B as (B1 & B2). apply inc_iff in B1. apply (CW g _ Hs' He') in B2.
      rewrite Z3, He', Hs', Y3 in B1. rewrite Z3 in B2.
      assert (G : goes_left m' l r) by (repeat split; auto).
      pose proof (inv_base L R mL mR m' l r t Hi') as (Il & Ir & E1 & E2 & _).
      pose proof (i_laws _ _ _ _ _ _ _ _ Hi') as W'.
      assert (Nlr : l <> r) by (intros e; apply (apart L R ep tau HL HR l); [exact Il|rewrite e; exact Ir]).
      pose proof (inv_del_left L R mL mR m' l r t Hi' G) as I2.
      pose proof (rep_delete g P' S m' Hr' res' Y1) as Rd. rewrite Y2, Y3 in Rd.
      assert (Nrc : r <> mn m' l r) by (intros e; rewrite <- e, cross_abb in Y4; ql).
      assert (Ncc : mn m' l (mn m' l r) <> mn m' l r).
      { intros e. rewrite e, inc_c in B1. ql. }
      assert (Nlc : l <> mn m' l r).
      { intros e. rewrite <- e, cross_aba in Y4. ql. }
      assert (En : mn (del m' l (mn m' l r)) l r = mn m' l (mn m' l r)).
      { cbn [del mn]. destruct (point_eq_dec l l) as [_|n]; [|congruence]. unfold skip1.
        destruct (point_eq_dec (mn m' l r) (mn m' l r)) as [_|n]; [reflexivity|congruence]. }
      assert (Sd : forall x, start (delete g res') x = start g x) by (intros; unfold delete; rewrite !splice_start; reflexivity).
      assert (Ed : forall x, end_ (delete g res') x = end_ g x) by (intros; apply Sd).
      eexists _, _. cbn [fst snd]. split; [split; [exact Rd|exact I2| | |]|].
      * split; [exact Hb'|]. split; intros e.
        -- apply Nlr. rewrite <- Y2, <- e. exact Hs'.
        -- apply Nrc. transitivity (start g base); [auto|]. rewrite e. exact Y3.
      * rewrite Sd. exact Hs'.
      * rewrite Ed. exact He'.
      * split; [eapply ext_trans; [exact Ex|]; split; [apply (delete_frame g P' S m' Hr'), Y1|split; [intros d (Hd & _); auto|intros d _; apply (kept g P' res' l (mn m' l r) (left_sndel m' l r t Hi' G)); auto]]|].
        rewrite En. split.
        -- split; [exact Z1|]. split; intros e; [apply Ncc; transitivity (end_ g res'); [rewrite <- e at 1; auto|exact Y3]|].
           apply Nlc. transitivity (start g (left_from_start g res')); [auto|]. rewrite e. exact Y3.
        -- rewrite Sd, Ed. auto.
    + intros e. injection e as <- <-. exists P', m'. split; [exact St'|]. split; [exact Ex|]. split; [|auto].
      intros (g1 & g2 & g3). apply andb_false_iff in B as [B|B].
      * apply (bool_false _ _ (inc_iff _ _ _ _)) in B. rewrite Z3, He', Hs', Y3 in B. auto.
      * apply (bool_false _ _ (CW g _ Hs' He')) in B. rewrite Z3 in B. auto.
  - intros e; discriminate e.
  - cbn [fst snd]. exists P, m. split; [exact St|]. split; [apply ext_refl, (rp_wf _ _ _ _ Hr)|]. auto.
Qed.
Lemma right_spec fuel h base P m l r t rc h' : state h P base m l r t -> to_right_candidate fuel h base = Ok (rc, h') ->
  exists P' m', state h' P' base m' l r t /\ ext S h P h' P' /\ ~ goes_right m' l r /\ (forall x, mn m' l x = mn m l x) /\
    (forall d, P d -> start h d = l -> P' d /\ start h' d = start h d /\ end_ h' d = end_ h d) /\
    match rc with
    | None => ~ 0 < cross l r (mp m' r l)
    | Some c => P' c /\ start h' c = r /\ end_ h' c = mp m' r l /\ 0 < cross l r (mp m' r l)
    end.
Proof.
  intros St E. unfold to_right_candidate in E. pose proof St as [Hr Hi Hb Hs He].
  destruct (rep_rfs_of h P S m Hr base r l) as (X1 & X2 & X3); auto.
  set (res := right_from_start h base) in *.
  assert (CW : forall g x, start g base = r -> end_ g base = l -> orientation_eqb (orientation_of g base x) CLOCKWISE = true <-> 0 < cross l r x).
  { intros g x e1 e2. unfold orientation_of. rewrite e1, e2, cw_iff, cross_flip. split; intros; ql. }
  destruct (orientation_eqb (orientation_of h base (end_ h res)) CLOCKWISE) eqn:O; cbn [negb] in E.
  2:{ injection E as <- <-. exists P, m. split; [exact St|]. split; [apply ext_refl, (rp_wf _ _ _ _ Hr)|].
      apply (bool_false _ _ (CW h _ Hs He)) in O. rewrite X3 in O. split; [intros (g & _); auto|]. auto. }
  apply (CW h _ Hs He) in O. rewrite X3 in O.
  revert E.
  apply (while_inv (fun st : edge * heap => exists P' m', state (snd st) P' base m' l r t /\ ext S h P (snd st) P' /\ (forall x, mn m' l x = mn m l x) /\
           (forall d, P d -> start h d = l -> P' d /\ start (snd st) d = start h d /\ end_ (snd st) d = end_ h d) /\
           P' (fst st) /\ start (snd st) (fst st) = r /\ end_ (snd st) (fst st) = mp m' r l /\ 0 < cross l r (mp m' r l))
         (fun x => x = Ok (rc, h') -> exists P' m', state h' P' base m' l r t /\ ext S h P h' P' /\ ~ goes_right m' l r /\ (forall x, mn m' l x = mn m l x) /\
    (forall d, P d -> start h d = l -> P' d /\ start h' d = start h d /\ end_ h' d = end_ h d) /\
    match rc with
    | None => ~ 0 < cross l r (mp m' r l)
    | Some c => P' c /\ start h' c = r /\ end_ h' c = mp m' r l /\ 0 < cross l r (mp m' r l)
    end)).
  - intros (res', g) (P' & m' & St' & Ex & Un & Kp & Y1 & Y2 & Y3 & Y4). cbn [fst snd] in *.
    pose proof St' as [Hr' Hi' Hb' Hs' He'].
    destruct (rep_rfs_of g P' S m' Hr' res' r (mp m' r l) Y1 Y2 Y3) as (Z1 & Z2 & Z3).
    destruct (in_circle_interior _ _ _ _ && orientation_eqb _ _) eqn:B.
    + apply andb_prop in B as (B1 & B2). apply inc_iff in B1. apply (CW g _ Hs' He') in B2.
      rewrite Z3, He', Hs', Y3 in B1. rewrite Z3 in B2.
      assert (G : goes_right m' l r) by (repeat split; auto).
      pose proof (inv_base L R mL mR m' l r t Hi') as (Il & Ir & E1 & E2 & _).
      pose proof (i_laws _ _ _ _ _ _ _ _ Hi') as W'.
      assert (Nlr : l <> r) by (intros e; apply (apart L R ep tau HL HR l); [exact Il|rewrite e; exact Ir]).
      pose proof (inv_del_right L R mL mR m' l r t Hi' G) as I2.
      pose proof (rep_delete g P' S m' Hr' res' Y1) as Rd. rewrite Y2, Y3 in Rd.
      set (c := mp m' r l) in *.
      assert (Nlc : l <> c) by (intros e; rewrite <- e, cross_aba in Y4; ql).
      assert (Nrc : r <> c) by (intros e; rewrite <- e, cross_abb in Y4; ql).
      assert (Ncc : mp m' r c <> c) by (intros e; rewrite e, inc_c in B1; ql).
      assert (En : mp (del m' r c) r l = mp m' r c).
      { cbn [del mp]. destruct (point_eq_dec r r) as [_|n]; [|congruence]. unfold skip1. fold c.
        destruct (point_eq_dec c c) as [_|n]; [reflexivity|congruence]. }
      assert (Sd : forall x, start (delete g res') x = start g x) by (intros; unfold delete; rewrite !splice_start; reflexivity).
      assert (Ed : forall x, end_ (delete g res') x = end_ g x) by (intros; apply Sd).
      eexists _, _. cbn [fst snd]. split; [split; [exact Rd|exact I2| | |]|].
      * split; [exact Hb'|]. split; intros e.
        -- apply Nlc. rewrite <- He', e. exact Y3.
        -- apply Nrc. transitivity (start g base); [auto|]. rewrite e. exact Y3.
      * rewrite Sd. exact Hs'.
      * rewrite Ed. exact He'.
      * split; [eapply ext_trans; [exact Ex|]; split; [apply (delete_frame g P' S m' Hr'), Y1|split; [intros d (Hd & _); auto|intros d _; apply (kept g P' res' r c (right_sndel m' l r t Hi' G)); auto]]|].
        rewrite En, !Sd, !Ed. split; [|split; [|split]].
        -- intros x. rewrite <- Un. cbn [del mn]. destruct (point_eq_dec l r); [contradiction|]. destruct (point_eq_dec l c); [contradiction|]. reflexivity.
        -- intros d Hd Sl. rewrite Sd, Ed. destruct (Kp d Hd Sl) as (k1 & k2 & k3). split; [|auto]. split; [exact k1|].
           split; intros e; subst d.
           ++ apply Nlr. congruence.
           ++ apply Nlc. rewrite <- Sl, <- k2. exact Y3.
        -- split; [exact Z1|]. split; intros e; [apply Ncc; transitivity (end_ g res'); [rewrite <- e at 1; auto|exact Y3]|].
           apply Nrc. rewrite <- Z2, e. exact Y3.
        -- auto.
    + intros e. injection e as <- <-. exists P', m'. split; [exact St'|]. split; [exact Ex|]. split; [|split; [exact Un|split; [exact Kp|auto]]].
      intros (g1 & g2 & g3). apply andb_false_iff in B as [B|B].
      * apply (bool_false _ _ (inc_iff _ _ _ _)) in B. rewrite Z3, He', Hs', Y3 in B. auto.
      * apply (bool_false _ _ (CW g _ Hs' He')) in B. rewrite Z3 in B. auto.
  - intros e; discriminate e.
  - cbn [fst snd]. exists P, m. split; [exact St|]. split; [apply ext_refl, (rp_wf _ _ _ _ Hr)|]. split; [auto|]. split; [auto|]. auto.
Qed.
Lemma take_left h P base m l r t c : state h P base m l r t -> P c -> start h c = l -> end_ h c = mn m l r ->
  empty S l r (mn m l r) ->
  let '(e, h') := connect h (opposite base) (opposite c) in
  exists P' m', state h' P' e m' (mn m l r) r ((l, r) :: t) /\ ext S h P h' P'.
Proof.
  intros [Hr Hi Hb Hs He] Hc Sc Ec Em.
  pose proof (inv_left L R ep tau mL mR HL HR TL TR m l r t Hi Em) as I2.
  pose proof (inv_base L R mL mR m l r t Hi) as (Il & Ir & E1 & E2 & _).
  destruct (empty_neq S l r _ Em) as (n1 & n2 & n3).
  pose proof (i_laws _ _ _ _ _ _ _ _ I2) as W2.
  assert (NE : ~ me m r (mn m l r)).
  { intros h0. apply (l_sym _ _ (rp_laws _ _ _ _ Hr)) in h0.
    assert (Hcl : In (mn m l r) L).
    { pose proof (l_next _ _ (rp_laws _ _ _ _ Hr) _ _ E1) as (Hx & _).
      pose proof (side_left L R ep tau mL mR HL HR TR m l r t _ Hi Hx (proj1 Em)) as Hx'.
      apply (e_in2 _ _ (d_laws _ _ TL) _ _ Hx'). }
    apply (fresh_left L R ep tau mL mR HL HR TL TR m l r t _ Hi (proj1 Em) Hcl h0). }
  pose proof (rep_connect h P S m Hr (opposite base) (opposite c) (rp_opp _ _ _ _ Hr _ Hb) (rp_opp _ _ _ _ Hr _ Hc)) as K.
  rewrite !end_opposite, !start_opposite, Hs, He, Sc, Ec in K. cbn zeta in K.
  specialize (K (not_eq_sym (not_eq_sym n3)) NE).
  pose proof (ins_swap m r (mn m l r) (mp m r l) l n3) as Me.
  specialize (K (laws_meq _ _ _ (ins_swap m (mn m l r) r l (mp m r l) (not_eq_sym n3)) W2)).
  destruct (connect h (opposite base) (opposite c)) as (e & h'). destruct K as (K1 & K2 & K3 & K4 & K5).
  eexists _, _. split; [split; [exact (rep_meq _ _ _ _ _ Me K1)|exact I2|right; left; reflexivity|exact K4|exact K5]|].
  split; [exact K2|]. split; [intros d [Hd|[->| ->]]; auto|auto].
Qed.
Lemma take_right h P base m l r t c : state h P base m l r t -> P c -> start h c = r -> end_ h c = mp m r l ->
  empty S l r (mp m r l) ->
  let '(e, h') := connect h c (opposite base) in
  exists P' m', state h' P' e m' l (mp m r l) ((l, r) :: t) /\ ext S h P h' P'.
Proof.
  intros [Hr Hi Hb Hs He] Hc Sc Ec Em.
  pose proof (inv_right L R ep tau mL mR HL HR TL TR m l r t Hi Em) as I2.
  pose proof (inv_base L R mL mR m l r t Hi) as (Il & Ir & E1 & E2 & _).
  destruct (empty_neq S l r _ Em) as (n1 & n2 & n3).
  pose proof (i_laws _ _ _ _ _ _ _ _ I2) as W2.
  assert (NE : ~ me m (mp m r l) l).
  { intros h0. apply (l_sym _ _ (rp_laws _ _ _ _ Hr)) in h0.
    assert (Hcl : In (mp m r l) R).
    { pose proof (l_prev _ _ (rp_laws _ _ _ _ Hr) _ _ E2) as (Hx & _).
      pose proof (side_right L R ep tau mL mR HL HR TL m l r t _ Hi Hx (proj1 Em)) as Hx'.
      apply (e_in2 _ _ (d_laws _ _ TR) _ _ Hx'). }
    apply (fresh_right L R ep tau mL mR HL HR TL TR m l r t _ Hi (proj1 Em) Hcl h0). }
  pose proof (rep_connect h P S m Hr c (opposite base) Hc (rp_opp _ _ _ _ Hr _ Hb)) as K.
  rewrite !end_opposite, !start_opposite, Hs, He, Sc, Ec in K. cbn zeta in K.
  specialize (K n2 NE).
  pose proof (ins_swap m (mp m r l) l (mp m (mp m r l) r) r n2) as Me.
  specialize (K (laws_meq _ _ _ (ins_swap m l (mp m r l) r (mp m (mp m r l) r) (not_eq_sym n2)) W2)).
  destruct (connect h c (opposite base)) as (e & h'). destruct K as (K1 & K2 & K3 & K4 & K5).
  eexists _, _. split; [split; [exact (rep_meq _ _ _ _ _ Me K1)|exact I2|right; left; reflexivity|exact K4|exact K5]|].
  split; [exact K2|]. split; [intros d [Hd|[->| ->]]; auto|auto].
Qed.
Lemma connect_parts_spec fuel h base P m l r t h' : state h P base m l r t -> connect_parts fuel h base = Ok h' ->
  exists P' m', rep h' P' S m' /\ DT S m' /\ ext S h P h' P'.
Proof.
  intros St. unfold connect_parts.
  apply (while_inv (fun st : edge * heap => exists P' m' l' r' t', state (snd st) P' (fst st) m' l' r' t' /\ ext S h P (snd st) P')
    (fun x => x = Ok h' -> exists P' m', rep h' P' S m' /\ DT S m' /\ ext S h P h' P')).
  - clear St. intros (base', g) (P0 & m0 & l' & r' & t' & St & Ex). cbn [fst snd] in *.
    destruct (to_left_candidate fuel g base') as [(lc, h1)|e] eqn:E1; [|cbn [rbind]; intros X; discriminate X]. cbn [rbind].
    destruct (left_spec _ _ _ _ _ _ _ _ _ _ St E1) as (P1 & m1 & St1 & Ex1 & G1 & C1). clear St.
    destruct (to_right_candidate fuel h1 base') as [(rc, h2)|e] eqn:E2; [|cbn [rbind]; intros X; discriminate X]. cbn [rbind].
    destruct (right_spec _ _ _ _ _ _ _ _ _ _ St1 E2) as (P2 & m2 & St2 & Ex2 & G2 & Un & Kp & C2). clear St1.
    assert (G1' : ~ goes_left m2 l' r').
    { unfold goes_left in *. rewrite !Un. exact G1. }
    pose proof St2 as [Hr Hi Hb Hs He].
    destruct (winner L R ep tau mL mR HL HR TL TR m2 l' r' t' Hi G1' G2) as (W1 & W2 & W3).
    assert (Ex' : ext S h P h2 P2) by (eapply ext_trans; [exact Ex|]; eapply ext_trans; [exact Ex1|exact Ex2]).
    assert (C1' : match lc with
      | None => ~ 0 < cross l' r' (mn m2 l' r')
      | Some c => P2 c /\ start h2 c = l' /\ end_ h2 c = mn m2 l' r' /\ 0 < cross l' r' (mn m2 l' r')
      end).
    { destruct lc as [c|]; rewrite Un; [|exact C1]. destruct C1 as (c1 & c2 & c3 & c4).
      destruct (Kp c c1 c2) as (k1 & k2 & k3). rewrite k2, k3. auto. }
    clear C1.
    destruct lc as [cl|], rc as [cr|].
    + destruct C1' as (a1 & a2 & a3 & a4). destruct C2 as (b1 & b2 & b3 & b4).
      destruct (in_circle_interior _ _ _ _) eqn:B.
      * apply inc_iff in B. rewrite a3, b3, Hs, He in B.
        assert (B' : 0 < inc l' r' (mn m2 l' r') (mp m2 r' l')).
        { rewrite <- (inc_rot l' r' (mn m2 l' r')), <- (inc_rot r' (mn m2 l' r') l'). exact B. }
        pose proof (take_right _ _ _ _ _ _ _ cr St2 b1 b2 b3 (W2 (conj b4 (fun _ => B')))) as K.
        destruct (connect h2 cr (opposite base')) as (e & h3). destruct K as (P3 & m3 & St3 & Ex3).
        exists P3, m3, l', (mp m2 r' l'), ((l', r') :: t'). split; [exact St3|]. eapply ext_trans; eassumption.
      * apply (bool_false _ _ (inc_iff _ _ _ _)) in B. rewrite a3, b3, Hs, He in B.
        assert (B' : inc l' r' (mn m2 l' r') (mp m2 r' l') <= 0).
        { rewrite <- (inc_rot l' r' (mn m2 l' r')), <- (inc_rot r' (mn m2 l' r') l'). apply Qcnot_lt_le, B. }
        pose proof (take_left _ _ _ _ _ _ _ cl St2 a1 a2 a3 (W1 (conj a4 (fun _ => B')))) as K.
        destruct (connect h2 (opposite base') (opposite cl)) as (e & h3). destruct K as (P3 & m3 & St3 & Ex3).
        exists P3, m3, (mn m2 l' r'), r', ((l', r') :: t'). split; [exact St3|]. eapply ext_trans; eassumption.
    + destruct C1' as (a1 & a2 & a3 & a4).
      pose proof (take_left _ _ _ _ _ _ _ cl St2 a1 a2 a3 (W1 (conj a4 (fun x => False_ind _ (C2 x))))) as K.
      destruct (connect h2 (opposite base') (opposite cl)) as (e & h3). destruct K as (P3 & m3 & St3 & Ex3).
      exists P3, m3, (mn m2 l' r'), r', ((l', r') :: t'). split; [exact St3|]. eapply ext_trans; eassumption.
    + destruct C2 as (b1 & b2 & b3 & b4).
      pose proof (take_right _ _ _ _ _ _ _ cr St2 b1 b2 b3 (W2 (conj b4 (fun x => False_ind _ (C1' x))))) as K.
      destruct (connect h2 cr (opposite base')) as (e & h3). destruct K as (P3 & m3 & St3 & Ex3).
      exists P3, m3, l', (mp m2 r' l'), ((l', r') :: t'). split; [exact St3|]. eapply ext_trans; eassumption.
    + intros X. injection X as <-. exists P2, m2. split; [exact Hr|]. split; [|exact Ex'].
      apply (merged L R ep tau mL mR HL HR TL TR m2 l' r' t' Hi). apply W3; intros (x & _); auto.
  - intros X; discriminate X.
  - cbn [fst snd]. exists P, m, l, r, t. split; [exact St|]. apply ext_refl, (rp_wf _ _ _ _ (s_rep _ _ _ _ _ _ _ St)).
Qed.
End M.
