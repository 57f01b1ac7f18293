(** The mouth loop of [to_vertex_sequence] on the quad-edge heap: what flips and deletions do to the
    boundary. *)
From Coq Require Import List Lia Permutation.
From Verif Require Import Base Geometry Ctx Spec WindSpec QcTac QcFast GeomProofs ListProofs LoopProofs CycEdge
  QuadEdge Triangulation Factories QuadProofs QuadApiProofs TriProofs CarveProofs MultiProofs
  DelGeo DelCyc DelMap DelFan DelOps DelCand DelMerge DelStart DelHeap DelFind DelHull DelCarve DelFlip DelWind DelBorder.
Import ListNotations.
Open Scope nat_scope.

Section M.
Context (S : list point).
(** A triangulated region with one boundary; all of its vertices are in [pts]. *)
Record shape (h : heap) (t : Triangulation.tri) (pts : list point) (P : edge -> Prop) (m : map) (bd : point -> point -> Prop) (L : list point) : Prop := Shape {
  s_rep : rep h P S m;
  s_good : good h;
  s_car : carved S m bd;
  s_cycle : cycle bd L;
  s_left : rim h P bd (left_side t);
  s_right : rim h P bd (opposite (right_side t));
  s_pts : forall u, In u L -> In u pts }.

Lemma ces_pred l b : In b l -> exists a, In (a, b) (ces l).
Proof.
  destruct l as [|x l]; [intros []|]. intros H. assert (I : In b (List.map snd (ces (x :: l)))).
  { rewrite ces_snd. apply in_app_iff. destruct H as [->|H]; [right; left; reflexivity|left; exact H]. }
  apply in_map_iff in I. destruct I as ((a, b') & E & I). exists a. cbn [snd] in E. subst. exact I.
Qed.
Lemma mem_point_not p l : mem_point p l = false <-> ~ In p l.
Proof.
  split; [apply mem_point_false|]. intros H. destruct (mem_point p l) eqn:E; [|reflexivity]. destruct H. apply mem_point_in, E.
Qed.

Section H.
Context (h : heap) (t : Triangulation.tri) (pts : list point) (P : edge -> Prop) (m : map) (bd : point -> point -> Prop) (L : list point).
Context (Sh : shape h t pts P m bd L).
Let R := s_rep _ _ _ _ _ _ _ Sh.
Let K := s_car _ _ _ _ _ _ _ Sh.
Let W := k_laws _ _ _ K.
Let Cy := s_cycle _ _ _ _ _ _ _ Sh.

(** The darts around a boundary edge. *)
Lemma around c : rim h P bd c -> let u := start h c in let w := end_ h c in let v := mn m u w in
  vacant S u w v /\ me m u v /\ me m w v /\ mn m w v = u /\ mn m v u = w
  /\ (P (left_from_start h c) /\ start h (left_from_start h c) = u /\ end_ h (left_from_start h c) = v)
  /\ (P (left_from_end h c) /\ start h (left_from_end h c) = w /\ end_ h (left_from_end h c) = v)
  /\ (exists s, bd s u /\ mp m u w = s /\ start h (right_from_start h c) = u /\ end_ h (right_from_start h c) = s)
  /\ (exists x, bd w x /\ mn m w u = x /\ start h (right_from_end h c) = w /\ end_ h (right_from_end h c) = x).
Proof.
  intros (Pc & Bc) u w v. fold u w in Bc. destruct (bd_triangle S m bd K _ _ Bc) as (tr & E1 & E2 & e1 & e2 & n1 & n2 & n3). fold v in tr, E1, E2, e1, e2, n2, n3.
  split; [exact tr|]. do 4 (split; [assumption|]).
  split; [apply (rp_lfs _ _ _ _ R _ Pc)|]. pose proof (rp_opp _ _ _ _ R _ Pc) as Po. split; [|split].
  - rewrite lfe_spec. destruct (rep_rfs_of _ _ _ _ R _ w u Po eq_refl (end_opposite h c)) as (A1 & A2 & A3). split; [exact A1|]. split; [exact A2|].
    rewrite A3, <- e1. apply (l_next _ _ W _ _ E2).
  - assert (Iu : In u L) by (apply (cycle_vertex _ _ _ Cy); exists w; exact Bc).
    destruct (ces_pred L u Iu) as (s & Hs). apply Cy in Hs. exists s.
    pose proof (k_fun _ _ _ K _ _ _ (k_next _ _ _ K _ _ Hs) Bc) as Ew.
    assert (Ep : mp m u w = s) by (rewrite <- Ew; apply (l_next _ _ W), (l_sym _ _ W), (k_bd _ _ _ K), Hs).
    destruct (rep_rfs _ _ _ _ R _ Pc) as (A1 & A2 & A3). fold u w in A2, A3. rewrite Ep in A3. auto.
  - exists (mn m w u). split; [apply (k_next _ _ _ K), Bc|]. split; [reflexivity|]. unfold right_from_end.
    destruct (rp_lfs _ _ _ _ R _ Po) as (A1 & A2 & A3). rewrite start_opposite, end_opposite in *. auto.
Qed.
(** The quadrilateral around the diagonal of a candidate. *)
Lemma diagonal c : rim h P bd c -> flippable h pts (left_from_end h c) = true ->
  let u := start h c in let w := end_ h c in let v := mn m u w in let x := mn m v w in
  mn m w v = u /\ ~ bd w v /\ ~ bd v w /\ (0 < cross u w x)%Qc /\ (0 < cross x v u)%Qc /\ ~ In x pts.
Proof.
  intros Rc F u w v x. pose proof (proj2 Rc) as Bc. fold u w in Bc.
  destruct (around c Rc) as (tr & E1 & E2 & e1 & e2 & _ & (A1 & A2 & A3) & _). fold u w v in tr, E1, E2, e1, e2, A2, A3.
  set (d := left_from_end h c) in *. unfold flippable in F. apply andb_true_iff in F. destruct F as (F1 & F2). apply negb_true_iff in F1. apply mem_point_not in F1.
  destruct (vacant_neq _ _ _ _ tr) as (n1 & n2 & n3).
  destruct (rep_rfs_of _ _ _ _ R d w v A1 A2 A3) as (D1 & D2 & D3). change (rfs h d) with (right_from_start h d) in *. rewrite D3 in F1.
  assert (B1 : ~ bd w v).
  { intros B. apply F1. pose proof (k_fun _ _ _ K _ _ _ (k_next _ _ _ K _ _ Bc) B) as E3.
    assert (E4 : mp m w v = u) by (rewrite <- E3; apply (l_next _ _ W), (l_sym _ _ W), (k_bd _ _ _ K), Bc).
    rewrite E4. apply (s_pts _ _ _ _ _ _ _ Sh). apply (cycle_vertex _ _ _ Cy). exists w. exact Bc. }
  assert (B2 : ~ bd v w) by (intros B; pose proof (bd_inj S m bd K _ _ _ B Bc); congruence).
  destruct (two_triangles S m bd K w v E2 B1 B2) as (_ & _ & _ & _ & Ewx & _ & _ & _ & n4 & _). fold x in Ewx, n4.
  assert (Ex : mp m w v = x) by (rewrite <- n4; apply (l_next _ _ W _ _ Ewx)). rewrite Ex in D3, F1.
  destruct (rp_lfs _ _ _ _ R d A1) as (G1 & G2 & G3). rewrite A2, A3, e1 in G3. rewrite A2 in G2. change (lfs h d) with (left_from_start h d) in *.
  pose proof (rp_opp _ _ _ _ R d A1) as Po. destruct (rp_lfs _ _ _ _ R _ Po) as (I1 & I2 & I3). rewrite start_opposite, end_opposite, A2, A3 in *. fold x in I3.
  unfold is_convex_quadrilateral_diagonal in F2. apply andb_true_iff in F2. destruct F2 as (F2 & Q4). apply andb_true_iff in F2. destruct F2 as (F2 & _).
  apply andb_true_iff in F2. destruct F2 as (_ & Q2). apply orientation_eqb_eq in Q2, Q4. unfold orientation_of, right_from_end in Q2, Q4.
  apply orientation_ccw in Q2, Q4. unfold left_turn in Q2, Q4. change (lfs h (opposite d)) with (left_from_start h (opposite d)) in *.
  rewrite start_opposite, end_opposite, I2, I3, G3 in Q2. rewrite start_opposite, end_opposite, G2, G3, D3 in Q4.
  split; [exact e1|]. auto.
Qed.
Definition mouth (h : heap) (pts : list point) (c : edge) : Prop := ~ In (end_ h (left_from_start h c)) pts.
Lemma flip_shape c : rim h P bd c -> flippable h pts (left_from_end h c) = true -> let h' := flip h (left_from_end h c) in
  exists m', shape h' t pts P m' bd L /\ mouth h' pts c
    /\ (forall d, rim h P bd d -> rim h' P bd d /\ start h' d = start h d /\ end_ h' d = end_ h d)
    /\ (forall d, rim h P bd d -> mouth h pts d -> mouth h' pts d).
Proof.
  intros Rc F h'. pose proof (proj2 Rc) as Bc.
  destruct (around c Rc) as (tr & E1 & E2 & e1 & e2 & _ & (A1 & A2 & A3) & _).
  destruct (diagonal c Rc F) as (_ & B1 & B2 & C1 & C2 & Nx).
  set (u := start h c) in *. set (w := end_ h c) in *. set (v := mn m u w) in *. set (x := mn m v w) in *.
  destruct (vacant_neq _ _ _ _ tr) as (n1 & n2 & n3).
  set (e := left_from_end h c) in *.
  assert (C1' : (0 < cross (mn m w v) w x)%Qc) by (rewrite e1; exact C1). assert (C2' : (0 < cross x v (mn m w v))%Qc) by (rewrite e1; exact C2).
  destruct (carved_flip S m bd K w v E2 B1 B2 C1' C2') as (Lw & K' & M1 & MN). rewrite e1 in M1. fold x in M1, MN. rewrite e1 in MN.
  pose proof (s_good _ _ _ _ _ _ _ Sh) as G.
  pose proof (rep_flip h P S m bd R G K e A1) as RF. rewrite A2, A3 in RF. specialize (RF B1 B2 C1' C2'). rewrite e1 in RF. fold x in RF. fold h' in RF.
  destruct RF as (R' & G' & Se & Ee & So).
  assert (InL : forall a b, bd a b -> In a L /\ In b L).
  { intros a b B. apply Cy in B. apply ces_in, B. }
  assert (NxL : ~ In x L) by (intros I; apply Nx, (s_pts _ _ _ _ _ _ _ Sh), I).
  assert (Keep : forall d, rim h P bd d -> rim h' P bd d /\ start h' d = start h d /\ end_ h' d = end_ h d).
  { intros d (Pd & Bd).
    assert (Ne : d <> e) by (intros ->; rewrite A2, A3 in Bd; contradiction).
    assert (No : d <> opposite e) by (intros ->; rewrite start_opposite, end_opposite, A2, A3 in Bd; contradiction).
    assert (X1 : start h' d = start h d) by (apply So; assumption).
    assert (X2 : end_ h' d = end_ h d).
    { unfold end_. apply So; intros f.
      - apply No. rewrite <- f, opposite_opposite. reflexivity.
      - apply Ne, opposite_inj, f. }
    split; [split; [exact Pd|rewrite X1, X2; exact Bd]|auto]. }
  assert (Apex : forall d, rim h P bd d -> end_ h' (left_from_start h' d) = mn (flipped m w v) (start h d) (end_ h d)).
  { intros d Rd. destruct (Keep d Rd) as (_ & X1 & X2). rewrite <- X1, <- X2. apply (rp_lfs _ _ _ _ R'), Rd. }
  exists (flipped m w v). split; [|split; [|split; [exact Keep|]]].
  - split; auto.
    + apply (Keep _ (s_left _ _ _ _ _ _ _ Sh)).
    + apply (Keep _ (s_right _ _ _ _ _ _ _ Sh)).
    + apply (s_pts _ _ _ _ _ _ _ Sh).
  - unfold mouth. rewrite (Apex c Rc). fold u w. rewrite M1. exact Nx.
  - intros d Rd Md. unfold mouth in *. rewrite (Apex d Rd). pose proof (proj2 Rd) as Bd. destruct (rp_lfs _ _ _ _ R d (proj1 Rd)) as (_ & _ & X). change (lfs h d) with (left_from_start h d) in X. rewrite X in Md.
    set (p := start h d) in *. set (q := end_ h d) in *. destruct (InL _ _ Bd) as (Ip & Iq).
    destruct (point_eq_dec p u) as [Epu|Npu]; [destruct (point_eq_dec q w) as [Eqw|Nqw]|].
    { rewrite Epu, Eqw, M1. exact Nx. }
    { rewrite MN; [exact Md|apply (k_bd _ _ _ K), Bd|right; intros ->; contradiction| |right; exact Nqw|left; intros ->; contradiction].
      left. congruence. }
    rewrite MN; [exact Md|apply (k_bd _ _ _ K), Bd|right; intros ->; contradiction| |left; exact Npu|left; intros ->; contradiction].
    destruct (point_eq_dec p v) as [Epv|]; [|left; assumption]. right. intros Equ. apply Md. rewrite Epv, Equ, e2.
    apply (s_pts _ _ _ _ _ _ _ Sh). apply (InL _ _ Bc).
Qed.
(** Deleting a mouth. *)
Lemma delete_shape c : rim h P bd c -> mouth h pts c -> let h' := delete h c in
  exists t' P' m' bd' L' d1 d2, tri_delete h t c = Ok (t', h') /\ shape h' t' (add_point (end_ h (left_from_start h c)) pts) P' m' bd' L'
    /\ (length L' = Datatypes.S (length L) /\ incl L L' /\ cycle (bd_del bd (start h c) (end_ h c) (end_ h (left_from_start h c))) L') /\ to_edge_neighbours h c = [d1; d2] /\ d1 <> d2
    /\ rim h' P' bd' d1 /\ rim h' P' bd' d2 /\ ~ rim h P bd d1 /\ ~ rim h P bd d2
    /\ (forall d, rim h P bd d -> d <> c -> rim h' P' bd' d /\ start h' d = start h d /\ end_ h' d = end_ h d).
Proof.
  intros Rc M h'. pose proof Rc as (Pe & Be). rename c into e.
  destruct (bd_triangle S m bd K _ _ Be) as (tr & E1 & E2 & e1 & e2 & n1 & n2 & n3).
  set (u := start h e) in *. set (w := end_ h e) in *. set (v := mn m u w) in *.
  destruct (rp_lfs _ _ _ _ R _ Pe) as (P1 & s1 & f1). fold u w v in s1, f1.
  unfold mouth in M. change (left_from_start h e) with (lfs h e) in *. rewrite f1 in *.
  assert (NvL : ~ In v L) by (intros z; apply M, (s_pts _ _ _ _ _ _ _ Sh), z).
  assert (Nv : forall z, ~ bd v z) by (intros z hz; apply NvL; apply (cycle_vertex _ _ _ Cy); exists z; exact hz).
  pose proof (carved_del S m bd K u w Be Nv) as K'. fold v in K'.
  destruct (cycle_del _ u w v L Cy Be n1 NvL) as (L' & Cy' & PL & _).
  pose proof (rep_delete _ _ _ _ R e Pe) as R'. fold u w in R'.
  set (P' := fun d => P d /\ d <> e /\ d <> opposite e) in *.
  assert (Keep : forall d a b, P d -> start h d = a -> end_ h d = b -> me (del m u w) a b -> P' d).
  { intros d a b Pd <- <- (_ & Ns). split; [exact Pd|]. unfold same_edge in Ns. split; intros ->; apply Ns; [left|right]; auto.
    rewrite start_opposite, end_opposite. auto. }
  assert (Rim' : forall d, rim h P bd d -> d <> e -> rim (delete h e) P' (bd_del bd u w v) d).
  { intros d (Pd & Bd) Nd'. assert (B' : bd_del bd u w v (start h d) (end_ h d)).
    { left. split; [exact Bd|]. intros (a1 & a2). apply Nd'. apply (rp_uniq _ _ _ _ R); auto. }
    split; [|exact B']. apply (Keep d _ _ Pd eq_refl eq_refl). apply (k_bd _ _ _ K'), B'. }
  assert (Rim1 : rim (delete h e) P' (bd_del bd u w v) (lfs h e)).
  { assert (B : bd_del bd u w v (start h (lfs h e)) (end_ h (lfs h e))) by (rewrite s1, f1; right; left; auto). split; [|exact B].
    apply (Keep _ u v P1 s1 f1). apply (k_bd _ _ _ K'). right. left. auto. }
  assert (NoOpp : forall d, rim h P bd d -> d <> opposite e).
  { intros d (_ & Bd) ->. rewrite start_opposite, end_opposite in Bd. apply (k_two _ _ _ K _ _ Be Bd). }
  pose proof (s_left _ _ _ _ _ _ _ Sh) as Lf. pose proof (s_right _ _ _ _ _ _ _ Sh) as Rt.
  set (rs := right_side t) in *. set (ls := left_side t) in *.
  assert (Hdel : exists t', tri_delete h t e = Ok (t', delete h e)
      /\ rim (delete h e) P' (bd_del bd u w v) (left_side t') /\ rim (delete h e) P' (bd_del bd u w v) (opposite (right_side t'))).
  { unfold tri_delete. fold rs ls.
    assert (Ner : e <> rs) by (intros z; apply (NoOpp _ Rt); rewrite <- z; reflexivity).
    assert (Nel : opposite e <> ls) by (intros z; apply (NoOpp _ Lf); symmetry; exact z).
    rewrite (proj2 (edge_eqb_neq e rs) Ner). cbn [orb].
    assert (X : exists r, (if edge_eqb (opposite e) rs
        then let* _ := assert_ (negb (edge_eqb rs (opposite (right_from_end h rs)))) in Ok (Tri ls (opposite (right_from_end h rs))) else Ok t) = Ok (Tri ls r)
        /\ rim (delete h e) P' (bd_del bd u w v) (opposite r)).
    { destruct (edge_eqb (opposite e) rs) eqn:Er.
      - apply edge_eqb_eq in Er. unfold right_from_end. rewrite <- Er, opposite_opposite.
        assert (Nx : opposite e <> opposite (lfs h e)).
        { intros z. assert (y : end_ h e = end_ h (lfs h e)) by (rewrite <- (start_opposite h e), z; apply start_opposite). rewrite f1 in y. fold w in y. congruence. }
        change (left_from_start h e) with (lfs h e).
        rewrite (proj2 (edge_eqb_neq _ _) Nx). cbn [negb assert_ rbind]. eexists. split; [reflexivity|]. rewrite opposite_opposite. exact Rim1.
      - apply edge_eqb_neq in Er. exists rs. split; [unfold ls, rs; destruct t; reflexivity|]. apply Rim'; [exact Rt|].
        intros z. apply Er. rewrite <- z, opposite_opposite. reflexivity. }
    destruct X as (r & X1 & X2). rewrite X1. cbn [rbind left_side right_side].
    rewrite (proj2 (edge_eqb_neq (opposite e) ls) Nel), orb_false_r.
    destruct (edge_eqb e ls) eqn:El.
    - apply edge_eqb_eq in El. rewrite <- El.
      assert (Nx : e <> lfs h e) by (intros z; assert (y : w = v) by (unfold w at 1; rewrite z, f1; reflexivity); congruence).
      change (left_from_start h e) with (lfs h e).
      rewrite (proj2 (edge_eqb_neq _ _) Nx). cbn [negb assert_ rbind]. eexists. split; [reflexivity|]. split; [exact Rim1|exact X2].
    - apply edge_eqb_neq in El. cbn [rbind]. eexists. split; [reflexivity|]. split; [|exact X2]. cbn [left_side]. apply Rim'; [exact Lf|intros z; apply El; symmetry; exact z]. }
  destruct Hdel as (t' & Hdel & Lf' & Rt').
  destruct (nb_edges S h P m bd e R K Rc) as (d1 & d2 & Nb & Pd1 & Pd2 & sd1 & fd2 & fd1 & sd2). fold u w v in sd1, fd2, fd1, sd2.
  assert (Rd1 : rim (delete h e) P' (bd_del bd u w v) d1).
  { assert (B : bd_del bd u w v (start h d1) (end_ h d1)) by (rewrite sd1, fd1; right; left; auto). split; [|exact B].
    apply (Keep d1 _ _ Pd1 eq_refl eq_refl), (k_bd _ _ _ K'), B. }
  assert (Rd2 : rim (delete h e) P' (bd_del bd u w v) d2).
  { assert (B : bd_del bd u w v (start h d2) (end_ h d2)) by (rewrite sd2, fd2; right; right; auto). split; [|exact B].
    apply (Keep d2 _ _ Pd2 eq_refl eq_refl), (k_bd _ _ _ K'), B. }
  assert (n12 : d1 <> d2) by (intros z; rewrite z, sd2 in sd1; congruence).
  exists t', P', (del m u w), (bd_del bd u w v), L', d1, d2.
  split; [exact Hdel|]. split; [|split; [|split; [exact Nb|split; [exact n12|split; [exact Rd1|split; [exact Rd2|split; [|split]]]]]]].
  - split; auto.
    + apply (delete_spec h e (s_good _ _ _ _ _ _ _ Sh)); apply (rp_live _ _ _ _ R _ Pe).
    + intros z Hz. apply add_point_in. apply (Permutation_in _ (Permutation_sym PL)) in Hz. destruct Hz as [<- |Hz]; [auto|right; apply (s_pts _ _ _ _ _ _ _ Sh), Hz].
  - split; [pose proof (Permutation_length PL) as Lp; cbn [length] in Lp; lia|]. split; [|exact Cy']. intros z Hz. apply (Permutation_in _ PL). right. exact Hz.
  - intros (_ & B). rewrite fd1 in B. apply (Nv _ (k_next _ _ _ K _ _ B)).
  - intros (_ & B). rewrite sd2 in B. apply (Nv _ B).
  - intros d Rd Nd. split; [apply Rim'; assumption|]. split; reflexivity.
Qed.
End H.
End M.
