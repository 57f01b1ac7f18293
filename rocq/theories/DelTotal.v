(** The construction of the triangulation terminates and raises nothing. *)
From Coq Require Import List Lia Sorted.
From Verif Require Import Base Geometry Ctx Spec QcTac QcFast GeomProofs ListProofs LoopProofs HullProofs HelperProofs SegmentProofs QuadEdge QuadProofs Utils Triangulation
  DelGeo DelCyc DelMap DelOps DelMir DelCand DelMerge DelDone DelTangent DelStart DelHeap DelLoop DelFind DelInit DelAll.
From Verif Require TriProofs.
Import ListNotations.
Open Scope Qc_scope.

Definition done {A} (x : res A) : Prop := exists v, x = Ok v.
Lemma done_bind {A B} (x : res A) (k : A -> res B) : done x -> (forall v, x = Ok v -> done (k v)) -> done (rbind x k).
Proof. intros (v & ->) H. cbn [rbind]. apply H. reflexivity. Qed.

Definition qlt_b (x y : Qc) : bool := if qlt_dec x y then true else false.
Lemma qlt_b_iff x y : qlt_b x y = true <-> x < y.
Proof. unfold qlt_b. destruct (qlt_dec x y); split; congruence || auto. Qed.
Lemma qlt_b_no x y : ~ x < y -> qlt_b x y = false.
Proof. intros H. unfold qlt_b. destruct (qlt_dec x y); [contradiction|reflexivity]. Qed.
Definition count {A} (f : A -> bool) (l : list A) : nat := length (filter f l).
Lemma count_le {A} (f : A -> bool) l : (count f l <= length l)%nat.
Proof. unfold count. induction l as [|x l IH]; cbn; [lia|]. destruct (f x); cbn; lia. Qed.
Lemma turn_trans l r c d q : 0 < cross l r c -> 0 < cross l r d -> 0 < cross l r q -> 0 < cross l c d -> 0 < cross l d q -> 0 < cross l c q.
Proof.
  intros H1 H2 H3 H4 H5. apply (pos_of_mul (cross l r d)); [exact H2|].
  replace (cross l r d * cross l c q) with (cross l c d * cross l r q + cross l r c * cross l d q) by (unfold cross; ring).
  pose proof (mul_pos _ _ H4 H3). pose proof (mul_pos _ _ H1 H5). ql.
Qed.

Section M.
Context (L R : list point) (ep tau : Qc) (mL mR : map).
Context (HL : forall q, In q L -> phi ep q < tau) (HR : forall q, In q R -> tau < phi ep q).
Context (TL : DT L mL) (TR : DT R mR).
Notation S := (L ++ R).

Lemma left_step g P' base m' l r t res' : state L R mL mR g P' base m' l r t ->
  P' res' -> start g res' = l -> end_ g res' = mn m' l r -> 0 < cross l r (mn m' l r) ->
  goes_left m' l r ->
  exists P2 m2, state L R mL mR (delete g res') P2 base m2 l r t /\ P2 (left_from_start g res') /\
    start (delete g res') (left_from_start g res') = l /\ end_ (delete g res') (left_from_start g res') = mn m2 l r /\
    0 < cross l r (mn m2 l r) /\ mn m2 l r = mn m' l (mn m' l r) /\ 0 < cross l (mn m' l r) (mn m2 l r).
Proof.
  intros St' Y1 Y2 Y3 Y4 G. pose proof St' as [Hr' Hi' Hb' Hs' He'].
  destruct (rep_lfs_of g P' S m' Hr' res' l (mn m' l r) Y1 Y2 Y3) as (Z1 & Z2 & Z3).
  pose proof G as (_ & B2 & B1).
  pose proof (inv_base L R mL mR m' l r t Hi') as (Il & Ir & E1 & E2 & _).
  pose proof (i_laws _ _ _ _ _ _ _ _ Hi') as W'.
  assert (Nlr : l <> r) by (intros e; apply (apart L R ep tau HL HR l); [exact Il|rewrite e; exact Ir]).
  pose proof (inv_del_left L R mL mR m' l r t Hi' G) as I2.
  pose proof (rep_delete g P' S m' Hr' res' Y1) as Rd. rewrite Y2, Y3 in Rd.
  assert (Nrc : r <> mn m' l r) by (intros e; rewrite <- e, cross_abb in Y4; ql).
  assert (Ncc : mn m' l (mn m' l r) <> mn m' l r).
  { intros e. rewrite e, inc_c in B1. ql. }
  assert (Nlc : l <> mn m' l r).
  { intros e. rewrite <- e, cross_aba in Y4. ql. }
  assert (En : mn (del m' l (mn m' l r)) l r = mn m' l (mn m' l r)).
  { cbn [del mn]. destruct (point_eq_dec l l) as [_|n]; [|congruence]. unfold skip1.
    destruct (point_eq_dec (mn m' l r) (mn m' l r)) as [_|n]; [reflexivity|congruence]. }
  assert (Sd : forall x, start (delete g res') x = start g x) by (intros; unfold delete; rewrite !splice_start; reflexivity).
  assert (Ed : forall x, end_ (delete g res') x = end_ g x) by (intros; apply Sd).
  assert (C1 : 0 < cross l (mn m' l r) (mn m' l (mn m' l r))).
  { destruct (l_next _ _ W' _ _ E1) as (Hc & _). destruct (l_next _ _ W' _ _ Hc) as (Hd & _).
    destruct (cand_order S m' W' l r (mn m' l (mn m' l r)) E1 Hd B2) as (_ & [e|(c1 & _)]); [contradiction|exact c1]. }
  eexists _, _. split; [split; [exact Rd|exact I2| | |]|].
  - split; [exact Hb'|]. split; intros e.
    + apply Nlr. rewrite <- Y2, <- e. exact Hs'.
    + apply Nrc. transitivity (start g base); [auto|]. rewrite e. exact Y3.
  - rewrite Sd. exact Hs'.
  - rewrite Ed. exact He'.
  - rewrite En. split; [|rewrite Sd, Ed; auto].
    split; [exact Z1|]. split; intros e; [apply Ncc; transitivity (end_ g res'); [rewrite <- e at 1; auto|exact Y3]|].
    apply Nlc. transitivity (start g (left_from_start g res')); [auto|]. rewrite e. exact Y3.
Qed.
Definition above_left (l r c q : point) : bool := qlt_b 0 (cross l r q) && qlt_b 0 (cross l c q).
Lemma left_total fuel h base P m l r t : state L R mL mR h P base m l r t -> (length S < Pos.to_nat fuel)%nat ->
  done (to_left_candidate fuel h base).
Proof.
  intros St Fu. unfold to_left_candidate. pose proof St as [Hr Hi Hb Hs He].
  destruct (rep_lfs_of h P S m Hr (opposite base) l r) as (X1 & X2 & X3); [apply (rp_opp _ _ _ _ Hr), Hb|exact He|rewrite end_opposite; exact Hs|].
  set (res := left_from_start h (opposite base)) in *.
  assert (CW : forall g x, start g base = r -> end_ g base = l -> orientation_eqb (orientation_of g base x) CLOCKWISE = true <-> 0 < cross l r x).
  { intros g x e1 e2. unfold orientation_of. rewrite e1, e2, cw_iff, cross_flip. split; intros; ql. }
  destruct (orientation_eqb (orientation_of h base (end_ h res)) CLOCKWISE) eqn:O; cbn [negb].
  2:{ eexists. reflexivity. }
  apply (CW h _ Hs He) in O. rewrite X3 in O.
  apply (while_total (fun st : edge * heap => exists P' m', state L R mL mR (snd st) P' base m' l r t /\
           P' (fst st) /\ start (snd st) (fst st) = l /\ end_ (snd st) (fst st) = mn m' l r /\ 0 < cross l r (mn m' l r))
         (fun st => count (above_left l r (end_ (snd st) (fst st))) S)).
  - intros (res', g) (P' & m' & St' & Y1 & Y2 & Y3 & Y4). cbn [fst snd] in *.
    pose proof St' as [Hr' Hi' Hb' Hs' He'].
    destruct (rep_lfs_of g P' S m' Hr' res' l (mn m' l r) Y1 Y2 Y3) as (Z1 & Z2 & Z3).
    destruct (in_circle_interior _ _ _ _ && orientation_eqb _ _) eqn:B; [|eexists; reflexivity].
    apply andb_prop in B as (B1 & B2). apply inc_iff in B1. apply (CW g _ Hs' He') in B2.
    rewrite Z3, He', Hs', Y3 in B1. rewrite Z3 in B2.
    assert (G : goes_left m' l r) by (repeat split; auto).
    destruct (left_step _ _ _ _ _ _ _ _ St' Y1 Y2 Y3 Y4 G) as (P2 & m2 & St2 & V1 & V2 & V3 & V4 & V5 & V6).
    split; [exists P2, m2; auto|]. cbn [fst snd]. rewrite V3, Y3.
    assert (I2 : In (mn m2 l r) S).
    { pose proof St2 as [_ Hi2 _ _ _]. pose proof (i_laws _ _ _ _ _ _ _ _ Hi2) as W2.
      destruct (inv_base L R mL mR m2 l r t Hi2) as (_ & _ & E1 & _). destruct (l_next _ _ W2 _ _ E1) as (Hc & _).
      apply (e_in2 _ _ W2 _ _ Hc). }
    apply (filter_lt _ _ _ (mn m2 l r)); [|exact I2| |].
    + intros q Hq. unfold above_left in *. apply andb_prop in Hq as (q1 & q2). apply qlt_b_iff in q1, q2.
      apply andb_true_intro. rewrite !qlt_b_iff. split; [exact q1|]. apply (turn_trans l r (mn m' l r) (mn m2 l r) q); auto.
    + unfold above_left. apply andb_false_iff. right. apply qlt_b_no. rewrite cross_abb. ql.
    + unfold above_left. apply andb_true_intro. rewrite !qlt_b_iff. auto.
  - cbn [fst snd]. exists P, m. auto.
  - cbn [fst snd]. pose proof (count_le (above_left l r (end_ h res)) S). lia.
Qed.

Lemma right_step g P' base m' l r t res' : state L R mL mR g P' base m' l r t ->
  P' res' -> start g res' = r -> end_ g res' = mp m' r l -> 0 < cross l r (mp m' r l) ->
  goes_right m' l r ->
  exists P2 m2, state L R mL mR (delete g res') P2 base m2 l r t /\ P2 (right_from_start g res') /\
    start (delete g res') (right_from_start g res') = r /\ end_ (delete g res') (right_from_start g res') = mp m2 r l /\
    0 < cross l r (mp m2 r l) /\ cross r (mp m' r l) (mp m2 r l) < 0.
Proof.
  intros St' Y1 Y2 Y3 Y4 G. pose proof St' as [Hr' Hi' Hb' Hs' He'].
  destruct (rep_rfs_of g P' S m' Hr' res' r (mp m' r l) Y1 Y2 Y3) as (Z1 & Z2 & Z3).
  pose proof G as (_ & B2 & B1).
  pose proof (inv_base L R mL mR m' l r t Hi') as (Il & Ir & E1 & E2 & _).
  pose proof (i_laws _ _ _ _ _ _ _ _ Hi') as W'.
  assert (Nlr : l <> r) by (intros e; apply (apart L R ep tau HL HR l); [exact Il|rewrite e; exact Ir]).
  pose proof (inv_del_right L R mL mR m' l r t Hi' G) as I2.
  pose proof (rep_delete g P' S m' Hr' res' Y1) as Rd. rewrite Y2, Y3 in Rd.
  set (c := mp m' r l) in *.
  assert (Nlc : l <> c) by (intros e; rewrite <- e, cross_aba in Y4; ql).
  assert (Nrc : r <> c) by (intros e; rewrite <- e, cross_abb in Y4; ql).
  assert (Ncc : mp m' r c <> c) by (intros e; rewrite e, inc_c in B1; ql).
  assert (En : mp (del m' r c) r l = mp m' r c).
  { cbn [del mp]. destruct (point_eq_dec r r) as [_|n]; [|congruence]. unfold skip1. fold c.
    destruct (point_eq_dec c c) as [_|n]; [reflexivity|congruence]. }
  assert (Sd : forall x, start (delete g res') x = start g x) by (intros; unfold delete; rewrite !splice_start; reflexivity).
  assert (Ed : forall x, end_ (delete g res') x = end_ g x) by (intros; apply Sd).
  assert (C1 : cross r c (mp m' r c) < 0).
  { destruct (l_prev _ _ W' _ _ E2) as (Hc & _). fold c in Hc. destruct (l_prev _ _ W' _ _ Hc) as (Hd & _).
    pose proof (cand_order (List.map mir S) (mirm m') (laws_mir _ _ W') (mir r) (mir l) (mir (mp m' r c))) as K.
    cbn [mirm me mn mp] in K. rewrite !mir_mir in K. fold c in K. rewrite !cross_mir in K.
    destruct (K E2 Hd) as (_ & [e|(c1 & _)]).
    - rewrite cross_flip. ql.
    - exfalso. apply Ncc. rewrite <- (mir_mir (mp m' r c)), e, mir_mir. reflexivity.
    - ql. }
  eexists _, _. split; [split; [exact Rd|exact I2| | |]|].
  - split; [exact Hb'|]. split; intros e.
    + apply Nlc. rewrite <- He', e. exact Y3.
    + apply Nrc. transitivity (start g base); [auto|]. rewrite e. exact Y3.
  - rewrite Sd. exact Hs'.
  - rewrite Ed. exact He'.
  - rewrite En. split; [|rewrite Sd, Ed; auto].
    split; [exact Z1|]. split; intros e; [apply Ncc; transitivity (end_ g res'); [rewrite <- e at 1; auto|exact Y3]|].
    apply Nrc. rewrite <- Z2, e. exact Y3.
Qed.
Definition above_right (l r c q : point) : bool := qlt_b 0 (cross l r q) && qlt_b (cross r c q) 0.
Lemma right_total fuel h base P m l r t : state L R mL mR h P base m l r t -> (length S < Pos.to_nat fuel)%nat ->
  done (to_right_candidate fuel h base).
Proof.
  intros St Fu. unfold to_right_candidate. pose proof St as [Hr Hi Hb Hs He].
  destruct (rep_rfs_of h P S m Hr base r l) as (X1 & X2 & X3); auto.
  set (res := right_from_start h base) in *.
  assert (CW : forall g x, start g base = r -> end_ g base = l -> orientation_eqb (orientation_of g base x) CLOCKWISE = true <-> 0 < cross l r x).
  { intros g x e1 e2. unfold orientation_of. rewrite e1, e2, cw_iff, cross_flip. split; intros; ql. }
  destruct (orientation_eqb (orientation_of h base (end_ h res)) CLOCKWISE) eqn:O; cbn [negb].
  2:{ eexists. reflexivity. }
  apply (CW h _ Hs He) in O. rewrite X3 in O.
  apply (while_total (fun st : edge * heap => exists P' m', state L R mL mR (snd st) P' base m' l r t /\
           P' (fst st) /\ start (snd st) (fst st) = r /\ end_ (snd st) (fst st) = mp m' r l /\ 0 < cross l r (mp m' r l))
         (fun st => count (above_right l r (end_ (snd st) (fst st))) S)).
  - intros (res', g) (P' & m' & St' & Y1 & Y2 & Y3 & Y4). cbn [fst snd] in *.
    pose proof St' as [Hr' Hi' Hb' Hs' He'].
    destruct (rep_rfs_of g P' S m' Hr' res' r (mp m' r l) Y1 Y2 Y3) as (Z1 & Z2 & Z3).
    destruct (in_circle_interior _ _ _ _ && orientation_eqb _ _) eqn:B; [|eexists; reflexivity].
    apply andb_prop in B as (B1 & B2). apply inc_iff in B1. apply (CW g _ Hs' He') in B2.
    rewrite Z3, He', Hs', Y3 in B1. rewrite Z3 in B2.
    assert (G : goes_right m' l r) by (repeat split; auto).
    destruct (right_step _ _ _ _ _ _ _ _ St' Y1 Y2 Y3 Y4 G) as (P2 & m2 & St2 & V1 & V2 & V3 & V4 & V6).
    split; [exists P2, m2; auto|]. cbn [fst snd]. rewrite V3, Y3.
    assert (I2 : In (mp m2 r l) S).
    { pose proof St2 as [_ Hi2 _ _ _]. pose proof (i_laws _ _ _ _ _ _ _ _ Hi2) as W2.
      destruct (inv_base L R mL mR m2 l r t Hi2) as (_ & _ & _ & E2 & _). destruct (l_prev _ _ W2 _ _ E2) as (Hc & _).
      apply (e_in2 _ _ W2 _ _ Hc). }
    apply (filter_lt _ _ _ (mp m2 r l)); [|exact I2| |].
    + intros q Hq. unfold above_right in *. apply andb_prop in Hq as (q1 & q2). apply qlt_b_iff in q1, q2.
      apply andb_true_intro. rewrite !qlt_b_iff. split; [exact q1|].
      pose proof (turn_trans (mir r) (mir l) (mir (mp m' r l)) (mir (mp m2 r l)) (mir q)) as K. rewrite !cross_mir in K.
      rewrite (cross_flip l r (mp m' r l)), (cross_flip l r (mp m2 r l)), (cross_flip l r q) in K.
      specialize (K ltac:(ql) ltac:(ql) ltac:(ql) ltac:(ql) ltac:(ql)). ql.
    + unfold above_right. apply andb_false_iff. right. apply qlt_b_no. rewrite cross_abb. ql.
    + unfold above_right. apply andb_true_intro. rewrite !qlt_b_iff. auto.
  - cbn [fst snd]. exists P, m. auto.
  - cbn [fst snd]. pose proof (count_le (above_right l r (end_ h res)) S). lia.
Qed.

(** The base edge climbs. *)
Definition higher (l r : point) (b : point * point) : bool := qlt_b (hgt ep tau l r) (hgt ep tau (fst b) (snd b)).
Lemma higher_lt l r l' r' : In l' L -> In r' R -> hgt ep tau l r < hgt ep tau l' r' ->
  (count (higher l' r') (list_prod L R) < count (higher l r) (list_prod L R))%nat.
Proof.
  intros Hl Hr H. apply (filter_lt _ _ _ (l', r')).
  - intros (x, y) h. unfold higher in *. cbn [fst snd] in *. apply qlt_b_iff in h. apply qlt_b_iff. ql.
  - apply in_prod; assumption.
  - apply qlt_b_no. cbn [fst snd]. ql.
  - apply qlt_b_iff. exact H.
Qed.
Lemma connect_parts_total fuel h base P m l r t : state L R mL mR h P base m l r t ->
  (length S < Pos.to_nat fuel)%nat -> (length L * length R < Pos.to_nat fuel)%nat -> done (connect_parts fuel h base).
Proof.
  intros St Fu Fu2. unfold connect_parts.
  apply (while_total (fun st : edge * heap => exists P' m' l' r' t', state L R mL mR (snd st) P' (fst st) m' l' r' t')
    (fun st => count (higher (end_ (snd st) (fst st)) (start (snd st) (fst st))) (list_prod L R))).
  - clear St. intros (base', g) (P0 & m0 & l' & r' & t' & St). cbn [fst snd] in *.
    destruct (left_total fuel _ _ _ _ _ _ _ St Fu) as ((lc, h1) & E1). rewrite E1. cbn [rbind].
    pose proof St as [_ _ _ Hs0 He0]. rewrite Hs0, He0. clear Hs0 He0.
    destruct (left_spec L R ep tau mL mR HL HR _ _ _ _ _ _ _ _ _ _ St E1) as (P1 & m1 & St1 & _ & G1 & C1). clear St.
    destruct (right_total fuel _ _ _ _ _ _ _ St1 Fu) as ((rc, h2) & E2). rewrite E2. cbn [rbind].
    destruct (right_spec L R ep tau mL mR HL HR _ _ _ _ _ _ _ _ _ _ St1 E2) as (P2 & m2 & St2 & _ & G2 & Un & Kp & C2). clear St1.
    assert (G1' : ~ goes_left m2 l' r').
    { unfold goes_left in *. rewrite !Un. exact G1. }
    pose proof St2 as [Hr Hi Hb Hs He].
    destruct (inv_base L R mL mR m2 l' r' t' Hi) as (Il & Ir & _).
    destruct (winner L R ep tau mL mR HL HR TL TR m2 l' r' t' Hi G1' G2) as (W1 & W2 & W3).
    assert (C1' : match lc with
      | None => ~ 0 < cross l' r' (mn m2 l' r')
      | Some c => P2 c /\ start h2 c = l' /\ end_ h2 c = mn m2 l' r' /\ 0 < cross l' r' (mn m2 l' r')
      end).
    { destruct lc as [c|]; rewrite Un; [|exact C1]. destruct C1 as (c1 & c2 & c3 & c4).
      destruct (Kp c c1 c2) as (k1 & k2 & k3). rewrite k2, k3. auto. }
    clear C1.
    assert (Left : forall cl, P2 cl -> start h2 cl = l' -> end_ h2 cl = mn m2 l' r' -> empty S l' r' (mn m2 l' r') ->
      let '(e, h3) := connect h2 (opposite base') (opposite cl) in
      (exists P' m' l'' r'' t'', state L R mL mR h3 P' e m' l'' r'' t'') /\
      (count (higher (end_ h3 e) (start h3 e)) (list_prod L R) < count (higher l' r') (list_prod L R))%nat).
    { intros cl a1 a2 a3 Em. pose proof (take_left L R ep tau mL mR HL HR TL TR _ _ _ _ _ _ _ cl St2 a1 a2 a3 Em) as K.
      destruct (connect h2 (opposite base') (opposite cl)) as (e & h3). destruct K as (P3 & m3 & St3 & _).
      split; [eauto 6|]. pose proof St3 as [_ Hi3 _ Hs3 He3]. rewrite Hs3, He3.
      destruct (inv_base L R mL mR _ _ _ _ Hi3) as (Il3 & _). apply higher_lt; auto. apply hgt_l; auto. apply Em. }
    assert (Right : forall cr, P2 cr -> start h2 cr = r' -> end_ h2 cr = mp m2 r' l' -> empty S l' r' (mp m2 r' l') ->
      let '(e, h3) := connect h2 cr (opposite base') in
      (exists P' m' l'' r'' t'', state L R mL mR h3 P' e m' l'' r'' t'') /\
      (count (higher (end_ h3 e) (start h3 e)) (list_prod L R) < count (higher l' r') (list_prod L R))%nat).
    { intros cr a1 a2 a3 Em. pose proof (take_right L R ep tau mL mR HL HR TL TR _ _ _ _ _ _ _ cr St2 a1 a2 a3 Em) as K.
      destruct (connect h2 cr (opposite base')) as (e & h3). destruct K as (P3 & m3 & St3 & _).
      split; [eauto 6|]. pose proof St3 as [_ Hi3 _ Hs3 He3]. rewrite Hs3, He3.
      destruct (inv_base L R mL mR _ _ _ _ Hi3) as (_ & Ir3 & _). apply higher_lt; auto. apply hgt_r; auto. apply Em. }
    destruct lc as [cl|], rc as [cr|].
    + destruct C1' as (a1 & a2 & a3 & a4). destruct C2 as (b1 & b2 & b3 & b4).
      destruct (in_circle_interior _ _ _ _) eqn:B.
      * apply inc_iff in B. rewrite a3, b3, Hs, He in B.
        assert (B' : 0 < inc l' r' (mn m2 l' r') (mp m2 r' l')).
        { rewrite <- (inc_rot l' r' (mn m2 l' r')), <- (inc_rot r' (mn m2 l' r') l'). exact B. }
        specialize (Right cr b1 b2 b3 (W2 (conj b4 (fun _ => B')))). destruct (connect h2 cr (opposite base')). exact Right.
      * apply (bool_false _ _ (inc_iff _ _ _ _)) in B. rewrite a3, b3, Hs, He in B.
        assert (B' : inc l' r' (mn m2 l' r') (mp m2 r' l') <= 0).
        { rewrite <- (inc_rot l' r' (mn m2 l' r')), <- (inc_rot r' (mn m2 l' r') l'). apply Qcnot_lt_le, B. }
        specialize (Left cl a1 a2 a3 (W1 (conj a4 (fun _ => B')))). destruct (connect h2 (opposite base') (opposite cl)). exact Left.
    + destruct C1' as (a1 & a2 & a3 & a4).
      specialize (Left cl a1 a2 a3 (W1 (conj a4 (fun x => False_ind _ (C2 x))))). destruct (connect h2 (opposite base') (opposite cl)). exact Left.
    + destruct C2 as (b1 & b2 & b3 & b4).
      specialize (Right cr b1 b2 b3 (W2 (conj b4 (fun x => False_ind _ (C1' x))))). destruct (connect h2 cr (opposite base')). exact Right.
    + eexists. reflexivity.
  - cbn [fst snd]. exists P, m, l, r, t. exact St.
  - cbn [fst snd]. pose proof (count_le (higher (end_ h base) (start h base)) (list_prod L R)) as K. rewrite prod_length in K. lia.
Qed.
End M.

(** The search for the base edge goes one way. *)
Lemma lside_back S m ep (T : DT S m) l y r : lside S m ep l y r -> (forall q, In q S -> phi ep q < phi ep r) -> 0 < cross l y r ->
  phi ep y < phi ep l.
Proof.
  intros (H & G & D) Hr C. pose proof (d_laws _ _ T) as W. pose proof (l_sym _ _ W _ _ H) as H'.
  destruct (l_next _ _ W _ _ H) as (Hn & _). pose proof (l_ne _ _ W _ _ H) as Ny. pose proof (l_ne _ _ W _ _ Hn) as Nn.
  pose proof (gap_right S l y (mn m l y) Nn Ny G) as AR.
  pose proof (l_in _ _ W _ _ H) as Hl. pose proof (l_in _ _ W _ _ H') as Hy. pose proof (e_in2 _ _ W _ _ Hn) as Hn'.
  destruct D as [D|(D1 & D2)]; [apply D; auto|].
  destruct (Qclt_le_dec (phi ep y) (phi ep l)) as [h|h]; [exact h|exfalso].
  pose proof (phi_cycle ep l y (mn m l y) r) as K. pose proof (Hr l Hl) as Hlr.
  pose proof (AR _ Hn') as A1.
  pose proof (mul_nonpos (phi ep r - phi ep l) (cross l y (mn m l y)) ltac:(ql) A1) as M1.
  pose proof (mul_nonpos (phi ep y - phi ep l) (cross l (mn m l y) r) ltac:(ql) ltac:(ql)) as M2.
  pose proof (mul_neg (phi ep (mn m l y) - phi ep l) (cross l r y) ltac:(ql)) as M3. rewrite cross_swap in M3. specialize (M3 ltac:(ql)).
  rewrite (cross_swap l y r) in K. ql.
Qed.
Lemma rside_back S m ep (T : DT S m) r z l : rside S m ep r z l -> (forall q, In q S -> phi ep l < phi ep q) -> cross r z l < 0 ->
  phi ep r < phi ep z.
Proof.
  intros H Hl C. apply (rside_mir S m ep T) in H. pose proof (lside_back _ _ _ (DT_mir _ _ T) _ _ _ H (far_mir _ _ _ Hl)) as K.
  rewrite cross_mir, !phi_mir in K. specialize (K ltac:(ql)). ql.
Qed.
Section F.
Context (L R : list point) (ep tau : Qc) (mL mR : map).
Context (HL : forall q, In q L -> phi ep q < tau) (HR : forall q, In q R -> tau < phi ep q).
Context (injL : forall a b, In a L -> In b L -> phi ep a = phi ep b -> a = b).
Context (injR : forall a b, In a R -> In b R -> phi ep a = phi ep b -> a = b).
Notation S := (L ++ R).
Definition before_ (p q : point) : bool := qlt_b (phi ep q) (phi ep p).
Definition after_ (p q : point) : bool := qlt_b (phi ep p) (phi ep q).
Lemma search_total fuel h PL PR t1 t2 : comp h PL L mL ep t1 -> comp h PR R mR ep t2 -> (length S < Pos.to_nat fuel)%nat ->
  done (while_ fuel (fun st : edge * edge =>
      let '(rs, ls) := st in
      if orientation_eqb (orientation_of h rs (start h ls)) COUNTERCLOCKWISE
      then Ok (inl (left_from_end h rs, ls))
      else if orientation_eqb (orientation_of h ls (start h rs)) CLOCKWISE
      then Ok (inl (rs, right_from_end h ls))
      else Ok (inr (rs, ls))) (right_side t1, left_side t2)).
Proof.
  intros [A1 A2 _ (A4 & A4')] [B1 B2 (B3 & B3') _] Fu.
  assert (IL : forall d, PL d -> In (start h d) L) by (intros d Hd; apply (l_in _ _ (d_laws _ _ A2) _ _ (rp_me _ _ _ _ A1 _ Hd))).
  assert (IR : forall d, PR d -> In (start h d) R) by (intros d Hd; apply (l_in _ _ (d_laws _ _ B2) _ _ (rp_me _ _ _ _ B1 _ Hd))).
  assert (FL : forall d, PR d -> forall q, In q L -> phi ep q < phi ep (start h d)).
  { intros d Hd. apply (farL L R ep tau HL HR), IR, Hd. }
  assert (FR : forall d, PL d -> forall q, In q R -> phi ep (start h d) < phi ep q).
  { intros d Hd. apply (farR L R ep tau HL HR), IL, Hd. }
  apply (while_total (fun st : edge * edge => PL (fst st) /\ PR (snd st) /\
      lside L mL ep (start h (fst st)) (end_ h (fst st)) (start h (snd st)) /\
      rside R mR ep (start h (snd st)) (end_ h (snd st)) (start h (fst st)))
    (fun st => count (before_ (start h (fst st))) L + count (after_ (start h (snd st))) R)%nat).
  - intros (a, b) (Ha & Hb & Xa & Xb). cbn [fst snd] in *.
    destruct (orientation_eqb (orientation_of h a (start h b)) COUNTERCLOCKWISE) eqn:O1.
    + unfold orientation_of in O1. apply ccw_iff in O1.
      destruct (rep_rfs_of h PL L mL A1 (opposite a) (end_ h a) (start h a)) as (Y1 & Y2 & Y3);
        [apply (rp_opp _ _ _ _ A1), Ha|reflexivity|apply end_opposite|].
      cbn [fst snd]. change (left_from_end h a) with (right_from_start h (opposite a)).
      rewrite Y2, Y3. assert (Ie : In (end_ h a) L) by (apply (IL (opposite a)), (rp_opp _ _ _ _ A1), Ha).
      split; [split; [exact Y1|]; split; [exact Hb|]; split|].
      * apply (lside_move L mL ep A2); auto.
      * apply (rside_keep R mR ep B2 _ _ (start h a)); auto.
        rewrite <- (cross_rot (start h b)). exact O1.
      * apply Nat.add_lt_mono_r. pose proof (lside_back L mL ep A2 _ _ _ Xa (FL b Hb) O1) as Bk.
        apply (filter_lt _ _ _ (end_ h a)); [|exact Ie| |].
        -- intros q Hq. unfold before_ in *. apply qlt_b_iff in Hq. apply qlt_b_iff. ql.
        -- apply qlt_b_no. ql.
        -- apply qlt_b_iff. exact Bk.
    + apply (bool_false _ _ (ccw_iff _ _ _)) in O1.
      destruct (orientation_eqb (orientation_of h b (start h a)) CLOCKWISE) eqn:O2; [|eexists; reflexivity].
      unfold orientation_of in O2. apply cw_iff in O2.
      destruct (rep_lfs_of h PR R mR B1 (opposite b) (end_ h b) (start h b)) as (Y1 & Y2 & Y3);
          [apply (rp_opp _ _ _ _ B1), Hb|reflexivity|apply end_opposite|].
      cbn [fst snd]. change (right_from_end h b) with (left_from_start h (opposite b)).
      rewrite Y2, Y3. assert (Ie : In (end_ h b) R) by (apply (IR (opposite b)), (rp_opp _ _ _ _ B1), Hb).
      split; [split; [exact Ha|]; split; [exact Y1|]; split|].
      * apply (lside_keep L mL ep _ _ (start h b)); auto.
        rewrite <- (cross_rot (start h a)). exact O2.
      * apply (rside_move R mR ep B2); auto.
      * apply Nat.add_lt_mono_l. pose proof (rside_back R mR ep B2 _ _ _ Xb (FR a Ha) O2) as Bk.
        apply (filter_lt _ _ _ (end_ h b)); [|exact Ie| |].
        -- intros q Hq. unfold after_ in *. apply qlt_b_iff in Hq. apply qlt_b_iff. ql.
        -- apply qlt_b_no. ql.
        -- apply qlt_b_iff. exact Bk.
  - cbn [fst snd]. split; [exact A4|]. split; [exact B3|]. split; [apply right_lside; auto|apply left_rside; auto].
  - cbn [fst snd]. pose proof (count_le (before_ (start h (right_side t1))) L). pose proof (count_le (after_ (start h (left_side t2))) R).
    rewrite app_length in Fu. lia.
Qed.
Theorem merge_total fuel h PL PR t1 t2 : comp h PL L mL ep t1 -> comp h PR R mR ep t2 ->
  (length S < Pos.to_nat fuel)%nat -> (length L * length R < Pos.to_nat fuel)%nat -> done (merge fuel h t1 t2).
Proof.
  intros CL CR Fu Fu2. unfold merge, find_base_edge.
  destruct (search_total fuel h PL PR t1 t2 CL CR Fu) as ((rs, ls) & E1). rewrite E1. cbn [rbind].
  apply (search_spec L R ep tau mL mR HL HR fuel h PL PR t1 t2 rs ls CL CR) in E1 as (Ha & Hb & Xa & Xb & Y1 & Y2).
  pose proof CL as [A1 A2 (A3 & A3') (A4 & A4')]. pose proof CR as [B1 B2 (B3 & B3') (B4 & B4')].
  pose proof (rep_union h PL PR L R mL mR ep tau HL HR A1 B1) as U.
  set (l := start h rs) in *. set (y := end_ h rs) in *. set (r := start h ls) in *. set (z := end_ h ls) in *.
  pose proof (first_inv L R ep tau mL mR HL HR A2 B2 injL injR l y r z Xa Xb Y1 Y2) as I.
  pose proof (l_in _ _ (d_laws _ _ A2) _ _ (rp_me _ _ _ _ A1 _ Ha)) as Hl. fold l in Hl.
  pose proof (l_in _ _ (d_laws _ _ B2) _ _ (rp_me _ _ _ _ B1 _ Hb)) as Hr. fold r in Hr.
  destruct (union_L L R ep tau mL mR HL HR (d_laws _ _ B2) l Hl) as (_ & _ & ue1).
  destruct (union_R L R ep tau mL mR HL HR (d_laws _ _ A2) r Hr) as (_ & up2 & ue2).
  assert (Nrl : r <> l) by (intros e; apply (apart L R ep tau HL HR l); [exact Hl|rewrite <- e; exact Hr]).
  pose proof (rep_connect h _ S _ U (opposite ls) rs (or_intror (rp_opp _ _ _ _ B1 _ Hb)) (or_introl Ha)) as K.
  rewrite end_opposite, start_opposite in K. fold r z l y in K. cbn zeta in K. rewrite up2 in K.
  specialize (K Nrl).
  assert (NE : ~ me (union L mL mR) r l).
  { intros h0. apply ue2 in h0. apply (apart L R ep tau HL HR l); [exact Hl|]. apply (e_in2 _ _ (d_laws _ _ B2) _ _ h0). }
  specialize (K NE (i_laws _ _ _ _ _ _ _ _ I)).
  destruct (connect h (opposite ls) rs) as (base, h1). destruct K as (K1 & K2 & K3 & K4 & K5). cbn [rbind].
  assert (St : state L R mL mR h1 (fun d => (PL d \/ PR d) \/ d = base \/ d = opposite base) base (first_map L mL mR l y r z) l r []).
  { split; auto. }
  destruct (connect_parts_total L R ep tau mL mR HL HR A2 B2 fuel h1 base _ _ l r [] St Fu Fu2) as (h2 & E). rewrite E. cbn [rbind].
  eexists. reflexivity.
Qed.
End F.

Lemma merge_round_total ep fuel : forall ts h Ss Q, wf h -> forest ep h Ss ts Q -> asc ep (concat Ss) ->
  (length (concat Ss) * length (concat Ss) + length (concat Ss) < Pos.to_nat fuel)%nat -> done (merge_round fuel h ts).
Proof.
  induction ts as [|a|a b ts IH] using pair_ind2; intros h Ss Q W F A Fu; [eexists; reflexivity..|].
  cbn [merge_round].
  inversion F as [|S1 Ss1 ? ? P1 m1 Q1 C1 F1 D1]; subst. inversion F1 as [|S2 Ss2 ? ? P2 m2 Q2 C2 F2 D2]; subst.
  cbn [concat] in A, Fu. rewrite app_assoc in A, Fu. destruct (asc_app _ _ _ A) as (A12 & A3 & _). destruct (asc_app _ _ _ A12) as (A1 & A2 & A12').
  destruct (between (List.map (phi ep) S1) (List.map (phi ep) S2)) as (tau & T1 & T2).
  { intros x y Hx Hy. apply in_map_iff in Hx as (x' & <- & Hx), Hy as (y' & <- & Hy). auto. }
  rewrite !app_length in Fu.
  destruct (merge_total S1 S2 ep tau m1 m2 (fun q Hq => T1 _ (in_map _ _ _ Hq)) (fun q Hq => T2 _ (in_map _ _ _ Hq))
    (asc_inj _ _ A1) (asc_inj _ _ A2) fuel h P1 P2 a b C1 C2) as ((t & h1) & E1); [rewrite app_length; nia|nia|].
  rewrite E1. cbn [rbind].
  destruct (merge_spec S1 S2 ep tau m1 m2 (fun q Hq => T1 _ (in_map _ _ _ Hq)) (fun q Hq => T2 _ (in_map _ _ _ Hq))
      (asc_inj _ _ A1) (asc_inj _ _ A2) fuel h P1 P2 a b t h1 C1 C2 E1) as (P' & m' & C' & Fr & Nv & _).
  pose proof Fr as (f1 & f2 & f3 & f4).
  assert (F3 : forest ep h1 Ss2 ts Q2).
  { apply (forest_frame ep h Ss2 ts Q2 (fun d => P1 d \/ P2 d)); auto. intros d Hd [h0|h0]; [apply (D1 d h0); auto|apply (D2 d h0 Hd)]. }
  destruct (IH h1 Ss2 Q2 f2 F3 A3) as ((ts1 & h2) & E2); [nia|]. rewrite E2. eexists. reflexivity.
Qed.
Lemma merge_rounds_total ep fuel : forall k ts h Ss Q, wf h -> forest ep h Ss ts Q -> asc ep (concat Ss) ->
  (length (concat Ss) * length (concat Ss) + length (concat Ss) < Pos.to_nat fuel)%nat -> done (merge_rounds fuel k h ts).
Proof.
  induction k as [|k IH]; intros ts h Ss Q W F A Fu; [eexists; reflexivity|]. cbn [merge_rounds].
  destruct (merge_round_total ep fuel ts h Ss Q W F A Fu) as ((ts1 & h1) & E1). rewrite E1. cbn [rbind].
  destruct (merge_round_spec ep fuel ts h Ss Q ts1 h1 W F A E1) as (Ss1 & Q1 & F1 & Ec & (Fr & _) & Len & Nn).
  pose proof Fr as (_ & f2 & _). rewrite <- Ec in A, Fu. apply (IH ts1 h1 Ss1 Q1 f2 F1 A Fu).
Qed.
Lemma initialize_all_total : forall sizes pts h, fold_right Nat.add 0%nat sizes = length pts -> (forall c, In c sizes -> c = 2%nat \/ c = 3%nat) ->
  done (initialize_all h (slices pts sizes)).
Proof.
  induction sizes as [|c sizes IH]; intros pts h Hs Hc; [eexists; reflexivity|]. cbn [slices initialize_all]. cbn in Hs.
  assert (I : done (initialize_triangulation h (firstn c pts))).
  { assert (Lf : length (firstn c pts) = c) by (rewrite firstn_length; lia).
    destruct (Hc c (or_introl eq_refl)) as [-> | ->]; destruct (firstn _ pts) as [|x [|y [|z [|]]]]; try discriminate Lf; eexists; reflexivity. }
  destruct I as ((t & h1) & E). rewrite E. cbn [rbind].
  destruct (IH (skipn c pts) h1) as ((ts & h2) & E2); [rewrite skipn_length; lia|intros; apply Hc; right; assumption|]. rewrite E2.
  eexists. reflexivity.
Qed.
Theorem delaunay_total ctx points : NoDup points -> (2 <= length points)%nat ->
  is_change (length points) (ctx_coins ctx (length points)) ->
  (length points * length points + length points < Pos.to_nat (ctx_fuel ctx))%nat -> exists t h, delaunay ctx points = Ok (t, h).
Proof.
  intros N L2 (Hc & Hv) Fu. unfold delaunay. rewrite isort_length. set (pts := isort point_leb points) in *.
  pose proof (isort_points_strict points N) as St. fold pts in St.
  destruct (faithful_exists pts) as (ep & Fe).
  assert (A : asc ep pts).
  { unfold asc, faithful in *. clear -St Fe. induction St as [|x l St IH Hf]; constructor.
    - apply IH. intros p q Hp Hq. apply Fe; cbn; auto.
    - rewrite Forall_forall in *. intros y Hy. apply Fe; cbn; auto. }
  assert (Lp : length pts = length points) by (unfold pts; apply isort_length).
  destruct (initialize_all_total (ctx_coins ctx (length points)) pts (empty_heap (hd (Pt (Q2Qc 0) (Q2Qc 0)) pts))) as ((ts & h1) & E1); [congruence|exact Hv|].
  rewrite E1. cbn [rbind].
  assert (Ec : concat (slices pts (ctx_coins ctx (length points))) = pts).
  { apply slices_concat. congruence. }
  destruct (initialize_all_spec ep _ _ _ _ (wf_empty _) (slices_asc ep _ _ A) E1) as (Q & F & Fr & _). pose proof Fr as (_ & f2 & _).
  assert (Nt : ts <> []).
  { intros e. apply initialize_all_length in E1. rewrite e in E1. destruct (slices pts _); [|discriminate E1]. cbn in Ec.
    rewrite <- Ec in Lp. cbn in Lp. lia. }
  assert (Ls : (length ts <= 2 ^ Z.to_nat (ceil_log2 (Z.of_nat (length ts))))%nat).
  { destruct ts as [|t0 ts0]; [congruence|]. destruct (ceil_log2_spec (Z.of_nat (length (t0 :: ts0)))) as (z1 & z2 & _); [cbn [length]; lia|].
    apply Nat2Z.inj_le. rewrite Nat2Z.inj_pow. rewrite Z2Nat.id by exact z1. exact z2. }
  rewrite <- Ec in A at 1.
  destruct (merge_rounds_total ep (ctx_fuel ctx) (Z.to_nat (ceil_log2 (Z.of_nat (length ts)))) ts h1 _ Q f2 F A) as ((ts' & h2) & E2).
  { rewrite Ec, Lp. exact Fu. }
  rewrite E2. cbn [rbind].
  destruct (merge_rounds_spec ep _ _ ts h1 _ Q ts' h2 f2 F A E2 Ls Nt) as (P & m & t0 & -> & C). eauto.
Qed.
