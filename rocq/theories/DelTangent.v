(** The lower common tangent of two separated triangulations. *)
From Coq Require Import List Lia.
From Verif Require Import Base Geometry Spec QcTac QcFast GeomProofs DelGeo DelCyc DelMap DelFan DelOps DelMir DelCand DelMerge.
Import ListNotations.
Open Scope Qc_scope.

Lemma phi_cycle ep l a b c : (phi ep c - phi ep l) * cross l a b + (phi ep a - phi ep l) * cross l b c
  + (phi ep b - phi ep l) * cross l c a = 0.
Proof. unfold phi, cross. ring. Qed.
Lemma phi_param ep a b q t : px q = px a + t * (px b - px a) -> py q = py a + t * (py b - py a) ->
  phi ep q = phi ep a + t * (phi ep b - phi ep a).
Proof. intros tx ty. unfold phi. rewrite tx, ty. ring. Qed.
Lemma btw_phi ep tau a b q : btw q a b -> phi ep a < tau -> phi ep b < tau -> phi ep q < tau.
Proof.
  intros B Ha Hb. destruct (btw_param _ _ _ B) as (t & t0 & t1 & tx & ty). rewrite (phi_param ep a b q t tx ty).
  pose proof (mul_pos (1 - t) (tau - phi ep a) ltac:(ql) ltac:(ql)) as M1.
  pose proof (mul_pos t (tau - phi ep b) ltac:(ql) ltac:(ql)) as M2.
  assert (K : tau - (phi ep a + t * (phi ep b - phi ep a)) = (1 - t) * (tau - phi ep a) + t * (tau - phi ep b)) by ring. ql.
Qed.
Lemma btw_phi' ep tau a b q : btw q a b -> tau < phi ep a -> tau < phi ep b -> tau < phi ep q.
Proof.
  intros B Ha Hb. destruct (btw_param _ _ _ B) as (t & t0 & t1 & tx & ty). rewrite (phi_param ep a b q t tx ty).
  pose proof (mul_pos (1 - t) (phi ep a - tau) ltac:(ql) ltac:(ql)) as M1.
  pose proof (mul_pos t (phi ep b - tau) ltac:(ql) ltac:(ql)) as M2.
  assert (K : (phi ep a + t * (phi ep b - phi ep a)) - tau = (1 - t) * (phi ep a - tau) + t * (phi ep b - tau)) by ring. ql.
Qed.
Lemma phi_apart ep tau a b c d : phi ep a < tau -> phi ep b < tau -> tau < phi ep c -> tau < phi ep d -> ~ crossing a b c d.
Proof.
  intros Ha Hb Hc Hd (c1 & c2 & c3 & c4).
  pose proof (mul_pos _ _ c4 (ltac:(ql) : 0 < tau - phi ep a)) as M1.
  pose proof (mul_pos _ _ (ltac:(ql) : 0 < - cross c d a) (ltac:(ql) : 0 < tau - phi ep b)) as M2.
  pose proof (mul_pos _ _ c1 (ltac:(ql) : 0 < phi ep d - tau)) as M3.
  pose proof (mul_pos _ _ (ltac:(ql) : 0 < - cross a b d) (ltac:(ql) : 0 < phi ep c - tau)) as M4.
  assert (K : cross c d b * (tau - phi ep a) + - cross c d a * (tau - phi ep b) + cross a b c * (phi ep d - tau)
    + - cross a b d * (phi ep c - tau) = 0) by (unfold phi, cross; ring). ql.
Qed.
Lemma crossing_sym a b c d : crossing a b c d -> crossing d c a b.
Proof.
  intros (c1 & c2 & c3 & c4). red. rewrite !(cross_flip c d). repeat split; ql.
Qed.

(** ** The left part *)
Definition lside (S : list point) (m : map) (ep : Qc) (l y r : point) : Prop :=
  me m l y /\ gap S l y (mn m l y) /\
  ((forall q, In q S -> q <> l -> phi ep q < phi ep l) \/ (phi ep l < phi ep (mn m l y) /\ cross l (mn m l y) r < 0)).

Section L.
Context (S : list point) (m : map) (ep : Qc) (T : DT S m).
Context (inj : forall a b, In a S -> In b S -> phi ep a = phi ep b -> a = b).
Notation ph := (phi ep).
Let W := d_laws _ _ T.

Lemma gap_here v y : me m v y -> (forall q, In q S -> cross v y q <= 0) -> gap S v y (mn m v y).
Proof.
  intros H A. destruct (d_corner _ _ T _ _ H) as [((P & _) & _)|g]; [exfalso|exact g].
  destruct (l_next _ _ W _ _ H) as (H' & _). specialize (A _ (e_in2 _ _ W _ _ H')). ql.
Qed.
Lemma lside_move l y r : lside S m ep l y r -> (forall q, In q S -> ph q < ph r) -> 0 < cross l y r ->
  lside S m ep y (mp m y l) r.
Proof.
  intros (H & G & D) Hr C. pose proof (l_sym _ _ W _ _ H) as H'. destruct (l_prev _ _ W _ _ H') as (Hp & En).
  destruct (l_next _ _ W _ _ H) as (Hn & _). pose proof (l_ne _ _ W _ _ H) as Ny. pose proof (l_ne _ _ W _ _ Hn) as Nn.
  pose proof (gap_right S l y (mn m l y) Nn Ny G) as AR.
  pose proof (l_in _ _ W _ _ H) as Hl. pose proof (l_in _ _ W _ _ H') as Hy. pose proof (e_in2 _ _ W _ _ Hn) as Hn'.
  split; [exact Hp|]. split; [|right]; rewrite En.
  - rewrite <- En at 2. destruct (d_corner _ _ T _ _ Hp) as [((P & _) & _)|g]; [exfalso|exact g].
    rewrite En in P. specialize (AR _ (e_in2 _ _ W _ _ Hp)).
    pose proof (cross_rot y (mp m y l) l) as K. pose proof (cross_rot (mp m y l) l y) as K2. ql.
  - split; [|rewrite cross_flip; ql]. destruct D as [D|(D1 & D2)]; [apply D; auto|].
    destruct (Qclt_le_dec (ph y) (ph l)) as [h|h]; [exact h|exfalso].
    pose proof (phi_cycle ep l y (mn m l y) r) as K. pose proof (Hr l Hl) as Hlr.
    pose proof (AR _ Hn') as A1.
    pose proof (mul_nonpos (ph r - ph l) (cross l y (mn m l y)) ltac:(ql) A1) as M1.
    pose proof (mul_nonpos (ph y - ph l) (cross l (mn m l y) r) ltac:(ql) ltac:(ql)) as M2.
    pose proof (mul_neg (ph (mn m l y) - ph l) (cross l r y) ltac:(ql)) as M3. rewrite cross_swap in M3. specialize (M3 ltac:(ql)).
    rewrite (cross_swap l y r) in K. ql.
Qed.
Lemma lside_keep l y r z : lside S m ep l y r -> ph l < ph r -> ph l < ph z -> cross l r z < 0 -> lside S m ep l y z.
Proof.
  intros (H & G & D) Hr Hz C. split; [exact H|]. split; [exact G|]. destruct D as [D|(D1 & D2)]; [auto|right].
  split; [exact D1|]. apply (neg_of_mul (ph r - ph l)); [ql|].
  set (p := mn m l y) in *. pose proof (phi_cycle ep l p r z) as K. rewrite (cross_swap l p z) in K.
  pose proof (mul_neg (ph p - ph l) (cross l r z) ltac:(ql) C) as M1.
  pose proof (mul_neg (ph z - ph l) (cross l p r) ltac:(ql) D2) as M2.
  assert (e : (ph r - ph l) * - cross l p z = - ((ph r - ph l) * cross l p z)) by ring. rewrite e in K. ql.
Qed.
Lemma lside_exit l y r : lside S m ep l y r -> (forall q, In q S -> ph q < ph r) -> cross l y r <= 0 ->
  forall q, In q S -> 0 <= cross l r q /\ ~ btw q l r.
Proof.
  intros (H & G & D) Hr C q Hq. pose proof (l_sym _ _ W _ _ H) as H'.
  destruct (l_next _ _ W _ _ H) as (Hn & _). pose proof (l_ne _ _ W _ _ H) as Ny. pose proof (l_ne _ _ W _ _ Hn) as Nn.
  pose proof (gap_right S l y (mn m l y) Nn Ny G) as AR. pose proof (gap_left S l y (mn m l y) Nn Ny G) as AL.
  pose proof (l_in _ _ W _ _ H) as Hl. pose proof (l_in _ _ W _ _ H') as Hy. pose proof (e_in2 _ _ W _ _ Hn) as Hn'.
  pose proof (Hr l Hl) as Hlr. set (p := mn m l y) in *.
  destruct (point_eq_dec q l) as [->|Nq].
  { split; [rewrite cross_aba; ql|]. intros B. apply btw_neq in B. tauto. }
  assert (NB : ph q < ph l -> ~ btw q l r).
  { intros h B. assert (~ ph q < ph l); [|auto]. destruct (btw_param _ _ _ B) as (t & t0 & t1 & tx & ty).
    rewrite (phi_param ep l r q t tx ty). pose proof (mul_pos t (ph r - ph l) t0 ltac:(ql)). ql. }
  assert (Back : ph y < ph l -> ph q < ph l -> 0 <= cross l r q).
  { intros h1 h2. pose proof (phi_cycle ep l y q r) as K.
    pose proof (mul_nonpos (ph r - ph l) (cross l y q) ltac:(ql) (AR q Hq)) as M1.
    pose proof (mul_nonpos (ph l - ph q) (cross l y r) ltac:(ql) C) as M2.
    rewrite (cross_swap l y r) in K. apply (nonneg_of_mul (ph l - ph y)); [ql|].
    rewrite (cross_swap l r q) in K.
    assert (e : (ph l - ph y) * cross l r q = (ph y - ph l) * - cross l r q) by ring. rewrite e.
    assert (e2 : (ph l - ph q) * cross l y r = (ph q - ph l) * - cross l y r) by ring. rewrite e2 in M2. ql. }
  destruct D as [D|(D1 & D2)].
  - split; [apply Back; apply D; auto|apply NB; apply D; auto].
  - destruct (Qclt_le_dec (ph q) (ph l)) as [h|h].
    + split; [|auto]. destruct (Qclt_le_dec (ph y) (ph l)) as [h'|h']; [apply Back; auto|exfalso].
      assert (hy : ph l < ph y).
      { destruct (Qcle_lt_or_eq _ _ h') as [g|g]; [exact g|]. exfalso. apply Ny. symmetry. apply inj; auto. }
      pose proof (phi_cycle ep l y p q) as K.
      pose proof (mul_nonneg (ph l - ph q) (- cross l y p) ltac:(ql) ltac:(pose proof (AR p Hn'); ql)) as M1.
      pose proof (mul_nonneg (ph y - ph l) (cross l p q) ltac:(ql) (AL q Hq)) as M2.
      pose proof (mul_nonneg (ph p - ph l) (- cross l y q) ltac:(ql) ltac:(pose proof (AR q Hq); ql)) as M3.
      rewrite (cross_swap l y q) in K.
      assert (e : (ph l - ph q) * - cross l y p = (ph q - ph l) * cross l y p) by ring. rewrite e in M1.
      assert (Z1 : (ph q - ph l) * cross l y p = 0) by ql. assert (Z2 : (ph p - ph l) * - cross l y q = 0) by ql.
      assert (cyp : cross l y p = 0).
      { destruct (mul_zero _ _ Z1) as [g|g]; [exfalso; ql|exact g]. }
      assert (cyq : cross l y q = 0).
      { destruct (mul_zero _ _ Z2) as [g|g]; [exfalso; ql|ql]. }
      destruct (line_param l y p (not_eq_sym Ny) cyp) as (t & tx & ty).
      destruct (line_param l y q (not_eq_sym Ny) cyq) as (s & sx & sy).
      pose proof (phi_param ep l y p t tx ty) as e1. pose proof (phi_param ep l y q s sx sy) as e2.
      assert (t0 : 0 < t).
      { apply (pos_of_mul (ph y - ph l)); [ql|]. rewrite Qcmult_comm. ql. }
      assert (s0 : s < 0).
      { apply (neg_of_mul (ph y - ph l)); [ql|]. rewrite Qcmult_comm. ql. }
      pose proof (d2_pos l y (not_eq_sym Ny)) as dp.
      assert (A4 : ad l y p = q4).
      { apply ad_same_iff; auto. replace (dot l y p) with (t * d2 l y) by (unfold dot, d2; rewrite tx, ty; ring). apply mul_pos; auto. }
      destruct G as (_ & G). specialize (G q Hq Nq). rewrite A4 in G.
      pose proof (ad_range l y q Ny Nq) as (_ & r4). assert (r5 : ad l y q = q4) by ql.
      destruct (ad_same l y q Ny Nq r5) as (_ & dq).
      replace (dot l y q) with (d2 l y * s) in dq by (unfold dot, d2; rewrite sx, sy; ring).
      pose proof (mul_neg _ _ dp s0). ql.
    + pose proof (phi_cycle ep l p q r) as K.
      pose proof (mul_nonneg (ph r - ph l) (cross l p q) ltac:(ql) (AL q Hq)) as M1.
      pose proof (mul_nonneg (ph q - ph l) (- cross l p r) ltac:(ql) ltac:(ql)) as M2.
      rewrite (cross_swap l p r), (cross_swap l r q) in K. split.
      * apply (nonneg_of_mul (ph p - ph l)); [ql|].
        assert (e : (ph p - ph l) * - cross l r q = - ((ph p - ph l) * cross l r q)) by ring. rewrite e in K. ql.
      * intros (B & B'). rewrite B in K. assert (hq : ph l < ph q).
        { destruct (Qcle_lt_or_eq _ _ h) as [g|g]; [exact g|]. exfalso. apply Nq. symmetry. apply inj; auto. }
        pose proof (mul_pos (ph q - ph l) (- cross l p r) ltac:(ql) ltac:(ql)) as M3.
        replace ((ph p - ph l) * - 0) with 0 in K by ring. ql.
Qed.
(** Where the tangent leaves the left part. *)
Lemma lside_place l y r : lside S m ep l y r -> (forall q, In q S -> ph q < ph r) -> cross l y r <= 0 ->
  ad l y r < ad l y (mn m l y).
Proof.
  intros LS Hr C. pose proof (lside_exit l y r LS Hr C) as X. destruct LS as (H & G & _).
  pose proof (l_sym _ _ W _ _ H) as H'. destruct (l_next _ _ W _ _ H) as (Hn & _).
  pose proof (l_ne _ _ W _ _ H) as Ny. pose proof (l_ne _ _ W _ _ Hn) as Nn.
  pose proof (l_in _ _ W _ _ H) as Hl. pose proof (l_in _ _ W _ _ H') as Hy. pose proof (e_in2 _ _ W _ _ Hn) as Hn'.
  assert (Nr : r <> l) by (intros ->; specialize (Hr l Hl); ql).
  assert (A : forall q, In q S -> q <> l -> ad l r q <= q2).
  { intros q Hq Nq. destruct (X q Hq) as (x1 & x2). destruct (ad_nonneg l r q Nr Nq x1) as [h|h]; [exact h|exfalso].
    destruct (same_btw l r q Nr Nq h) as [e|[e|e]].
    - subst. specialize (Hr _ Hq). ql.
    - assert (ph r < ph r); [|ql]. apply (btw_phi ep (ph r) l q r e); auto.
    - auto. }
  set (p := mn m l y) in *. pose proof (A p Hn' Nn) as A1. pose proof (A y Hy Ny) as A2.
  pose proof (ad_range l r p Nr Nn) as (r1 & _). pose proof (ad_range l y r Ny Nr) as (r2 & r3).
  destruct G as (G & _).
  destruct (ad_tri l y r p Ny Nr Nn) as [t|t]; [ql|].
  destruct (ad_opp l y r Ny Nr) as [o|(o & o')]; [|ql].
  pose proof (ad_range l r y Nr Ny) as (r4 & _). ql.
Qed.
End L.

(** ** The right part *)
Definition rside (S : list point) (m : map) (ep : Qc) (r z l : point) : Prop :=
  me m r z /\ gap S r (mp m r z) z /\
  ((forall q, In q S -> q <> r -> phi ep r < phi ep q) \/ (phi ep (mp m r z) < phi ep r /\ 0 < cross r (mp m r z) l)).
Lemma phi_mir ep q : phi (- ep) (mir q) = - phi ep q.
Proof. unfold phi, mir; cbn [px py]. ring. Qed.
Lemma mir_neq a b : a <> b -> mir a <> mir b.
Proof. intros N e. apply N, mir_inj, e. Qed.
Lemma gap_mir S v a b : a <> v -> b <> v -> gap S v a b -> gap (List.map mir S) (mir v) (mir b) (mir a).
Proof.
  intros Na Nb (g & g'). split; rewrite ad_mir by auto; [exact g|]. intros q Hq Nq. apply in_mir in Hq.
  rewrite <- (mir_mir q), ad_mir; [|auto|intros e; apply Nq; rewrite <- e, mir_mir; reflexivity].
  assert (mir q <> v) by (intros e; apply Nq; rewrite <- e, mir_mir; reflexivity).
  apply ad_le_rev; auto.
Qed.
Lemma gap_mir' S v a b : a <> v -> b <> v -> gap (List.map mir S) (mir v) (mir b) (mir a) -> gap S v a b.
Proof.
  intros Na Nb (g & g'). rewrite ad_mir in g by auto. split; [exact g|]. intros q Hq Nq.
  specialize (g' (mir q) (proj2 (mir_in _ _) Hq) (mir_neq _ _ Nq)). rewrite !ad_mir in g' by auto.
  destruct (ad_opp v a b Na Nb) as [o1|(o1 & _)], (ad_opp v q b Nq Nb) as [o2|(o2 & o2')], (ad_opp v a q Na Nq) as [o3|(o3 & o3')].
  all: try (pose proof (ad_range v a q Na Nq); pose proof (ad_range v q b Nq Nb); pose proof (ad_range v a b Na Nb);
    destruct (ad_tri v a q b Na Nq Nb) as [t|t]; destruct H, H0, H1; try ql).
Qed.
Section R.
Context (S : list point) (m : map) (ep : Qc) (T : DT S m).
Context (inj : forall a b, In a S -> In b S -> phi ep a = phi ep b -> a = b).
Notation ph := (phi ep).
Let W := d_laws _ _ T.
Lemma inj_mir a b : In a (List.map mir S) -> In b (List.map mir S) -> phi (- ep) a = phi (- ep) b -> a = b.
Proof.
  intros Ha Hb e. apply in_mir in Ha, Hb. rewrite <- (mir_mir a), <- (mir_mir b) in e. rewrite !phi_mir in e.
  apply mir_inj, inj; auto. ql.
Qed.
Lemma rside_mir r z l : rside S m ep r z l <-> lside (List.map mir S) (mirm m) (- ep) (mir r) (mir z) (mir l).
Proof.
  unfold rside, lside. cbn [mirm me mn]. rewrite !mir_mir, !phi_mir, !cross_mir. split.
  - intros (H & G & D). destruct (l_prev _ _ W _ _ H) as (Hp & _). split; [exact H|]. split.
    + apply gap_mir; auto; eapply (l_ne _ _ W); eauto.
    + destruct D as [D|(D1 & D2)]; [left|right; split; ql]. intros q Hq Nq. apply in_mir in Hq.
      rewrite <- (mir_mir q), phi_mir. assert (ph r < ph (mir q)); [|ql]. apply D; auto. intros e. apply Nq. rewrite <- e, mir_mir. reflexivity.
  - intros (H & G & D). destruct (l_prev _ _ W _ _ H) as (Hp & _). split; [exact H|]. split.
    + apply gap_mir'; auto; eapply (l_ne _ _ W); eauto.
    + destruct D as [D|(D1 & D2)]; [left|right; split; ql]. intros q Hq Nq.
      specialize (D (mir q) (proj2 (mir_in _ _) Hq) (mir_neq _ _ Nq)). rewrite phi_mir in D. ql.
Qed.
Lemma far_mir l : (forall q, In q S -> ph l < ph q) -> forall q, In q (List.map mir S) -> phi (- ep) q < phi (- ep) (mir l).
Proof. intros H q Hq. apply in_mir in Hq. specialize (H _ Hq). rewrite <- (mir_mir q), !phi_mir. ql. Qed.
Lemma rside_move r z l : rside S m ep r z l -> (forall q, In q S -> ph l < ph q) -> cross r z l < 0 ->
  rside S m ep z (mn m z r) l.
Proof.
  intros RS Hl C. apply rside_mir in RS. apply rside_mir.
  pose proof (lside_move _ _ _ (DT_mir _ _ T) _ _ _ RS (far_mir _ Hl)) as K.
  cbn [mirm mp] in K. rewrite !mir_mir in K. apply K. rewrite cross_mir. ql.
Qed.
Lemma rside_keep r z l y : rside S m ep r z l -> ph l < ph r -> ph y < ph r -> 0 < cross r l y -> rside S m ep r z y.
Proof.
  intros RS Hl Hy C. apply rside_mir in RS. apply rside_mir.
  apply (lside_keep _ _ _ _ _ _ (mir y) RS); rewrite ?phi_mir, ?cross_mir; ql.
Qed.
Lemma rside_exit r z l : rside S m ep r z l -> (forall q, In q S -> ph l < ph q) -> 0 <= cross r z l ->
  forall q, In q S -> 0 <= cross l r q /\ ~ btw q l r.
Proof.
  intros RS Hl C q Hq. apply rside_mir in RS.
  destruct (lside_exit _ _ _ (DT_mir _ _ T) inj_mir _ _ _ RS (far_mir _ Hl)) with (q := mir q) as (x1 & x2).
  - rewrite cross_mir. ql.
  - apply mir_in, Hq.
  - rewrite cross_mir in x1. split; [rewrite cross_flip; ql|]. intros B. apply x2, btw_mir, btw_sym, B.
Qed.
Lemma rside_place r z l : rside S m ep r z l -> (forall q, In q S -> ph l < ph q) -> 0 <= cross r z l ->
  ad r (mp m r z) l < ad r (mp m r z) z.
Proof.
  intros RS Hl C. pose proof RS as (H & _). destruct (l_prev _ _ W _ _ H) as (Hp & _).
  assert (Nl : l <> r) by (intros ->; specialize (Hl r (l_in _ _ W _ _ H)); ql).
  pose proof (l_ne _ _ W _ _ H) as Nz. pose proof (l_ne _ _ W _ _ Hp) as Np.
  pose proof (rside_exit r z l RS Hl C) as X.
  apply rside_mir in RS.
  pose proof (lside_place _ _ _ (DT_mir _ _ T) inj_mir _ _ _ RS (far_mir _ Hl)) as K.
  cbn [mirm mn] in K. rewrite !mir_mir, !ad_mir in K by auto. rewrite cross_mir in K. specialize (K ltac:(ql)).
  set (p := mp m r z) in *.
  pose proof (ad_range r l z Nl Nz) as (r1 & _).
  destruct (ad_tri r p l z Np Nl Nz) as [t|t]; [ql|]. exfalso.
  pose proof (ad_range r p l Np Nl) as (_ & r2). ql.
Qed.
End R.
