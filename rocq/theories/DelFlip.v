(** Flipping the diagonal of a strictly convex quadrilateral. *)
From Coq Require Import List Lia.
From Verif Require Import Base Geometry Spec QcTac QcFast GeomProofs QuadEdge QuadProofs DelGeo DelCyc DelMap DelFan DelOps DelCand DelMerge DelStart DelTangent DelHull DelHeap DelCarve.
Import ListNotations.
Open Scope Qc_scope.

(** An edge that crosses a side [u x] of a triangle without points whose other sides are edges comes
    from the third corner. *)
Lemma from_apex S m u x v a b : laws S m -> vacant S u x v -> me m x v -> me m v u -> me m a b -> crossing u x a b -> a = v.
Proof.
  intros W (D & Em) Exv Evu Eab (g & g' & eu & ex). destruct (point_eq_dec a v) as [|n]; [assumption|exfalso].
  pose proof (bary u x v a a b) as Ka. pose proof (bary u x v b a b) as Kb. rewrite cross_aba in Ka. rewrite cross_abb in Kb. rewrite Qcmult_0_r in Ka, Kb.
  assert (Sa : cross x v a + cross v u a + cross u x a = cross u x v) by (unfold cross; ring).
  assert (Sb : cross x v b + cross v u b + cross u x b = cross u x v) by (unfold cross; ring).
  assert (Out : cross x v a < 0 \/ cross v u a < 0).
  { destruct (Qclt_le_dec (cross x v a) 0) as [h|h]; [auto|]. destruct (Qclt_le_dec (cross v u a) 0) as [h'|h']; [auto|]. exfalso.
    destruct (Em a (l_in _ _ W _ _ Eab) ltac:(ql) h h') as [->|[->|e]]; [rewrite cross_aba in g; ql|rewrite cross_abb in g; ql|auto]. }
  set (al := cross x v a) in *. set (be := cross v u a) in *. set (ga := cross u x a) in *.
  set (al' := cross x v b) in *. set (be' := cross v u b) in *. set (ga' := cross u x b) in *. set (D0 := cross u x v) in *.
  set (U := cross a b u) in *. set (X := cross a b x) in *.
  destruct (Qclt_le_dec 0 (cross a b v)) as [h|h]; [|destruct (Qcle_lt_or_eq _ _ h) as [h'|h']].
  - pose proof (mul_pos _ _ g h) as M. pose proof (mul_neg (cross a b v) ga' h g') as M'. rewrite Qcmult_comm in M'.
    assert (nb : be < 0).
    { destruct (Qclt_le_dec be 0) as [|z]; [assumption|exfalso]. destruct Out as [o|o]; [|ql].
      pose proof (mul_neg_neg al U o eu). pose proof (mul_nonneg be X z ltac:(ql)). ql. }
    assert (pb : 0 < be').
    { destruct (Qclt_le_dec 0 be') as [|z]; [assumption|exfalso]. pose proof (mul_nonpos X be' ltac:(ql) z) as M2. rewrite Qcmult_comm in M2.
      assert (0 < al') by ql. pose proof (mul_neg al' U ltac:(assumption) eu). ql. }
    apply (l_planar _ _ W v u b a); auto using (l_sym _ _ W). red. fold be be'.
    rewrite (cross_flip a b v), (cross_flip a b u). fold U. repeat split; ql.
  - pose proof (mul_neg _ _ g h') as M. pose proof (mul_neg_neg ga' (cross a b v) g' h') as M'.
    assert (nb : al < 0).
    { destruct (Qclt_le_dec al 0) as [|z]; [assumption|exfalso]. destruct Out as [o|o]; [ql|].
      pose proof (mul_nonpos al U z ltac:(ql)). pose proof (mul_neg X be ex o) as M2. rewrite Qcmult_comm in M2. ql. }
    assert (pb : 0 < al').
    { destruct (Qclt_le_dec 0 al') as [|z]; [assumption|exfalso]. assert (0 < be') by ql. pose proof (mul_pos _ _ H ex).
      pose proof (mul_nonpos_nonpos al' U z ltac:(ql)). ql. }
    apply (l_planar _ _ W x v b a); auto using (l_sym _ _ W). red. fold al al'.
    rewrite (cross_flip a b v), (cross_flip a b x). fold X. repeat split; ql.
  - rewrite h', Qcmult_0_r in Ka, Kb.
    assert (al < 0 /\ be < 0) as (na & nb).
    { destruct Out as [o|o]; (split; [|]); try assumption.
      - destruct (Qclt_le_dec be 0) as [|z]; [assumption|exfalso]. pose proof (mul_neg_neg al U o eu). pose proof (mul_nonneg be X z ltac:(ql)). ql.
      - destruct (Qclt_le_dec al 0) as [|z]; [assumption|exfalso]. pose proof (mul_nonpos al U z ltac:(ql)). pose proof (mul_neg X be ex o) as M2. rewrite Qcmult_comm in M2. ql. }
    assert (Nab : a <> b) by (intros e; apply (l_ne _ _ W _ _ Eab); auto).
    destruct (line_param a b v Nab h') as (t & tx & ty).
    assert (K : D0 = ga + t * (ga' - ga)) by (unfold D0, ga, ga', cross; rewrite tx, ty; ring).
    assert (t0 : 0 < t).
    { apply (pos_of_mul (ga - ga')); [ql|]. replace ((ga - ga') * t) with (ga - (ga + t * (ga' - ga))) by ring. rewrite <- K. ql. }
    assert (t1 : t < 1).
    { assert (0 < 1 - t); [|ql]. apply (pos_of_mul (ga - ga')); [ql|]. replace ((ga - ga') * (1 - t)) with ((ga + t * (ga' - ga)) - ga') by ring. rewrite <- K. ql. }
    apply (l_clean _ _ W a b v Eab); [apply (l_in _ _ W _ _ Evu)|]. apply (param_btw a b v t); auto.
Qed.
Lemma crossing_turn a b c d : crossing a b c d -> crossing b a d c.
Proof.
  intros (h1 & h2 & h3 & h4). red. rewrite (cross_flip a b c), (cross_flip a b d), (cross_flip c d a), (cross_flip c d b). repeat split; ql.
Qed.
(** One half of a convex quadrilateral is covered by the two halves made by the other diagonal. *)
Lemma half_vacant S w v u x : vacant S w v u -> vacant S v w x -> 0 < cross u w x -> 0 < cross x v u -> vacant S u w x.
Proof.
  intros (T1 & E1) (T2 & E2) C1 C2. split; [exact C1|]. intros q Hq h1 h2 h3.
  assert (Nv : q <> v).
  { intros ->. rewrite (cross_flip u x v) in h3. 
    assert (cross u x v = cross x v u) by (unfold cross; ring). ql. }
  assert (P1 : 0 < cross v u w) by (replace (cross v u w) with (cross w v u) by (unfold cross; ring); exact T1).
  assert (P2 : 0 < cross v u x) by (replace (cross v u x) with (cross x v u) by (unfold cross; ring); exact C2).
  assert (P3 : 0 < cross x v w) by (replace (cross x v w) with (cross v w x) by (unfold cross; ring); exact T2).
  destruct (Qclt_le_dec (cross w v q) 0) as [h|h].
  - assert (0 <= cross x v q).
    { apply (nonneg_of_mul (cross u w x)); [exact C1|]. rewrite <- (bary u w x q x v), cross_aba, Qcmult_0_r.
      pose proof (mul_nonneg (cross w x q) (cross x v u) h2 ltac:(ql)). pose proof (mul_nonneg (cross x u q) (cross x v w) h3 ltac:(ql)). ql. }
    destruct (E2 q Hq) as [e|[e|e]]; auto; try contradiction. rewrite cross_flip. ql.
  - assert (0 <= cross v u q).
    { apply (nonneg_of_mul (cross u w x)); [exact C1|]. rewrite <- (bary u w x q v u), cross_abb, Qcmult_0_r.
      pose proof (mul_nonneg (cross x u q) (cross v u w) h3 ltac:(ql)). pose proof (mul_nonneg (cross u w q) (cross v u x) h1 ltac:(ql)). ql. }
    destruct (E1 q Hq h) as [e|[e|e]]; auto; contradiction.
Qed.
Lemma ad_inside v a x b : a <> v -> x <> v -> b <> v -> 0 < cross v a x -> 0 < cross v x b -> ad v a x < ad v a b.
Proof.
  intros Na Nx Nb h1 h2. destruct (ad_pos v a x Na Nx h1) as (r1 & r2). destruct (ad_pos v x b Nx Nb h2) as (r3 & r4).
  pose proof (ad_range v a b Na Nb) as (r5 & _). destruct (ad_tri v a x b Na Nx Nb) as [h|h]; [ql|]. exfalso. ql.
Qed.

Section F.
Context (S : list point) (m : map) (bd : point -> point -> Prop) (K : carved S m bd).
Let W := k_laws _ _ _ K.
Context (w v : point) (E : me m w v) (B1 : ~ bd w v) (B2 : ~ bd v w).
Let u := mn m w v.
Let x := mn m v w.
Lemma two_triangles : vacant S w v u /\ vacant S v w x /\ me m v u /\ me m w u /\ me m w x /\ me m v x
  /\ mn m v u = w /\ mn m u w = v /\ mn m w x = v /\ mn m x v = w.
Proof.
  pose proof (l_sym _ _ W _ _ E) as E'.
  destruct (k_corner _ _ _ K _ _ E) as [B|(t1 & s1)]; [contradiction|]. destruct (k_corner _ _ _ K _ _ E') as [B|(t2 & s2)]; [contradiction|].
  fold u in t1, s1. fold x in t2, s2. pose proof (proj1 (l_next _ _ W _ _ E)) as Ewu. pose proof (proj1 (l_next _ _ W _ _ E')) as Evx. fold u in Ewu. fold x in Evx.
  split; [exact t1|]. split; [exact t2|]. do 4 (split; [assumption|]).
  repeat split; apply (vtri_corner _ _ W); auto using (l_sym _ _ W), vacant_rot.
Qed.
Context (C1 : 0 < cross u w x) (C2 : 0 < cross x v u).
Definition flipped : map := ins (del m w v) u x w v.
Lemma carved_flip : laws S flipped /\ carved S flipped bd /\ mn flipped u w = x /\
  forall p q, me m p q -> p <> w \/ q <> x -> p <> v \/ q <> u -> p <> u \/ q <> w -> p <> x \/ q <> v -> mn flipped p q = mn m p q.
Proof.
  destruct two_triangles as (t1 & t2 & Evu & Ewu & Ewx & Evx & n1 & n2 & n3 & n4).
  pose proof (half_vacant S w v u x t1 t2 C1 C2) as v1. pose proof (half_vacant S v w x u t2 t1 C2 C1) as v2.
  destruct (vacant_neq _ _ _ _ t1) as (q1 & q2' & q3). destruct (vacant_neq _ _ _ _ t2) as (q4' & q5 & q6).
  assert (nux : x <> u) by (intros e; rewrite e, cross_aba in C1; ql).
  assert (Cr : crossing w v u x).
  { red. split; [apply t1|]. split; [rewrite cross_flip; pose proof (proj1 t2); ql|]. split.
    - replace (cross u x w) with (- cross u w x) by (unfold cross; ring). ql.
    - replace (cross u x v) with (cross x v u) by (unfold cross; ring). exact C2. }
  assert (Nux : ~ me m u x) by (intros h; apply (l_planar _ _ W w v u x E h Cr)).
  pose proof (laws_del S m W w v E) as Wd.
  assert (Dl : forall a b, me m a b -> ~ same_edge w v a b -> me (del m w v) a b) by (intros a b h1 h2; split; assumption).
  assert (Lw : laws S flipped).
  { unfold flipped. apply laws_ins; auto.
    - apply (e_in2 _ _ W w), Ewu.
    - apply (e_in2 _ _ W w), Ewx.
    - intros (h & _). auto.
    - apply Dl; [apply (l_sym _ _ W), Ewu|]. unfold same_edge. intuition congruence.
    - apply Dl; [apply (l_sym _ _ W), Evx|]. unfold same_edge. intuition congruence.
    - cbn [del mn]. destruct (point_eq_dec u w); [congruence|]. destruct (point_eq_dec u v); [congruence|]. rewrite n2.
      apply ad_inside; try congruence. replace (cross u x v) with (cross x v u) by (unfold cross; ring). exact C2.
    - cbn [del mn]. destruct (point_eq_dec x w); [congruence|]. destruct (point_eq_dec x v); [congruence|]. rewrite n4.
      apply ad_inside; try congruence. replace (cross x u w) with (cross u w x) by (unfold cross; ring). exact C1.
    - intros q Hq B. destruct (btw_neq _ _ _ B) as (z1 & z2 & z3). destruct (btw_param _ _ _ B) as (t & h0 & h1 & X & Y).
      destruct v1 as (_ & v1). destruct (v1 q Hq) as [e|[e|e]].
      + replace (cross u w q) with (t * cross u w x) by (unfold cross; rewrite X, Y; ring). apply mul_nonneg; ql.
      + replace (cross w x q) with ((1 - t) * cross u w x) by (unfold cross; rewrite X, Y; ring). apply mul_nonneg; ql.
      + replace (cross x u q) with (Q2Qc 0) by (unfold cross; rewrite X, Y; ring). ql.
      + congruence.
      + subst q. assert (Z : cross u w x = 0); [|ql].
        assert (Z1 : cross u x w = 0) by (unfold cross; rewrite X, Y; ring). replace (cross u w x) with (- cross u x w) by (unfold cross; ring). rewrite Z1. ring.
      + congruence.
    - intros a b (h & h') C. apply h'. right. split.
      + apply (from_apex S m u x v a b); auto using (l_sym _ _ W). apply vacant_rot, vacant_rot. exact v2.
      + apply (from_apex S m x u w b a); auto using (l_sym _ _ W).
        * apply vacant_rot, vacant_rot. exact v1.
        * apply crossing_turn, C. }
  assert (NB : ~ bd w u /\ ~ bd v x /\ ~ bd x w /\ ~ bd u v).
  { assert (b1 : ~ bd u v) by (intros h; apply B2; rewrite <- n1; apply (k_next _ _ _ K), h).
    assert (b2 : ~ bd x w) by (intros h; apply B1; rewrite <- n3; apply (k_next _ _ _ K), h).
    split; [|split; [|split; assumption]].
    - intros h. apply b1. rewrite <- n2. apply (k_next _ _ _ K), h.
    - intros h. apply b2. rewrite <- n4. apply (k_next _ _ _ K), h. }
  destruct NB as (b1 & b2 & b3 & b4).
  assert (Ewu' : me flipped w u) by (left; apply Dl; [exact Ewu|unfold same_edge; intuition congruence]).
  assert (Ewx' : me flipped w x) by (left; apply Dl; [exact Ewx|unfold same_edge; intuition congruence]).
  assert (Evu' : me flipped v u) by (left; apply Dl; [exact Evu|unfold same_edge; intuition congruence]).
  assert (Evx' : me flipped v x) by (left; apply Dl; [exact Evx|unfold same_edge; intuition congruence]).
  assert (Eux' : me flipped u x) by (right; left; auto).
  assert (MN : forall p q, me m p q -> p <> w \/ q <> x -> p <> v \/ q <> u -> p <> u \/ q <> w -> p <> x \/ q <> v -> mn flipped p q = mn m p q).
  { intros p q h o1 o2 o3 o4. cbn [flipped ins del mn]. unfold ins1, skip1.
    destruct (point_eq_dec p u) as [->|p1].
    - destruct (point_eq_dec q x) as [->|_]; [contradiction|]. destruct (point_eq_dec q w) as [->|_]; [destruct o3; congruence|].
      destruct (point_eq_dec u w); [congruence|]. destruct (point_eq_dec u v); congruence.
    - destruct (point_eq_dec p x) as [->|p2].
      + destruct (point_eq_dec q u) as [->|_]; [exfalso; apply Nux, (l_sym _ _ W), h|]. destruct (point_eq_dec q v) as [->|_]; [destruct o4; congruence|].
        destruct (point_eq_dec x w); [congruence|]. destruct (point_eq_dec x v); congruence.
      + destruct (l_next _ _ W _ _ h) as (_ & pq). destruct (point_eq_dec p w) as [->|p3].
        * destruct (point_eq_dec (mn m w q) v) as [e|_]; [exfalso|reflexivity]. destruct (l_next _ _ W _ _ Ewx) as (_ & pq'). rewrite e in pq. rewrite n3 in pq'. destruct o1; congruence.
        * destruct (point_eq_dec p v) as [->|p4]; [|reflexivity]. destruct (point_eq_dec (mn m v q) w) as [e|_]; [exfalso|reflexivity].
          destruct (l_next _ _ W _ _ Evu) as (_ & pq'). rewrite e in pq. rewrite n1 in pq'. destruct o2; congruence. }
  assert (M1 : mn flipped u w = x).
  { apply (vtri_corner _ _ Lw); auto using (l_sym _ _ Lw). }
  assert (M2 : mn flipped w x = u) by (apply (vtri_corner _ _ Lw); auto using (l_sym _ _ Lw), vacant_rot).
  assert (M3 : mn flipped x u = w) by (apply (vtri_corner _ _ Lw); auto using (l_sym _ _ Lw), vacant_rot).
  assert (M4 : mn flipped x v = u) by (apply (vtri_corner _ _ Lw); auto using (l_sym _ _ Lw)).
  assert (M5 : mn flipped v u = x) by (apply (vtri_corner _ _ Lw); auto using (l_sym _ _ Lw), vacant_rot).
  assert (M6 : mn flipped u x = v) by (apply (vtri_corner _ _ Lw); auto using (l_sym _ _ Lw), vacant_rot).
  split; [exact Lw|]. split; [|split; [exact M1|exact MN]].
  split.
  - exact Lw.
  - intros a b h. left. apply Dl; [apply (k_bd _ _ _ K), h|]. intros [(-> & ->)|(-> & ->)]; auto.
  - intros a b h. rewrite MN; [apply (k_next _ _ _ K), h|apply (l_sym _ _ W), (k_bd _ _ _ K), h| | | |].
    + destruct (point_eq_dec b w) as [->|]; [right|left; assumption]. intros ->; auto.
    + destruct (point_eq_dec b v) as [->|]; [right|left; assumption]. intros ->; auto.
    + destruct (point_eq_dec b u) as [->|]; [right|left; assumption]. intros ->; auto.
    + destruct (point_eq_dec b x) as [->|]; [right|left; assumption]. intros ->; auto.
  - apply (k_fun _ _ _ K).
  - apply (k_two _ _ _ K).
  - intros p q [(h & h')|[(-> & ->)|(-> & ->)]].
    + destruct (point_eq_dec p w) as [->|p1]; [destruct (point_eq_dec q x) as [->|q1']|].
      { right. rewrite M2. split; [apply vacant_rot, v1|apply (l_sym _ _ Lw), Eux']. }
      2: destruct (point_eq_dec p v) as [->|p2]; [destruct (point_eq_dec q u) as [->|q1']|].
      2: { right. rewrite M5. split; [apply vacant_rot, v2|exact Eux']. }
      3: destruct (point_eq_dec p u) as [->|p3]; [destruct (point_eq_dec q w) as [->|q1']|].
      3: { right. rewrite M1. split; [exact v1|exact Ewx']. }
      4: destruct (point_eq_dec p x) as [->|p4]; [destruct (point_eq_dec q v) as [->|q1']|].
      4: { right. rewrite M4. split; [exact v2|exact Evu']. }
      all: rewrite MN by (first [exact h|left; assumption|right; assumption|left; congruence]).
      all: destruct (k_corner _ _ _ K _ _ h) as [B|(s1 & s2)]; [left; exact B|right]; split; [exact s1|]; left; apply Dl; [exact s2|].
      all: pose proof (proj1 (l_next _ _ W _ _ h)) as s3.
      all: intros [(e1 & e2)|(e1 & e2)].
      all: try (subst q; destruct h'; unfold same_edge; tauto).
      all: rewrite e2 in s1, s2, s3; rewrite e1 in *.
      all: first [assert (Z : mn m w v = _) by (apply (vtri_corner _ _ W); [apply vacant_rot; exact s1| | |]; auto using (l_sym _ _ W)); fold u in Z; congruence
                 |assert (Z : mn m v w = _) by (apply (vtri_corner _ _ W); [apply vacant_rot; exact s1| | |]; auto using (l_sym _ _ W)); fold x in Z; congruence].
    + right. rewrite M6. split; [apply vacant_rot, vacant_rot, v2|apply (l_sym _ _ Lw), Evx'].
    + right. rewrite M3. split; [apply vacant_rot, vacant_rot, v1|apply (l_sym _ _ Lw), Ewu'].
Qed.
End F.

(** ** In the heap *)
Section H.
Context (h : heap) (P : edge -> Prop) (S : list point) (m : map) (bd : point -> point -> Prop).
Context (R : rep h P S m) (G : good h) (K : carved S m bd) (e : edge) (He : P e).
Let w := start h e.
Let v := end_ h e.
Context (B1 : ~ bd w v) (B2 : ~ bd v w).
Let u := mn m w v.
Let x := mn m v w.
Context (C1 : 0 < cross u w x) (C2 : 0 < cross x v u).
Lemma rep_flip : rep (flip h e) P S (flipped m w v) /\ good (flip h e) /\ start (flip h e) e = x /\ end_ (flip h e) e = u
  /\ forall d, d <> e -> d <> opposite e -> start (flip h e) d = start h d.
Proof.
  pose proof (k_laws _ _ _ K) as W. pose proof (rp_me _ _ _ _ R _ He) as E. fold w v in E.
  pose proof (two_triangles S m bd K w v E B1 B2) as (t1 & t2 & Evu & Ewu & Ewx & Evx & n1 & n2 & n3 & n4). fold u x in t1, t2, Evu, Ewu, Ewx, Evx, n1, n2, n3, n4.
  pose proof (carved_flip S m bd K w v E B1 B2 C1 C2) as (Lw & _).
  destruct (vacant_neq _ _ _ _ t1) as (q1 & q2' & q3). destruct (vacant_neq _ _ _ _ t2) as (q4' & q5 & q6).
  assert (nux : x <> u) by (intros f; rewrite f, cross_aba in C1; ql).
  pose proof (rp_live _ _ _ _ R _ He) as Le. pose proof (rp_opp _ _ _ _ R _ He) as Ho.
  set (side := right_from_start h e). set (opp := opposite e). set (os := right_from_start h opp).
  destruct (rep_rfs _ _ _ _ R e He) as (Pside & Sside & Eside). fold w v in Sside, Eside. change (rfs h e) with side in Pside, Sside, Eside.
  assert (mpw : mp m w v = x) by (rewrite <- n3; apply (l_next _ _ W _ _ Ewx)). rewrite mpw in Eside.
  destruct (rep_rfs _ _ _ _ R opp Ho) as (Pos & Sos & Eos). unfold opp in Sos, Eos. rewrite start_opposite, end_opposite in *. fold opp in Sos, Eos. fold w v in Sos, Eos. change (rfs h opp) with os in Pos, Sos, Eos.
  assert (mpv : mp m v w = u) by (rewrite <- n1; apply (l_next _ _ W _ _ Evu)). rewrite mpv in Eos.
  assert (N0 : w <> v) by congruence.
  assert (Nsd : side <> e) by (intros f; apply (f_equal (end_ h)) in f; rewrite Eside in f; fold v in f; congruence).
  assert (Nos : os <> opp) by (intros f; apply (f_equal (end_ h)) in f; rewrite Eos in f; unfold opp in f; rewrite end_opposite in f; fold w in f; congruence).
  pose proof (flip_spec h G e Le N0 Nsd Nos) as (Gf & Cf & Sf1 & Sf2 & Sf).
  pose proof (flip_facts h G e Le N0 Nsd Nos) as FF. cbv zeta in FF. fold side opp os in FF. change (rfs h opp) with os in FF.
  set (h1 := splice h e side) in FF. set (h2 := splice h1 opp os) in FF. set (a := left_from_end h2 side) in FF. set (h3 := splice h2 e a) in FF.
  set (b := left_from_end h3 os) in FF. set (h4 := splice h3 opp b) in FF.
  destruct FF as (Lo & Ls & Los & La & Lb & N1 & N2 & N3 & Na1 & Na2 & Nb1 & Nb2 & Nab & W4 & Sa & Sb & Fe & Fa & Fo & Fb & _ & Ed & Fa2 & Fb2 & Fx).
  pose proof (rep_delete _ _ _ _ R e He) as R2. rewrite <- Ed in R2. fold w v in R2. fold opp in R2.
  set (P2 := fun d => P d /\ d <> e /\ d <> opp) in *.
  assert (St2 : forall d, start h2 d = start h d) by (intros d; rewrite Ed; reflexivity).
  assert (En2 : forall d, end_ h2 d = end_ h d) by (intros d; apply St2).
  assert (Lf : forall d, left_from_start (flip h e) d = left_from_start h4 d) by reflexivity.
  assert (Dx : forall d, P2 d -> start (flip h e) d = start h d /\ end_ (flip h e) d = end_ h d).
  { intros d (Hd & f1 & f2). split; [apply Sf; assumption|]. apply Sf; intros f.
    - apply f2. unfold opp. rewrite <- f, opposite_opposite. reflexivity.
    - apply f1, opposite_inj, f. }
  assert (Ps2 : P2 (opposite side)).
  { apply (rp_opp _ _ _ _ R2). split; [exact Pside|]. split; [exact Nsd|]. intros f. apply N1, f. }
  assert (Po2 : P2 (opposite os)).
  { apply (rp_opp _ _ _ _ R2). split; [exact Pos|]. split; [exact N2|exact Nos]. }
  destruct (rep_rfs _ _ _ _ R2 _ Ps2) as (Pa & Sa' & Ea'). rewrite !St2, start_opposite, Eside in Sa'. rewrite !St2, !En2, end_opposite, start_opposite, Eside, Sside in Ea'.
  destruct (rep_rfs _ _ _ _ R2 _ Po2) as (Pb & Sb' & Eb'). rewrite !St2, start_opposite, Eos in Sb'. rewrite !St2, !En2, end_opposite, start_opposite, Eos, Sos in Eb'.
  assert (Ia : a = rfs h2 (opposite side)) by (unfold a; rewrite lfe_spec; reflexivity).
  assert (Ib : b = rfs h2 (opposite os)).
  { rewrite <- Fb2. symmetry. apply (rfs_lfs h2 (rp_wf _ _ _ _ R2)). apply Lb. }
  rewrite <- Ia in Pa, Sa', Ea'. rewrite <- Ib in Pb, Sb', Eb'.
  assert (Ea2 : end_ h a = v).
  { rewrite Ea'. cbn [del mp]. destruct (point_eq_dec x w); [congruence|]. destruct (point_eq_dec x v); [congruence|].
    rewrite <- n4. apply (l_next _ _ W), (l_sym _ _ W), Evx. }
  assert (Eb2 : end_ h b = w).
  { rewrite Eb'. cbn [del mp]. destruct (point_eq_dec u w); [congruence|]. destruct (point_eq_dec u v); [congruence|].
    rewrite <- n2. apply (l_next _ _ W), (l_sym _ _ W), Ewu. }
  assert (Sfe : start (flip h e) e = x) by (rewrite Sf1; exact Eside).
  assert (Efe : end_ (flip h e) e = u) by (rewrite Sf2, lfe_spec; exact Eos).
  assert (Sfo : start (flip h e) opp = u) by exact Efe.
  assert (Efo : end_ (flip h e) opp = x) by (unfold opp; rewrite end_opposite; exact Sfe).
  assert (Cs : forall d, P d -> d = e \/ d = opp \/ P2 d).
  { intros d Hd. destruct (edge_eq_dec d e) as [|f1]; [auto|]. destruct (edge_eq_dec d opp) as [|f2]; [auto|]. right. right. split; auto. }
  assert (Tp : forall d, P2 d -> P d) by (intros d Hd; apply Hd).
  assert (Uq : forall d d', P2 d -> P2 d' -> start h d = start h d' -> end_ h d = end_ h d' -> d = d') by (intros d d' Hd Hd'; apply (rp_uniq _ _ _ _ R); auto).
  assert (Nux : ~ me (del m w v) u x).
  { intros (g & _). apply (l_planar _ _ W w v u x E g). red. split; [apply t1|]. split; [rewrite cross_flip; pose proof (proj1 t2); ql|]. split.
    - replace (cross u x w) with (- cross u w x) by (unfold cross; ring). ql.
    - replace (cross u x v) with (cross x v u) by (unfold cross; ring). exact C2. }
  assert (Nxu : ~ me (del m w v) x u) by (intros g; apply Nux, (l_sym _ _ (rp_laws _ _ _ _ R2)), g).
  split; [|split; [exact Gf|split; [exact Sfe|split; [exact Efe|exact Sf]]]].
  split.
  - apply Gf.
  - exact Lw.
  - intros d Hd. destruct (rp_live _ _ _ _ R _ Hd) as (V & p). split; [unfold valid in *; lia|exact p].
  - apply (rp_opp _ _ _ _ R).
  - intros d Hd. rewrite Lf. destruct (Cs d Hd) as [->|[->|Hd2]].
    + rewrite Fe, Sfe, Efe. destruct (Dx _ Ps2) as (-> & ->). rewrite end_opposite, start_opposite. split; [apply Ps2|]. split; [exact Eside|].
      rewrite Sside. unfold flipped. fold u x. cbn [ins mn]. destruct (point_eq_dec x u); [congruence|]. destruct (point_eq_dec x x) as [_|]; [|congruence]. unfold ins1.
      destruct (point_eq_dec u u) as [_|]; [|congruence]. cbn [del mn]. destruct (point_eq_dec x w); [congruence|]. destruct (point_eq_dec x v); [congruence|]. auto.
    + rewrite Fo, Sfo, Efo. destruct (Dx _ Po2) as (-> & ->). rewrite end_opposite, start_opposite. split; [apply Po2|]. split; [exact Eos|].
      rewrite Sos. unfold flipped. fold u x. cbn [ins mn]. destruct (point_eq_dec u u) as [_|]; [|congruence]. unfold ins1. fold x.
      destruct (point_eq_dec x x) as [_|]; [|congruence]. cbn [del mn]. destruct (point_eq_dec u w); [congruence|]. destruct (point_eq_dec u v); [congruence|]. auto.
    + destruct (Dx d Hd2) as (-> & ->). destruct (edge_eq_dec d a) as [->|fa]; [|destruct (edge_eq_dec d b) as [->|fb]].
      * rewrite Fa, Sfe, Efe. rewrite Sa', Ea2. split; [exact He|]. split; [reflexivity|]. unfold flipped. fold u x. cbn [ins mn].
        destruct (point_eq_dec x u); [congruence|]. destruct (point_eq_dec x x) as [_|]; [|congruence]. unfold ins1. destruct (point_eq_dec v u); [congruence|]. destruct (point_eq_dec v v); congruence.
      * rewrite Fb, Sfo, Efo. rewrite Sb', Eb2. split; [exact Ho|]. split; [reflexivity|]. unfold flipped. fold u x. cbn [ins mn].
        destruct (point_eq_dec u u) as [_|]; [|congruence]. unfold ins1. destruct (point_eq_dec w x); [congruence|]. destruct (point_eq_dec w w); congruence.
      * rewrite Fx; try assumption; [|apply (rp_live _ _ _ _ R _ Hd)|apply Hd2|apply Hd2].
        destruct (rp_lfs _ _ _ _ R2 d Hd2) as (D1 & D2 & D3). rewrite !St2 in D2. rewrite !St2, !En2 in D3. destruct (Dx _ D1) as (-> & ->). split; [apply D1|]. split; [exact D2|].
        rewrite D3. unfold flipped. fold u x. cbn [ins mn]. unfold ins1. pose proof (rp_me _ _ _ _ R2 d Hd2) as Md. rewrite St2, En2 in Md.
        destruct (point_eq_dec (start h d) u) as [s|s].
        -- destruct (point_eq_dec (end_ h d) x) as [t|_]; [exfalso; apply Nux; rewrite <- s, <- t; exact Md|].
           destruct (point_eq_dec (end_ h d) w) as [t|_]; [|reflexivity]. exfalso. apply fb, Uq; auto; congruence.
        -- destruct (point_eq_dec (start h d) x) as [s'|s']; [|reflexivity].
           destruct (point_eq_dec (end_ h d) u) as [t|_]; [exfalso; apply Nxu; rewrite <- s', <- t; exact Md|].
           destruct (point_eq_dec (end_ h d) v) as [t|_]; [|reflexivity]. exfalso. apply fa, Uq; auto; congruence.
  - intros d Hd. destruct (Cs d Hd) as [->|[->|Hd2]].
    + rewrite Sfe, Efe. right. right. auto.
    + rewrite Sfo, Efo. right. left. auto.
    + destruct (Dx d Hd2) as (-> & ->). left. pose proof (rp_me _ _ _ _ R2 d Hd2) as Md. rewrite St2, En2 in Md. exact Md.
  - intros p q [g|[(-> & ->)|(-> & ->)]].
    + destruct (rp_dart _ _ _ _ R2 _ _ g) as (d & Hd & s & t). rewrite St2 in s. rewrite En2 in t. exists d. destruct (Dx d Hd) as (-> & ->). split; [apply Hd|auto].
    + exists opp. split; [exact Ho|]. auto.
    + exists e. auto.
  - assert (Z1 : forall d, P2 d -> start (flip h e) d = x -> end_ (flip h e) d = u -> False).
    { intros d Hd s t. destruct (Dx d Hd) as (s' & t'). apply Nxu. rewrite <- s, <- t, s', t'. pose proof (rp_me _ _ _ _ R2 d Hd) as Md. rewrite St2, En2 in Md. exact Md. }
    assert (Z2 : forall d, P2 d -> start (flip h e) d = u -> end_ (flip h e) d = x -> False).
    { intros d Hd s t. destruct (Dx d Hd) as (s' & t'). apply Nux. rewrite <- s, <- t, s', t'. pose proof (rp_me _ _ _ _ R2 d Hd) as Md. rewrite St2, En2 in Md. exact Md. }
    intros d d' Hd Hd'. destruct (Cs d Hd) as [->|[->|Hd2]]; destruct (Cs d' Hd') as [->|[->|Hd2']]; rewrite ?Sfe, ?Efe, ?Sfo, ?Efo; intros s t; try reflexivity; try congruence.
    + destruct (Z1 d' Hd2'); auto.
    + destruct (Z2 d' Hd2'); auto.
    + destruct (Z1 d Hd2); auto.
    + destruct (Z2 d Hd2); auto.
    + destruct (Dx d Hd2) as (s1 & s2). destruct (Dx d' Hd2') as (s3 & s4). rewrite s1, s3 in s. rewrite s2, s4 in t. apply Uq; auto.
Qed.
End H.
