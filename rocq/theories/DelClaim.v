(** Every Delaunay edge of the merged map has its triangle. *)
From Coq Require Import List Lia.
From Verif Require Import Base Geometry Spec QcTac QcFast GeomProofs DelGeo DelCyc DelMap DelFan DelOps DelMir DelCand DelMerge DelEnd.
Import ListNotations.
Open Scope Qc_scope.

(** Two empty discs over the same chord. *)
Lemma two_discs D x y c z : 0 < dk D -> pw D x = 0 -> pw D y = 0 -> pw D z = 0 -> 0 <= pw D c ->
  0 < cross x y z -> inc x y c z <= 0 -> pw D c = 0.
Proof.
  intros Hk Px Py Pz Pc C I. pose proof (pw_bary D x y c z) as K. rewrite Px, Py, Pz in K.
  pose proof (mul_nonneg _ _ (Qclt_le_weak _ _ C) Pc) as M. pose proof (mul_nonneg (dk D) (- inc x y c z) ltac:(ql) ltac:(ql)) as M2.
  apply (zero_of_mul (cross x y z)); [exact C|].
  assert (K2 : cross x y z * pw D c + dk D * - inc x y c z = 0).
  { transitivity (cross x y c * 0); [rewrite K; ring|ring]. }
  ql.
Qed.

Section W.
Context (S L R : list point) (m : map) (W : laws S m) (D : disc) (v a : point).
Notation E := (me m).
Context (SL : forall q, In q L -> In q S) (SR : forall q, In q R -> In q S) (LR : forall q, In q L -> In q R -> False).
Context (Dk : 0 < dk D) (DS : forall q, In q S -> 0 <= pw D q) (Dv : pw D v = 0) (Da : pw D a = 0).
Context (Hv : In v L) (Ha : In a L) (Hva : E v a).
Context (NL : forall q, In q L -> pw D q = 0 -> cross v a q <= 0).

Definition found : Prop := exists r, In r R /\ empty S v a r /\ E v r /\ E a r.
Lemma no_cross r x : pw D r = 0 -> pw D x = 0 -> 0 < cross v a r -> cross v a x < 0 -> E r x -> False.
Proof.
  intros Pr Px C1 C2 h. apply (l_planar _ _ W v a r x Hva h). apply (disc_cross D); auto.
Qed.
Lemma on_line x : pw D x = 0 -> cross v a x = 0 -> x = v \/ x = a.
Proof. intros Px C. apply (disc_line D v a x); auto. apply (e_ne2 _ _ W _ _ Hva). Qed.

Lemma walk_up bs : chain S L R E bs -> forall r0, In (a, r0) bs -> pw D r0 = 0 -> 0 < cross v a r0 ->
  found \/ exists r1 t, bs = (a, r1) :: t /\ pw D r1 = 0 /\ 0 < cross v a r1.
Proof.
  intros H. induction H as [l r Hl Hr Hlr Bot|l r c t Hch IH Em Hc Hlc Hcr|l r c t Hch IH Em Hc Hrc Hlc]; intros r0 Hi P0 C0.
  - destruct Hi as [e|[]]. inversion e; subst. right. exists r0, []. auto.
  - destruct Hi as [e|Hi]; [inversion e; subst; right; exists r0, ((l, r0) :: t); auto|].
    destruct (IH r0 Hi P0 C0) as [F|(r1 & t1 & e & P1 & C1)]; [left; exact F|]. inversion e; subst.
    assert (Pc : pw D c = 0).
    { apply (two_discs D a r1 c v); auto; [rewrite cross_rot; exact C1|apply Em; auto]. }
    destruct (tricho (cross v a c) 0) as [h|[h|h]].
    + exfalso. apply (no_cross r1 c); auto. apply (l_sym _ _ W), Hcr.
    + destruct (on_line c Pc h) as [->| ->]; [|destruct Em as (Em & _); rewrite cross_aba in Em; ql].
      left. exists r1. destruct (chain_in _ _ _ _ _ a r1 Hch) as (_ & i & j & _); [left; reflexivity|].
      repeat split; auto; apply empty_rot, empty_rot in Em; apply Em.
    + specialize (NL c Hc Pc). ql.
  - destruct Hi as [e|Hi]; [inversion e; subst; right; exists r0, ((a, r) :: t); auto|].
    destruct (IH r0 Hi P0 C0) as [F|(r1 & t1 & e & P1 & C1)]; [left; exact F|]. inversion e; subst.
    assert (Pc : pw D c = 0).
    { apply (two_discs D a r1 c v); auto; [rewrite cross_rot; exact C1|apply Em; auto]. }
    destruct (tricho (cross v a c) 0) as [h|[h|h]].
    + exfalso. apply (no_cross r1 c); auto.
    + exfalso. destruct (on_line c Pc h) as [->| ->]; eauto.
    + right. exists c, ((a, r1) :: t1). auto.
Qed.
Lemma walk_down bs : chain S L R E bs -> forall r0, In (v, r0) bs -> pw D r0 = 0 -> 0 < cross v a r0 -> found.
Proof.
  intros H. induction H as [l r Hl Hr Hlr Bot|l r c t Hch IH Em Hc Hlc Hcr|l r c t Hch IH Em Hc Hrc Hlc]; intros r0 Hi P0 C0.
  - destruct Hi as [e|[]]. inversion e; subst. exfalso. specialize (Bot a (SL _ Ha)). rewrite cross_swap in Bot. ql.
  - destruct Hi as [e|Hi]; [|apply (IH r0); auto]. inversion e; subst. clear e.
    destruct (chain_in _ _ _ _ _ l r0 Hch) as (i1 & i2 & i3 & _); [left; reflexivity|].
    assert (Pl : pw D l = 0).
    { apply (two_discs D r0 v l a); auto; [rewrite <- (cross_rot r0 v a); exact C0|].
      apply empty_rot in Em. apply Em; auto. }
    destruct (tricho (cross v a l) 0) as [h|[h|h]].
    + exfalso. apply (no_cross r0 l); auto. apply (l_sym _ _ W), i3.
    + destruct (on_line l Pl h) as [->| ->].
      { destruct Em as (Em & _). rewrite cross_aba in Em. ql. }
      exists r0. repeat split; auto; apply empty_rot, empty_rot in Em; apply Em.
    + specialize (NL l i1 Pl). ql.
  - destruct Hi as [e|Hi]; [|apply (IH r0); auto]. inversion e; subst. clear e.
    destruct (chain_in _ _ _ _ _ v r Hch) as (i1 & i2 & i3 & _); [left; reflexivity|].
    assert (Pr : pw D r = 0).
    { apply (two_discs D r0 v r a); auto; [rewrite <- (cross_rot r0 v a); exact C0|].
      apply empty_rot, empty_rot in Em. apply Em; auto. }
    destruct (tricho (cross v a r) 0) as [h|[h|h]].
    + exfalso. apply (no_cross r0 r); auto. apply (l_sym _ _ W), Hrc.
    + exfalso. destruct (on_line r Pr h) as [->| ->]; eauto.
    + apply (IH r); auto. left. reflexivity.
Qed.
(** A base on the disc, with its right end on the left of [v a]. *)
Lemma walk l r t l' r' : chain S L R E ((l, r) :: t) -> (forall q, In q S -> cross l r q <= 0) ->
  In (l', r') ((l, r) :: t) -> pw D l' = 0 -> pw D r' = 0 -> 0 < cross v a r' -> found.
Proof.
  intros H Top Hi Pl Pr C. destruct (chain_in _ _ _ _ _ l' r' H Hi) as (i1 & i2 & i3 & _).
  destruct (tricho (cross v a l') 0) as [h|[h|h]].
  - exfalso. apply (no_cross r' l'); auto. apply (l_sym _ _ W), i3.
  - destruct (on_line l' Pl h) as [->| ->].
    + apply (walk_down _ H r'); auto.
    + destruct (walk_up _ H r' Hi Pr C) as [F|(r1 & t1 & e & P1 & C1)]; [exact F|].
      inversion e; subst. exfalso. specialize (Top v (SL _ Hv)). rewrite cross_rot in Top. ql.
  - exfalso. specialize (NL l' i1 Pl). ql.
Qed.
End W.

(** The band where the segment from [v] to [w] leaves the left part. *)
Lemma band_on_disc S L R m ep tau D v a w l r t :
  laws S m -> (forall q, In q L -> phi ep q < tau) -> (forall q, In q R -> tau < phi ep q) ->
  (forall q, In q L -> In q S) -> (forall q, In q R -> In q S) ->
  0 < dk D -> (forall q, In q S -> 0 <= pw D q) -> pw D v = 0 -> pw D a = 0 -> pw D w = 0 ->
  In v L -> In a L -> In w R -> 0 < cross v a w -> (forall q, In q L -> pw D q = 0 -> cross v a q <= 0) ->
  chain S L R (me m) ((l, r) :: t) -> (forall q, In q S -> cross l r q <= 0) ->
  exists l' r', In (l', r') ((l, r) :: t) /\ pw D l' = 0 /\ pw D r' = 0 /\ 0 < cross v a r'.
Proof.
  intros W HL HR SL SR Dk DS Dv Da Dw Hv Ha Hw C NL Hch Top.
  pose proof (HL v Hv) as pv. pose proof (HR w Hw) as pw_.
  destruct (xpt_on ep tau v w pv pw_) as (s & s0 & s1 & sx & sy). set (h := hgt ep tau v w) in *.
  set (X := xpt ep tau h) in *.
  assert (B : forall x y, In (x, y) ((l, r) :: t) -> phi ep x < phi ep y).
  { intros x y Hi. destruct (chain_in _ _ _ _ _ x y Hch Hi) as (i1 & i2 & _). specialize (HL x i1). specialize (HR y i2). ql. }
  assert (CX : forall x y, cross x y X = (1 - s) * cross x y v + s * cross x y w) by (intros; apply cross_param; auto).
  destruct (chain_level S L R (me m) ep tau h l r t (l_sym _ _ W) Hch) as [Bot|K].
  - (* not above the last base *)
    pose proof (Top v (SL _ Hv)) as T1. pose proof (Top w (SR _ Hw)) as T2.
    pose proof (cross_xpt ep tau l r h (B l r ltac:(left; reflexivity))) as K. fold X in K. rewrite CX in K.
    pose proof (mul_nonpos (1 - s) _ ltac:(ql) T1). pose proof (mul_nonpos s _ ltac:(ql) T2).
    pose proof (B l r ltac:(left; reflexivity)).
    assert (h - hgt ep tau l r <= 0); [|ql]. apply (nonpos_of_mul (phi ep r - phi ep l)); [ql|]. rewrite <- K. ql.
  - intros x y Hi Bot. pose proof (Bot v (SL _ Hv)) as T1. pose proof (Bot w (SR _ Hw)) as T2.
    pose proof (cross_xpt ep tau x y h (B x y Hi)) as K. fold X in K. rewrite CX in K.
    pose proof (mul_nonneg (1 - s) _ ltac:(ql) T1). pose proof (mul_nonneg s _ ltac:(ql) T2).
    pose proof (B x y Hi).
    assert (0 <= h - hgt ep tau x y); [|ql]. apply (nonneg_of_mul (phi ep y - phi ep x)); [ql|]. rewrite <- K. ql.
  - (* all on a line *)
    exfalso. pose proof (B l r ltac:(left; reflexivity)) as N.
    assert (Nlr : l <> r) by (intros ->; ql).
    assert (Z : forall q, In q S -> cross l r q = 0) by (intros q Hq; specialize (Bot q Hq); specialize (Top q Hq); ql).
    destruct (line_param l r v Nlr (Z v (SL _ Hv))) as (t1 & x1 & y1).
    destruct (line_param l r a Nlr (Z a (SL _ Ha))) as (t2 & x2 & y2).
    destruct (line_param l r w Nlr (Z w (SR _ Hw))) as (t3 & x3 & y3).
    assert (cross v a w = 0); [|ql]. unfold cross. rewrite x1, x2, x3, y1, y2, y3. ring.
  - destruct K as (l1 & r1 & c & Em & E1 & E2 & E3 & i1 & i2 & i3 & hlo & Cs).
    pose proof (proj1 Em) as Dl.
    set (al := cross r1 c X). set (be := cross c l1 X). set (ga := cross l1 r1 X).
    assert (Sum : al + be + ga = cross l1 r1 c) by (unfold al, be, ga; apply cross_sum).
    pose proof (B l1 r1 i3) as b1.
    assert (ga0 : 0 <= ga).
    { unfold ga, X. rewrite cross_xpt by exact b1. apply mul_nonneg; ql. }
    (* weights of the discs *)
    assert (FX : forall F, pw F X = (1 - s) * pw F v + s * pw F w + dk F * dot X v w).
    { intros F. unfold pw, dot. rewrite sx, sy. ring. }
    assert (Key : al * pw D l1 + be * pw D r1 + ga * pw D c + dk D * ((1 - s) * pw (circ l1 r1 c) v + s * pw (circ l1 r1 c) w) = 0).
    { pose proof (pw_bary D l1 r1 c X) as K. rewrite (FX D), Dv, Dw in K.
      pose proof (FX (circ l1 r1 c)) as K2. rewrite (pw_circ l1 r1 c X) in K2.
      assert (K3 : inc l1 r1 c X = - ((1 - s) * pw (circ l1 r1 c) v + s * pw (circ l1 r1 c) w + cross l1 r1 c * dot X v w)).
      { transitivity (- - inc l1 r1 c X); [ring|]. rewrite K2. reflexivity. }
      rewrite K3 in K.
      assert (e1 : al = cross X r1 c) by (unfold al, cross; ring).
      assert (e2 : be = cross l1 X c) by (unfold be, cross; ring).
      rewrite e1, e2. unfold ga.
      set (U := (1 - s) * pw (circ l1 r1 c) v + s * pw (circ l1 r1 c) w) in *.
      transitivity ((cross X r1 c * pw D l1 + cross l1 X c * pw D r1 + cross l1 r1 X * pw D c - dk D * - (U + cross l1 r1 c * dot X v w)) - dk D * (cross l1 r1 c * dot X v w)); [ring|].
      rewrite <- K. ring. }
    assert (LX : al * phi ep l1 + be * phi ep r1 + ga * phi ep c = cross l1 r1 c * tau).
    { unfold al, be, ga, X, cross, xpt, phi; cbn [px py]. ring. }
    assert (SX : al * cross v a l1 + be * cross v a r1 + ga * cross v a c = cross l1 r1 c * cross v a X) by apply bary.
    assert (PX : 0 < cross l1 r1 c * cross v a X).
    { apply mul_pos; [exact Dl|]. rewrite CX, cross_aba. pose proof (mul_pos _ _ s0 C).
      replace ((1 - s) * 0) with 0 by ring. ql. }
    assert (Tv : 0 <= pw (circ l1 r1 c) v) by (rewrite pw_circ; pose proof (proj2 Em v (SL _ Hv)); ql).
    assert (Tw : 0 <= pw (circ l1 r1 c) w) by (rewrite pw_circ; pose proof (proj2 Em w (SR _ Hw)); ql).
    set (Uv := pw (circ l1 r1 c) v) in *. set (Uw := pw (circ l1 r1 c) w) in *. clearbody Uv Uw.
    assert (U0 : 0 <= dk D * ((1 - s) * Uv + s * Uw)).
    { apply mul_nonneg; [ql|]. pose proof (mul_nonneg (1 - s) Uv ltac:(ql) Tv). pose proof (mul_nonneg s Uw ltac:(ql) Tw). ql. }
    pose proof (DS l1 (SL _ i1)) as d1. pose proof (DS r1 (SR _ i2)) as d2.
    pose proof (HL _ i1) as f1. pose proof (HR _ i2) as f2.
    set (Dl1 := pw D l1) in *. set (Dr1 := pw D r1) in *. set (Dc := pw D c) in *.
    set (U := dk D * ((1 - s) * Uv + s * Uw)) in *. clearbody U.
    assert (Lin : al * (phi ep l1 - tau) + be * (phi ep r1 - tau) + ga * (phi ep c - tau) = 0).
    { transitivity ((al * phi ep l1 + be * phi ep r1 + ga * phi ep c) - (al + be + ga) * tau); [ring|]. rewrite LX, Sum. ring. }
    destruct Cs as [(ic & i4 & hhi)|(ic & i4 & hhi)].
    + pose proof (HL _ ic) as f3. pose proof (DS c (SL _ ic)) as d3.
      assert (al0 : 0 <= al).
      { unfold al. rewrite cross_flip. unfold X. rewrite cross_xpt by (apply B; exact i4).
        pose proof (mul_nonneg (phi ep r1 - phi ep c) (hgt ep tau c r1 - h) ltac:(ql) ltac:(ql)) as M.
        replace (- ((phi ep r1 - phi ep c) * (h - hgt ep tau c r1))) with ((phi ep r1 - phi ep c) * (hgt ep tau c r1 - h)) by ring. exact M. }
      assert (be0 : 0 < be).
      { pose proof (mul_nonneg al (tau - phi ep l1) al0 ltac:(ql)) as m1. pose proof (mul_nonneg ga (tau - phi ep c) ga0 ltac:(ql)) as m2.
        assert (m3 : be * (phi ep r1 - tau) = al * (tau - phi ep l1) + ga * (tau - phi ep c)).
        { transitivity ((al * (phi ep l1 - tau) + be * (phi ep r1 - tau) + ga * (phi ep c - tau)) - (al * (phi ep l1 - tau) + ga * (phi ep c - tau))); [ring|]. rewrite Lin. ring. }
        assert (0 <= be) by (apply (nonneg_of_mul (phi ep r1 - tau)); [ql|rewrite Qcmult_comm; ql]).
        destruct (Qcle_lt_or_eq _ _ H) as [g|g]; [exact g|exfalso].
        rewrite <- g in m3. replace (0 * (phi ep r1 - tau)) with 0 in m3 by ring.
        assert (al = 0) by (apply (zero_of_mul (tau - phi ep l1)); [ql|rewrite Qcmult_comm; ql]).
        assert (ga = 0) by (apply (zero_of_mul (tau - phi ep c)); [ql|rewrite Qcmult_comm; ql]). ql. }
      pose proof (mul_nonneg al Dl1 al0 d1) as w1. pose proof (mul_nonneg be Dr1 ltac:(ql) d2) as w2. pose proof (mul_nonneg ga Dc ga0 d3) as w3.
      assert (Er : Dr1 = 0) by (apply (zero_of_mul be); [exact be0|ql]).
      assert (al * cross v a l1 <= 0).
      { destruct (Qcle_lt_or_eq _ _ al0) as [g|g]; [|rewrite <- g; replace (0 * cross v a l1) with 0 by ring; ql].
        apply mul_nonpos; [ql|]. apply NL; auto. apply (zero_of_mul al); [exact g|fold Dl1; ql]. }
      assert (ga * cross v a c <= 0).
      { destruct (Qcle_lt_or_eq _ _ ga0) as [g|g]; [|rewrite <- g; replace (0 * cross v a c) with 0 by ring; ql].
        apply mul_nonpos; [ql|]. apply NL; auto. apply (zero_of_mul ga); [exact g|fold Dc; ql]. }
      assert (Cr : 0 < cross v a r1) by (apply (pos_of_mul be); [exact be0|ql]).
      destruct (Qcle_lt_or_eq _ _ al0) as [g|g].
      * exists l1, r1. repeat split; auto. apply (zero_of_mul al); [exact g|fold Dl1; ql].
      * exists c, r1. repeat split; auto.
        destruct (Qcle_lt_or_eq _ _ ga0) as [g'|g']; [apply (zero_of_mul ga); [exact g'|fold Dc; ql]|exfalso].
        rewrite <- g, <- g' in Lin. replace (0 * (phi ep l1 - tau) + be * (phi ep r1 - tau) + 0 * (phi ep c - tau)) with (be * (phi ep r1 - tau)) in Lin by ring.
        pose proof (mul_pos be (phi ep r1 - tau) be0 ltac:(ql)). ql.
    + pose proof (HR _ ic) as f3. pose proof (DS c (SR _ ic)) as d3.
      assert (be0 : 0 <= be).
      { unfold be. rewrite cross_flip. unfold X. rewrite cross_xpt by (apply B; exact i4).
        pose proof (mul_nonneg (phi ep c - phi ep l1) (hgt ep tau l1 c - h) ltac:(ql) ltac:(ql)) as M.
        replace (- ((phi ep c - phi ep l1) * (h - hgt ep tau l1 c))) with ((phi ep c - phi ep l1) * (hgt ep tau l1 c - h)) by ring. exact M. }
      assert (al0 : 0 < al).
      { pose proof (mul_nonneg be (phi ep r1 - tau) be0 ltac:(ql)) as m1. pose proof (mul_nonneg ga (phi ep c - tau) ga0 ltac:(ql)) as m2.
        assert (m3 : al * (tau - phi ep l1) = be * (phi ep r1 - tau) + ga * (phi ep c - tau)).
        { transitivity (be * (phi ep r1 - tau) + ga * (phi ep c - tau) - (al * (phi ep l1 - tau) + be * (phi ep r1 - tau) + ga * (phi ep c - tau))); [ring|]. rewrite Lin. ring. }
        assert (0 <= al) by (apply (nonneg_of_mul (tau - phi ep l1)); [ql|rewrite Qcmult_comm; ql]).
        destruct (Qcle_lt_or_eq _ _ H) as [g|g]; [exact g|exfalso].
        rewrite <- g in m3. replace (0 * (tau - phi ep l1)) with 0 in m3 by ring.
        assert (be = 0) by (apply (zero_of_mul (phi ep r1 - tau)); [ql|rewrite Qcmult_comm; ql]).
        assert (ga = 0) by (apply (zero_of_mul (phi ep c - tau)); [ql|rewrite Qcmult_comm; ql]). ql. }
      pose proof (mul_nonneg al Dl1 ltac:(ql) d1) as w1. pose proof (mul_nonneg be Dr1 be0 d2) as w2. pose proof (mul_nonneg ga Dc ga0 d3) as w3.
      assert (El : Dl1 = 0) by (apply (zero_of_mul al); [exact al0|ql]).
      assert (al * cross v a l1 <= 0) by (apply mul_nonpos; [ql|apply NL; auto]).
      destruct (Qclt_le_dec 0 (be * cross v a r1)) as [g|g].
      * exists l1, r1. assert (0 < be).
        { destruct (Qcle_lt_or_eq _ _ be0) as [g'|g']; [exact g'|]. rewrite <- g' in g. replace (0 * cross v a r1) with 0 in g by ring. ql. }
        repeat split; auto; [apply (zero_of_mul be); [assumption|fold Dr1; ql]|apply (pos_of_mul be); assumption].
      * assert (g2 : 0 < ga * cross v a c) by ql.
        exists l1, c. assert (0 < ga).
        { destruct (Qcle_lt_or_eq _ _ ga0) as [g'|g']; [exact g'|]. rewrite <- g' in g2. replace (0 * cross v a c) with 0 in g2 by ring. ql. }
        repeat split; auto; [apply (zero_of_mul ga); [assumption|fold Dc; ql]|apply (pos_of_mul ga); assumption].
Qed.
