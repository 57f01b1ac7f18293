(** One round of the merge: discarding edges, choosing the third vertex, closing the triangle. *)
From Coq Require Import List Lia.
From Verif Require Import Base Geometry Spec QcTac QcFast GeomProofs DelGeo DelCyc DelMap DelFan DelOps DelMir.
Import ListNotations.
Open Scope Qc_scope.

Lemma cross_param a b u w q t : px q = px u + t * (px w - px u) -> py q = py u + t * (py w - py u) ->
  cross a b q = (1 - t) * cross a b u + t * cross a b w.
Proof. intros tx ty. unfold cross. rewrite tx, ty. ring. Qed.
Lemma btw_param u w q : btw q u w -> exists t, 0 < t /\ t < 1 /\ px q = px u + t * (px w - px u) /\ py q = py u + t * (py w - py u).
Proof.
  intros B. destruct (btw_neq _ _ _ B) as (_ & _ & g3). destruct B as (B & B').
  destruct (line_param u w q g3 B) as (s & sx & sy). exists s.
  assert (H : 0 < s * (1 - s)).
  { apply (pos_of_mul (d2 u w)); [apply d2_pos; auto|].
    replace (d2 u w * (s * (1 - s))) with (- dot q u w) by (unfold dot, d2; rewrite sx, sy; ring). ql. }
  assert (0 < s /\ s < 1); [|tauto]. clear -H. pose proof (sq_nonneg s). pose proof (sq_nonneg (1 - s)).
  assert (s * (1 - s) = s - s * s) by ring. assert ((1-s) * (1 - s) = 1 - s - s + s * s) by ring. split; ql.
Qed.
Lemma param_btw u w q t : u <> w -> 0 < t -> t < 1 -> px q = px u + t * (px w - px u) -> py q = py u + t * (py w - py u) -> btw q u w.
Proof.
  intros N t0 t1 tx ty. split.
  - rewrite (cross_param u w u w q t tx ty), cross_aba, cross_abb. ring.
  - pose proof (mul_pos _ _ (mul_pos t (1 - t) t0 ltac:(ql)) (d2_pos _ _ N)) as M.
    replace (dot q u w) with (- (t * (1 - t) * d2 u w)) by (unfold dot, d2; rewrite tx, ty; ring). ql.
Qed.
(** A point of a line where an affine function changes sign. *)
Lemma sign_btw a b u w q : cross u w q = 0 -> cross a b q = 0 -> 0 < cross a b u -> cross a b w < 0 -> btw q u w.
Proof.
  intros C1 C2 P N. assert (n : u <> w) by (intros ->; ql).
  destruct (line_param u w q n C1) as (t & tx & ty). pose proof (cross_param a b u w q t tx ty) as K. rewrite C2 in K.
  apply (param_btw u w q t); auto.
  - destruct (Qclt_le_dec 0 t) as [h|h]; [exact h|exfalso].
    pose proof (mul_pos (1 - t) (cross a b u) ltac:(ql) P). pose proof (mul_nonpos_nonpos t (cross a b w) h ltac:(ql)). ql.
  - destruct (Qclt_le_dec t 1) as [h|h]; [exact h|exfalso].
    pose proof (mul_nonneg (t - 1) (cross a b u) ltac:(ql) ltac:(ql)) as M. pose proof (mul_neg t (cross a b w) ltac:(ql) N).
    replace ((t - 1) * cross a b u) with (- ((1 - t) * cross a b u)) in M by ring. ql.
Qed.

Section C.
Context (S : list point) (m : map) (W : laws S m).
Notation E := (me m).

(** The first neighbours above [l r] come in order. *)
Lemma cand_order l r x : E l r -> E l x -> 0 < cross l r x ->
  0 < cross l r (mn m l r) /\ (x = mn m l r \/
   (0 < cross l (mn m l r) x /\ 0 < cross l (mn m l r) (mn m l (mn m l r)) /\ 0 < cross l r (mn m l (mn m l r)) /\
    (x = mn m l (mn m l r) \/ 0 < cross l (mn m l (mn m l r)) x))).
Proof.
  intros Hr Hx C. destruct (l_next _ _ W _ _ Hr) as (Hc & _). set (c := mn m l r) in *.
  destruct (l_next _ _ W _ _ Hc) as (Hd & _). set (d := mn m l c) in *.
  pose proof (l_ne _ _ W _ _ Hr) as Nr. pose proof (l_ne _ _ W _ _ Hx) as Nx.
  pose proof (l_ne _ _ W _ _ Hc) as Nc. pose proof (l_ne _ _ W _ _ Hd) as Nd.
  pose proof (l_sorted _ _ W _ _ _ Hr Hx) as S1. fold c in S1.
  destruct (ad_pos l r x Nr Nx C) as (_ & r1). pose proof (ad_range l r c Nr Nc) as (r2 & _).
  split; [apply ad_pos_iff; auto; ql|].
  destruct (Qcle_lt_or_eq _ _ S1) as [h|h].
  2:{ left. symmetry. apply (same_nbr _ _ W l); auto. apply (ad_eq l r); auto. }
  pose proof (ad_step l r c x Nr Nc Nx h) as st.
  right. split; [apply ad_pos_iff; auto; ql|].
  pose proof (l_sorted _ _ W _ _ _ Hc Hx) as S2. fold d in S2.
  pose proof (ad_range l c d Nc Nd) as (r3 & _).
  split; [apply ad_pos_iff; auto; ql|].
  assert (e : ad l r d = ad l r c + ad l c d).
  { destruct (ad_tri l r c d) as [t|t]; auto. pose proof (ad_range l r d Nr Nd) as (r4 & _). exfalso; ql. }
  split; [apply ad_pos_iff; auto; ql|].
  destruct (Qcle_lt_or_eq _ _ S2) as [h'|h'].
  - right. pose proof (ad_step l c d x Nc Nd Nx h') as st2. apply ad_pos_iff; auto; ql.
  - left. symmetry. apply (same_nbr _ _ W l); auto. apply (ad_eq l c); auto.
Qed.
(** An edge that the code deletes is not Delaunay. *)
Lemma deleted_sndel l r : E l r -> 0 < cross l r (mn m l r) -> 0 < cross l r (mn m l (mn m l r)) ->
  0 < inc l r (mn m l r) (mn m l (mn m l r)) -> sndel S l (mn m l r).
Proof.
  intros Hr C1 C2 I. destruct (l_next _ _ W _ _ Hr) as (Hc & _). destruct (l_next _ _ W _ _ Hc) as (Hd & _).
  destruct (cand_order l r (mn m l (mn m l r)) Hr Hd C2) as (_ & [e|(c1 & _)]).
  { rewrite e, inc_c in I. ql. }
  exists (mn m l (mn m l r)), r. repeat split.
  - apply (e_in2 _ _ W l), Hd.
  - apply (e_in2 _ _ W l), Hr.
  - exact c1.
  - rewrite cross_swap. ql.
  - set (c := mn m l r) in *. set (d := mn m l c) in *.
    replace (inc l c d r) with (inc l r c d) by (unfold inc, incircle; ring). exact I.
Qed.
(** When no more edges are discarded, the candidate is as good as any point of its side. *)
Lemma stop_best (L : list point) (mL : map) (T : DT L mL) l r w :
  (forall q, In q L -> In q S) ->
  (forall v a, me mL v a -> E v a \/ sndel S v a) ->
  (forall x, E l x -> 0 < cross l r x -> me mL l x) ->
  E l r -> In l L ->
  ~ (0 < cross l r (mn m l r) /\ 0 < cross l r (mn m l (mn m l r)) /\ 0 < inc l r (mn m l r) (mn m l (mn m l r))) ->
  In w L -> empty S l r w -> 0 < cross l r (mn m l r) /\ empty S l r (mn m l r) /\ In (mn m l r) L.
Proof.
  intros LS HE HB Hr Hl Stop Hw Em. pose proof (d_laws _ _ T) as WL.
  destruct (empty_disc _ _ _ _ Em) as (Dk & DS & Dl & Dr & Dw). set (D := circ l r w) in *.
  destruct Em as (Cw & _).
  assert (Nw : w <> l) by (intros ->; rewrite cross_aba in Cw; ql).
  destruct (fan L mL T D l w r Dk (fun q h => DS q (LS q h)) Hl Hw Nw Dl Dw Cw) as (w' & Hw' & Dw' & Cw').
  assert (Ew : E l w').
  { destruct (HE _ _ Hw') as [h|h]; [exact h|exfalso]. apply (DE_sndel S l w'); auto. apply (chord S D); auto. }
  destruct (l_next _ _ W _ _ Hr) as (Hc & _). destruct (l_next _ _ W _ _ Hc) as (Hd & _).
  destruct (cand_order l r w' Hr Ew Cw') as (C1 & C2).
  set (c := mn m l r) in *. set (d := mn m l c) in *.
  assert (Hc' := HB c Hc C1).
  split; [exact C1|].
  split; [|apply (e_in2 _ _ WL l), Hc'].
  apply (disc_empty S D); auto.
  apply (disc_on D l r w'); auto; [|intros e; rewrite e in Cw'; ql].
  assert (Em' : empty S l r w') by (apply (disc_empty S D); auto).
  pose proof (proj2 Em' c (e_in2 _ _ W _ _ Hc)) as I1.
  destruct C2 as [->|(c1 & c2 & c3 & C3)]; [apply inc_c|].
  assert (I2 : inc l r c d <= 0).
  { destruct (Qclt_le_dec 0 (inc l r c d)) as [h|h]; [exfalso; apply Stop; auto|exact h]. }
  assert (I3 : inc l r c w' <= 0).
  2:{ rewrite inc_last in I1. rewrite inc_last. ql. }
  destruct C3 as [->|c4]; [exact I2|].
  assert (Hd' := HB d Hd c3).
  assert (I4 : inc l c d w' <= 0).
  { pose proof (dt_DE L mL T l d Hd' w' c (e_in2 _ _ WL _ _ Hw') (e_in2 _ _ WL _ _ Hc') c4) as H.
    rewrite cross_swap in H. specialize (H ltac:(ql)).
    replace (inc l c d w') with (inc l d w' c) by (unfold inc, incircle; ring). exact H. }
  replace (inc l r c w') with (inc l c w' r) by (unfold inc, incircle; ring).
  replace (inc l r c d) with (inc l c d r) in I2 by (unfold inc, incircle; ring).
  apply (nonpos_of_mul (cross l c d)); [exact c2|].
  pose proof (pencil l c d w' r) as K.
  assert (c5 : cross l c r < 0) by (rewrite cross_swap; ql).
  pose proof (mul_nonpos (cross l c w') (inc l c d r) ltac:(ql) I2).
  pose proof (mul_nonpos_nonpos (cross l c r) (inc l c d w') ltac:(ql) I4). ql.
Qed.
(** Closing the triangle [x y z] with the edge [y z]. *)
Lemma close_triangle x y z : empty S x y z -> E x y -> E x z -> mn m x y = z -> ~ E z y ->
  laws S (ins m z y x (mp m y x)).
Proof.
  intros Em Hxy Hxz En Nyz. destruct (empty_neq _ _ _ _ Em) as (n1 & n2 & n3). pose proof Em as (P & Q).
  pose proof (l_sym _ _ W _ _ Hxy) as Hyx. pose proof (l_sym _ _ W _ _ Hxz) as Hzx.
  destruct (l_prev _ _ W _ _ Hyx) as (Ha & Ea). set (a := mp m y x) in *.
  apply laws_ins; auto.
  - apply (e_in2 _ _ W x), Hxz.
  - apply (e_in2 _ _ W x), Hxy.
  - (* around z *)
    destruct (l_next _ _ W _ _ Hzx) as (Hb & _). set (b := mn m z x) in *.
    destruct (Qclt_le_dec (ad z x y) (ad z x b)) as [h|h]; [exact h|exfalso].
    pose proof (l_ne _ _ W _ _ Hb) as Nb.
    assert (Cz : 0 < cross z x y) by (rewrite <- (cross_rot z x y); exact P).
    destruct (ad_pos z x y) as (_ & r); auto. pose proof (ad_range z x b ltac:(auto) Nb) as (r1 & _).
    destruct (cone_free _ _ W z x y b) as [e|e]; auto.
    + apply empty_rot, empty_rot, Em.
    + assert (0 < cross z x b) by (apply ad_pos_iff; auto; ql). ql.
    + destruct (ad_le_tri z x b y) as [t|t]; auto; [assert (0 < cross z b y) by (apply ad_pos_iff; auto; ql); ql|].
      destruct (ad_same z b y) as (t' & _); auto. ql.
    + rewrite e, ad_self in h. ql.
    + apply Nyz. rewrite <- e. exact Hb.
  - (* around y *)
    rewrite Ea. pose proof (l_ne _ _ W _ _ Ha) as Na.
    destruct (ad_pos y z x) as (r1 & r2); auto; [rewrite cross_rot; exact P|].
    destruct (ad_tri y a z x) as [t|t]; auto; [ql|exfalso].
    assert (C1 : ad y a x < ad y z x).
    { pose proof (ad_range y a z Na ltac:(auto)) as (_ & r3).
      destruct (Qcle_lt_or_eq _ _ r3) as [h|h]; [ql|].
      exfalso. destruct (same_btw y a z Na ltac:(auto) h) as [e|[e|e]].
      - apply Nyz, (l_sym _ _ W). rewrite <- e. exact Ha.
      - assert (0 < inc x y z a); [|pose proof (Q a (e_in2 _ _ W _ _ Ha)); ql].
        destruct (btw_neq _ _ _ e) as (g1 & g2 & g3). destruct (btw_param _ _ _ e) as (s & s0 & s1 & sx & sy).
        assert (K1 : cross x y a = s * cross x y z) by (unfold cross; rewrite sx, sy; ring).
        assert (K2 : cross z x a = (1 - s) * cross x y z) by (unfold cross; rewrite sx, sy; ring).
        pose proof (mul_pos _ _ s0 P). pose proof (mul_pos (1 - s) _ ltac:(ql) P).
        apply triangle_in_disc; auto; try ql.
        + rewrite (proj1 e). ql.
        + intros ->. rewrite cross_aba in K1. ql.
      - apply (l_clean _ _ W y a z Ha); [apply (e_in2 _ _ W x), Hxz|exact e]. }
    (* a is strictly between z and x *)
    pose proof (ad_range y a x Na ltac:(auto)) as (r3 & _).
    assert (c1 : 0 < cross y a x) by (apply ad_pos_iff; auto; ql).
    assert (c2 : 0 < cross y z a).
    { apply ad_pos_iff; auto. pose proof (ad_range y z a ltac:(auto) Na) as (r4 & r5).
      destruct (ad_tri y z a x) as [t2|t2]; auto; [ql|]. ql. }
    destruct (cone_free _ _ W y z x a) as [e|e]; auto.
    + apply empty_rot, Em.
    + ql.
    + ql.
    + apply Nyz, (l_sym _ _ W). rewrite <- e. exact Ha.
    + rewrite e, ad_self in C1. ql.
  - (* clean *)
    intros q Hq B.
    destruct (btw_neq _ _ _ B) as (g1 & g2 & g3). destruct (btw_param _ _ _ B) as (s & s0 & s1 & sx & sy).
    assert (K1 : cross x y q = (1 - s) * cross x y z) by (unfold cross; rewrite sx, sy; ring).
    assert (K2 : cross z x q = s * cross x y z) by (unfold cross; rewrite sx, sy; ring).
    pose proof (mul_pos _ _ s0 P). pose proof (mul_pos (1 - s) _ ltac:(ql) P).
    assert (0 < inc x y z q); [|specialize (Q q Hq); ql].
    apply triangle_in_disc; auto; try ql.
    + rewrite cross_flip, (proj1 B). ql.
    + intros ->. rewrite cross_aba in K1. ql.
  - (* planar *)
    intros u w Hu (k1 & k2 & k3 & k4).
    assert (f1 : cross y z u < 0) by (rewrite cross_flip; ql).
    assert (f2 : 0 < cross y z w) by (rewrite cross_flip; ql).
    pose proof (cross_sum x y z u) as Su. pose proof (cross_sum x y z w) as Sw.
    pose proof (bary x y z u u w) as Bu. pose proof (bary x y z w u w) as Bw.
    rewrite cross_aba in Bu. rewrite cross_abb in Bw.
    replace (cross x y z * 0) with 0 in Bu, Bw by ring.
    set (sx := cross u w x) in *. set (sy := cross u w y) in *. set (sz := cross u w z) in *.
    pose proof (e_in2 _ _ W _ _ Hu) as Hw.
    assert (NT : w <> x -> 0 <= cross x y w -> 0 <= cross z x w -> False).
    { intros nx t1 t2. assert (0 < inc x y z w); [|specialize (Q w Hw); ql].
      apply triangle_in_disc; auto; [ql| |]; intros ->; [rewrite cross_aba in f2|rewrite cross_abb in f2]; ql. }
    set (fu := cross y z u) in *. set (gu := cross z x u) in *. set (hu := cross x y u) in *.
    set (fw := cross y z w) in *. set (gw := cross z x w) in *. set (hw := cross x y w) in *.
    destruct (tricho sx 0) as [sx0|[sx0|sx0]].
    + apply (l_planar _ _ W x y u w Hxy Hu). red. fold hu hw sx sy.
      assert (hu > 0).
      { destruct (Qclt_le_dec 0 hu) as [h|h]; [exact h|exfalso].
        pose proof (mul_neg_neg _ _ f1 sx0). pose proof (mul_nonpos_nonpos hu sz h ltac:(ql)).
        assert (gu < 0); [|ql]. apply (neg_of_mul sy); [exact k4|]. rewrite Qcmult_comm. ql. }
      assert (hw < 0).
      { destruct (Qclt_le_dec hw 0) as [h|h]; [exact h|exfalso].
        pose proof (mul_neg _ _ f2 sx0). pose proof (mul_nonpos hw sz h ltac:(ql)).
        assert (0 < gw); [|apply NT; [intros e; unfold sx in sx0; rewrite <- e, cross_abb in sx0; ql|exact h|ql]].
        apply (pos_of_mul sy); [exact k4|]. rewrite Qcmult_comm. ql. }
      auto.
    + destruct (point_eq_dec w x) as [e|nwx].
      * subst w. pose proof (l_sym _ _ W _ _ Hu) as Hxu.
        assert (K : gu * sy = hu * - sz) by (rewrite sx0 in Bu; replace (fu * 0) with 0 in Bu by ring; replace (hu * - sz) with (- (hu * sz)) by ring; ql).
        assert (0 < gu /\ 0 < hu) as (g1 & g2).
        { assert (0 < hu).
          { destruct (Qclt_le_dec 0 hu) as [h|h]; [exact h|exfalso].
            pose proof (mul_nonneg (- hu) (- sz) ltac:(ql) ltac:(ql)) as M. replace (- hu * - sz) with (- (hu * - sz)) in M by ring.
            assert (gu <= 0); [|ql]. apply (nonpos_of_mul sy); [exact k4|]. rewrite Qcmult_comm. ql. }
          split; [|assumption]. pose proof (mul_pos hu (- sz) ltac:(assumption) ltac:(ql)).
          apply (pos_of_mul sy); [exact k4|]. rewrite Qcmult_comm. ql. }
        pose proof (l_sorted _ _ W _ _ _ Hxy Hxu) as So. rewrite En in So.
        pose proof (l_ne _ _ W _ _ Hxu) as Nu.
        destruct (ad_pos x y u) as (a1 & a2); auto. destruct (ad_pos x y z) as (a3 & a4); auto.
        destruct (ad_pos x u z) as (a5 & a6); auto; [rewrite <- (cross_rot x u z), <- (cross_rot u z x); exact g1|].
        destruct (ad_tri x y u z) as [t|t]; auto; ql.
      * assert (K : gw * sy = hw * - sz) by (rewrite sx0 in Bw; replace (fw * 0) with 0 in Bw by ring; replace (hw * - sz) with (- (hw * sz)) by ring; ql).
        assert (K' : gu * sy = hu * - sz) by (rewrite sx0 in Bu; replace (fu * 0) with 0 in Bu by ring; replace (hu * - sz) with (- (hu * sz)) by ring; ql).
        assert (g2 : 0 < hu).
        { destruct (Qclt_le_dec 0 hu) as [h|h]; [exact h|exfalso].
          pose proof (mul_nonneg (- hu) (- sz) ltac:(ql) ltac:(ql)) as M. replace (- hu * - sz) with (- (hu * - sz)) in M by ring.
          assert (gu <= 0); [|ql]. apply (nonpos_of_mul sy); [exact k4|]. rewrite Qcmult_comm. ql. }
        assert (g3 : hw < 0).
        { destruct (Qclt_le_dec hw 0) as [h|h]; [exact h|exfalso]. apply NT; auto.
          pose proof (mul_nonneg hw (- sz) h ltac:(ql)) as M.
          apply (nonneg_of_mul sy); [exact k4|]. rewrite Qcmult_comm. ql. }
        apply (l_clean _ _ W u w x Hu); [apply (l_in _ _ W _ _ Hxy)|].
        apply (sign_btw x y); auto. apply cross_aba.
    + apply (l_planar _ _ W z x u w Hzx Hu). red. fold gu gw sx sz.
      assert (0 < gu).
      { destruct (Qclt_le_dec 0 gu) as [h|h]; [exact h|exfalso].
        pose proof (mul_neg _ _ sx0 f1) as M1. pose proof (mul_nonpos sy gu ltac:(ql) h) as M2.
        rewrite Qcmult_comm in M1, M2.
        assert (hu < 0); [|ql]. apply (neg_of_mul (- sz)); [ql|].
        replace (- sz * hu) with (- (hu * sz)) by ring. ql. }
      assert (gw < 0).
      { destruct (Qclt_le_dec gw 0) as [h|h]; [exact h|exfalso].
        pose proof (mul_pos _ _ f2 sx0). pose proof (mul_nonneg gw sy h ltac:(ql)).
        assert (0 < hw); [|apply NT; [intros e; unfold sx in sx0; rewrite <- e, cross_abb in sx0; ql|ql|exact h]].
        apply (pos_of_mul (- sz)); [ql|]. replace (- sz * hw) with (- (hw * sz)) by ring. ql. }
      auto.
Qed.
End C.
