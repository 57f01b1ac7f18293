(** The instance of Reference.v has the properties the theorems ask for. *)
From Verif Require Import Base Geometry Ctx Contracts Factories Spec QcTac ProgProofs GeomProofs ListProofs CyclicProofs
  SegmentProofs EdgeProofs Reference.
From Coq Require Import Lqa.

Lemma member_in p l : member p l = true <-> In p l.
Proof.
  unfold member. rewrite existsb_exists. split.
  - intros (q & Hq & E). apply point_eqb_eq in E. subst q. exact Hq.
  - intros H. exists p. split; [exact H|apply point_eqb_refl].
Qed.
Lemma distinct_nodup l : distinct l = true -> NoDup l.
Proof.
  induction l as [|p l IH]; intros H; constructor; cbn [distinct] in H; apply andb_true_iff in H; destruct H as (H1 & H2).
  - apply negb_true_iff in H1. intros Hin. apply member_in in Hin. congruence.
  - apply IH, H2.
Qed.
Lemma hull_check_sound l h : hull_check l h = true -> is_hull l h.
Proof.
  unfold hull_check. rewrite !andb_true_iff, !forallb_forall. intros (((H1 & H2) & H3) & H4).
  apply distinct_nodup in H1. split; [exact H1|]. split; [intros p Hp; apply member_in, H2, Hp|]. split.
  - intros a b He p Hp Hr. apply segments_edge in He. specialize (H3 _ He). rewrite forallb_forall in H3.
    specialize (H3 p Hp). cbn [seg_start seg_end] in H3. apply orientation_cw in Hr. rewrite Hr in H3. discriminate.
  - intros Hl. split; [exact Hl|]. split; [exact H1|]. intros a b He c Hc Ha Hb. apply segments_edge in He.
    specialize (H4 _ He). rewrite forallb_forall in H4. specialize (H4 c Hc). cbn [seg_start seg_end] in H4.
    rewrite !orb_true_iff, !point_eqb_eq, orientation_eqb_eq, orientation_ccw in H4. tauto.
Qed.
Lemma no_hull l : is_hull l [].
Proof.
  split; [constructor|]. split; [intros p []|]. split; [intros a b (i & H & _); destruct i; discriminate|cbn; lia].
Qed.
Lemma reference_hull l : is_hull l (ctx_hull reference l).
Proof.
  cbn [reference ctx_hull]. unfold ref_hull. destruct (hull_check l (chain_hull l)) eqn:E; [|apply no_hull].
  apply hull_check_sound, E.
Qed.

Lemma reference_coins n : 2 <= n -> is_change n (ctx_coins reference n).
Proof.
  intros Hn. cbn [reference ctx_coins]. unfold ref_coins, is_change.
  assert (Hs : forall k, fold_right Nat.add 0 (repeat 3 k) = 3 * k) by (induction k; cbn; lia).
  assert (Hr : forall k c, In c (repeat 3 k) -> c = 3) by (intros k c H; apply repeat_spec in H; exact H).
  pose proof (Nat.div_mod n 3 ltac:(lia)) as E. pose proof (Nat.mod_upper_bound n 3 ltac:(lia)) as B.
  destruct (n mod 3) as [|[|[|k]]]; [| | |lia].
  - rewrite Hs. split; [lia|]. intros c H. apply Hr in H. auto.
  - assert (H4 : n - 4 = (n / 3 - 1) * 3) by lia. rewrite H4, Nat.div_mul by lia. cbn [fold_right]. rewrite Hs.
    split; [lia|]. intros c [H|[H|H]]; auto. apply Hr in H. auto.
  - assert (H2 : n - 2 = (n / 3) * 3) by lia. rewrite H2, Nat.div_mul by lia. cbn [fold_right]. rewrite Hs.
    split; [lia|]. intros c [H|H]; auto. apply Hr in H. auto.
Qed.

Lemma minmax_between (u v w : Qc) : (qmin u v <= w)%Qc /\ (w <= qmax u v)%Qc <->
  ((u <= w)%Qc /\ (w <= v)%Qc \/ (v <= w)%Qc /\ (w <= u)%Qc).
Proof.
  unfold qmin, qmax. destruct (qltb v u) eqn:E1, (qltb u v) eqn:E2;
  rewrite ?qltb_lt, ?qltb_ge in *.
  - exfalso; qcl.
  - split; [tauto|]. intros [(H1 & H2)|(H1 & H2)]; [exfalso; qcl|tauto].
  - split; [tauto|]. intros [(H1 & H2)|(H1 & H2)]; [tauto|exfalso; qcl].
  - assert (u = v) as -> by (apply Qcle_antisym; assumption). tauto.
Qed.
Lemma on_segment_b_spec p a b : on_segment_b p a b = true <-> on_segment p a b.
Proof.
  unfold on_segment_b, is_collinear. rewrite !andb_true_iff, !qleb_le, orientation_eqb_eq, orientation_col. split.
  - intros ((((Hc & H1) & H2) & H3) & H4). apply on_segment_box; [exact Hc|apply minmax_between; auto|apply minmax_between; auto].
  - intros H. pose proof (on_segment_collinear _ _ _ H) as Hc. destruct (on_segment_bounds _ _ _ H) as (Hx & Hy).
    apply minmax_between in Hx, Hy. tauto.
Qed.
Lemma collinear_swap12 a b c : collinear a b c -> collinear b a c.
Proof. unfold collinear. intros H. replace (cross b a c) with (- cross a b c)%Qc by (unfold cross; ring). rewrite H. ring. Qed.
Lemma on_segment_lohi p a b : collinear a b p ->
  ple (if point_leb a b then a else b) p -> ple p (if point_leb a b then b else a) -> on_segment p a b.
Proof.
  intros Hc. destruct (point_leb a b); intros H1 H2.
  - apply on_segment_order; assumption.
  - apply on_segment_sym, on_segment_order; [apply collinear_swap12; exact Hc|assumption|assumption].
Qed.
Lemma proper_cross a b c d : ((cross a b c < 0 /\ 0 < cross a b d) \/ (0 < cross a b c /\ cross a b d < 0))%Qc ->
  ((cross c d a < 0 /\ 0 < cross c d b) \/ (0 < cross c d a /\ cross c d b < 0))%Qc ->
  exists p, on_segment p a b /\ on_segment p c d.
Proof.
  intros H1 H2.
  set (o1 := cross a b c) in *. set (o2 := cross a b d) in *.
  assert (Hn : (o1 - o2 <> 0)%Qc) by (intros E; destruct H1 as [(?&?)|(?&?)]; qcl).
  set (t := (o1 / (o1 - o2))%Qc).
  assert (Et : (t * (o1 - o2) = o1)%Qc) by (unfold t; field; exact Hn).
  set (p := Pt (px c + t * (px d - px c))%Qc (py c + t * (py d - py c))%Qc).
  assert (Ht : (0 <= t)%Qc /\ (t <= 1)%Qc) by (clearbody t o1 o2; clear H2 p; split; destruct H1 as [(?&?)|(?&?)]; qcn).
  exists p. split; [|exists t; tauto].
  set (o3 := cross c d a) in *. set (o4 := cross c d b) in *.
  assert (Hn' : (o3 - o4 <> 0)%Qc) by (intros E; destruct H2 as [(?&?)|(?&?)]; qcl).
  assert (Hrel : (o3 - o4 = o2 - o1)%Qc) by (unfold o1, o2, o3, o4, cross; ring).
  set (s := (o3 / (o3 - o4))%Qc).
  assert (Es : (s * (o3 - o4) = o3)%Qc) by (unfold s; field; exact Hn').
  exists s. split; [clearbody s o1 o2 o3 o4; clear H1; destruct H2 as [(?&?)|(?&?)]; qcn|].
  split; [clearbody s o1 o2 o3 o4; clear H1; destruct H2 as [(?&?)|(?&?)]; qcn|].
  assert (Ex : ((o3 - o4) * (px a + s * (px b - px a)) = (o3 - o4) * px p)%Qc).
  { transitivity ((o3 - o4) * px a + s * (o3 - o4) * (px b - px a))%Qc; [ring|]. rewrite Es.
    transitivity ((o3 - o4) * px c - t * (o1 - o2) * (px d - px c))%Qc; [rewrite Et|rewrite Hrel; unfold p; cbn [px]; ring].
    unfold o1, o3, o4, cross. ring. }
  assert (Ey : ((o3 - o4) * (py a + s * (py b - py a)) = (o3 - o4) * py p)%Qc).
  { transitivity ((o3 - o4) * py a + s * (o3 - o4) * (py b - py a))%Qc; [ring|]. rewrite Es.
    transitivity ((o3 - o4) * py c - t * (o1 - o2) * (py d - py c))%Qc; [rewrite Et|rewrite Hrel; unfold p; cbn [py]; ring].
    unfold o1, o3, o4, cross. ring. }
  clear - Ex Ey Hn'.
  assert (Hcancel : forall u v w : Qc, w <> Q2Qc 0 -> (w * u = w * v)%Qc -> u = v).
  { intros u v w Hw E. assert (E' : (w * (u - v) = 0)%Qc) by (transitivity (w * u - w * v)%Qc; [ring|rewrite E; ring]).
    apply Qcmult_integral in E'. destruct E' as [E'|E']; [contradiction|]. rewrite <- (Qcplus_0_r v), <- E'. ring. }
  split; symmetry; eapply Hcancel; eassumption.
Qed.
Lemma cross_or_overlap_touch s t : segments_cross_or_overlap s t = true -> segments_touch s t.
Proof.
  destruct s as [a b], t as [c d]. unfold segments_cross_or_overlap, segments_touch. cbn [seg_start seg_end].
  pose proof (orientation_sign a b c) as O1. pose proof (orientation_sign a b d) as O2.
  pose proof (orientation_sign c d a) as O3. pose proof (orientation_sign c d b) as O4.
  destruct (angle_orientation a b c) eqn:E1, (angle_orientation a b d) eqn:E2; try discriminate.
  - destruct (angle_orientation c d a), (angle_orientation c d b); try discriminate; intros _; apply proper_cross; tauto.
  - intros H. apply point_ltb_lt in H.
    set (lo := fun p q : point => if point_leb p q then p else q) in *.
    set (hi := fun p q : point => if point_leb p q then q else p) in *.
    assert (Lo : forall p q, (lo p q = p \/ lo p q = q) /\ ple (lo p q) p /\ ple (lo p q) q).
    { intros p q. unfold lo. destruct (point_leb p q) eqn:E.
      - split; [auto|]. split; [right; reflexivity|apply point_leb_le, E].
      - split; [auto|]. split; [|right; reflexivity]. apply not_plt. intros H'.
        assert (point_leb p q = true) by (apply point_leb_le; left; exact H'). congruence. }
    assert (Hi : forall p q, (hi p q = p \/ hi p q = q) /\ ple p (hi p q) /\ ple q (hi p q)).
    { intros p q. unfold hi. destruct (point_leb p q) eqn:E.
      - split; [auto|]. split; [apply point_leb_le, E|right; reflexivity].
      - split; [auto|]. split; [right; reflexivity|]. apply not_plt. intros H'.
        assert (point_leb p q = true) by (apply point_leb_le; left; exact H'). congruence. }
    change (plt (hi (lo a b) (lo c d)) (lo (hi a b) (hi c d))) in H.
    set (p := hi (lo a b) (lo c d)) in *.
    destruct (Hi (lo a b) (lo c d)) as (P1 & P2 & P3). fold p in P1, P2, P3.
    destruct (Lo (hi a b) (hi c d)) as (_ & Q2 & Q3).
    assert (R1 : ple p (hi a b)) by (eapply ple_trans; [left; exact H|exact Q2]).
    assert (R2 : ple p (hi c d)) by (eapply ple_trans; [left; exact H|exact Q3]).
    destruct (Lo a b) as (La & _). destruct (Lo c d) as (Lc & _).
    assert (Zab : cross a b a = Q2Qc 0 /\ cross a b b = Q2Qc 0) by (split; unfold cross; ring).
    assert (Zcd : cross c d c = Q2Qc 0 /\ cross c d d = Q2Qc 0) by (split; unfold cross; ring).
    assert (Hcol : collinear a b p).
    { unfold collinear. destruct P1 as [-> | ->]; [destruct La as [-> | ->]; tauto|destruct Lc as [-> | ->]; assumption]. }
    assert (Hab : a <> b).
    { intros <-. assert (hi a a = a /\ lo a a = a) as (E & E') by (unfold hi, lo; destruct (point_leb a a); auto).
      rewrite E in R1, Q2, H. rewrite E' in P2. apply (plt_irrefl a). eapply ple_plt_trans; [exact P2|]. eapply plt_ple_trans; [exact H|exact Q2]. }
    assert (Hcd : collinear c d p).
    { unfold collinear. destruct P1 as [E|E]; rewrite E.
      - destruct La as [-> | ->].
        + apply (collinear_three a b c d Hab O1 O2).
        + assert (T : collinear c d a) by (apply (collinear_three a b c d Hab O1 O2)). clear - T O1 O2 Hab.
          apply (collinear_three b a c d); [congruence| |]; apply collinear_swap12; assumption.
      - destruct Lc as [-> | ->]; tauto. }
    exists p. split; apply on_segment_lohi; assumption.
  - destruct (angle_orientation c d a), (angle_orientation c d b); try discriminate; intros _; apply proper_cross; tauto.
Qed.
Lemma segments_meet_spec s t : segments_meet s t = true <-> segments_touch s t.
Proof.
  unfold segments_meet. rewrite !orb_true_iff, !on_segment_b_spec. split.
  - intros [[[[H|H]|H]|H]|H].
    + exists (seg_start s). split; [apply on_segment_l|exact H].
    + exists (seg_end s). split; [apply on_segment_r|exact H].
    + exists (seg_start t). split; [exact H|apply on_segment_l].
    + exists (seg_end t). split; [exact H|apply on_segment_r].
    + apply cross_or_overlap_touch, H.
  - intros (p & H1 & H2).
    destruct (on_segment_cases _ _ _ H1) as [-> |[-> |I1]]; [tauto|tauto|].
    destruct (on_segment_cases _ _ _ H2) as [-> |[-> |I2]]; [tauto|tauto|].
    right. apply interiors_meet_detected. exists p. auto.
Qed.
Lemma reference_nearest l s : l <> [] -> is_nearest l s (ctx_nearest reference l s).
Proof.
  intros Hl. cbn [reference ctx_nearest]. unfold ref_nearest, is_nearest.
  destruct (find (fun t => segments_meet t s) l) as [t|] eqn:E.
  - apply find_some in E. destruct E as (H1 & H2). apply segments_meet_spec in H2. auto.
  - split; [destruct l; [contradiction|left; reflexivity]|]. intros (t' & Ht & H). exfalso.
    apply segments_meet_spec in H. pose proof (find_none _ _ E t' Ht) as Hn. cbn in Hn. congruence.
Qed.
