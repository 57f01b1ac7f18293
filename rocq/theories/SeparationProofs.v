(** Contours on the two sides of a point of an ordered list do not meet elsewhere. *)
From Coq Require Import Sorting.Sorted.
From Verif Require Import Base Prog Geometry Utils Contracts Spec Factories QcTac ProgProofs GeomProofs ListProofs
  SegmentProofs EdgeProofs HelperProofs ReferenceProofs.

(** The two orders: by abscissa then ordinate ([true]), by ordinate then abscissa. *)
Definition kpt (k : bool) (p : point) : point := if k then p else Pt (py p) (px p).
Definition kle (k : bool) (p q : point) : Prop := ple (kpt k p) (kpt k q).
Lemma kpt_inj k p q : kpt k p = kpt k q -> p = q.
Proof. destruct k; cbn; [auto|]. intros H. injection H as H1 H2. apply point_ext; assumption. Qed.
Lemma kle_refl k p : kle k p p.
Proof. right. reflexivity. Qed.
Lemma kle_trans k p q r : kle k p q -> kle k q r -> kle k p r.
Proof. apply ple_trans. Qed.
Lemma kle_antisym k p q : kle k p q -> kle k q p -> p = q.
Proof. intros H1 H2. apply (kpt_inj k). apply ple_antisym; assumption. Qed.
Lemma kle_total k p q : kle k p q \/ kle k q p.
Proof. apply ple_total. Qed.
Lemma vertical_leb_le p q : vertical_leb p q = true <-> kle false p q.
Proof. unfold kle. cbn. rewrite <- point_leb_le. reflexivity. Qed.
Lemma key_leb_le (k : bool) p q : (if k then point_leb else vertical_leb) p q = true <-> kle k p q.
Proof. destruct k; [apply point_leb_le|apply vertical_leb_le]. Qed.
Lemma sort_points_sorted k l : StronglySorted (kle k) (sort_points k l).
Proof.
  unfold sort_points. assert (H : StronglySorted (le (if k then point_leb else vertical_leb)) (isort (if k then point_leb else vertical_leb) l)).
  { apply isort_sorted.
    - intros x y. rewrite !key_leb_le. apply kle_total.
    - intros x y z. rewrite !key_leb_le. apply kle_trans. }
  induction H as [|x l' Hs IH Hf]; constructor; [exact IH|].
  eapply Forall_impl; [|exact Hf]. intros y Hy. apply key_leb_le, Hy.
Qed.
Lemma sort_points_perm k l : Permutation l (sort_points k l).
Proof. apply isort_perm. Qed.

Lemma kpt_on_segment k p a b : on_segment p a b -> on_segment (kpt k p) (kpt k a) (kpt k b).
Proof. destruct k; [auto|]. intros (t & H0 & H1 & Hx & Hy). exists t. cbn. auto. Qed.
Lemma kpt_inside k p a b : inside p a b -> inside (kpt k p) (kpt k a) (kpt k b).
Proof.
  intros (H & Ha & Hb). split; [apply kpt_on_segment, H|].
  split; intros E; apply kpt_inj in E; contradiction.
Qed.
Lemma inside_lt p a b m : inside p a b -> ple a m -> ple b m -> plt p m.
Proof.
  intros Hi Ha Hb. pose proof (inside_neq _ _ _ Hi) as N. destruct (plt_total a b) as [L|[E|L]]; [| contradiction|].
  - destruct (inside_between _ _ _ Hi L). apply plt_ple_trans with b; assumption.
  - destruct (inside_between _ _ _ (inside_sym _ _ _ Hi) L). apply plt_ple_trans with a; assumption.
Qed.
Lemma inside_gt p a b m : inside p a b -> ple m a -> ple m b -> plt m p.
Proof.
  intros Hi Ha Hb. pose proof (inside_neq _ _ _ Hi) as N. destruct (plt_total a b) as [L|[E|L]]; [| contradiction|].
  - destruct (inside_between _ _ _ Hi L). apply ple_plt_trans with a; assumption.
  - destruct (inside_between _ _ _ (inside_sym _ _ _ Hi) L). apply ple_plt_trans with b; assumption.
Qed.
Lemma on_le k p a b m : on_segment p a b -> kle k a m -> kle k b m -> kle k p m.
Proof.
  intros H Ha Hb. destruct (on_segment_cases _ _ _ H) as [-> |[-> |Hi]]; [assumption..|].
  left. eapply inside_lt; [apply kpt_inside, Hi|exact Ha|exact Hb].
Qed.
Lemma on_ge k p a b m : on_segment p a b -> kle k m a -> kle k m b -> kle k m p.
Proof.
  intros H Ha Hb. destruct (on_segment_cases _ _ _ H) as [-> |[-> |Hi]]; [assumption..|].
  left. eapply inside_gt; [apply kpt_inside, Hi|exact Ha|exact Hb].
Qed.

(** All of [vs] is before [m] and all of [ws] after it. *)
Definition parted (vs ws : list point) : Prop :=
  exists k m, (forall p, In p vs -> kle k p m) /\ (forall q, In q ws -> kle k m q).
Lemma edge_in (vs : contour) a b : contour_edge vs a b -> In a vs /\ In b vs.
Proof. intros (i & Ha & Hb). split; eapply nth_error_In; eassumption. Qed.
Lemma parted_segments vs ws a b c d : parted vs ws -> In a vs -> In b vs -> In c ws -> In d ws ->
  ~ interiors_meet (Seg a b) (Seg c d).
Proof.
  intros (k & m & Hv & Hw) Ha Hb Hc Hd (p & Hp & Hq). cbn in Hp, Hq.
  pose proof (inside_lt _ _ _ (kpt k m) (kpt_inside k _ _ _ Hp) (Hv a Ha) (Hv b Hb)) as L1.
  pose proof (inside_gt _ _ _ (kpt k m) (kpt_inside k _ _ _ Hq) (Hw c Hc) (Hw d Hd)) as L2.
  apply (plt_irrefl (kpt k p)). eapply plt_trans; eassumption.
Qed.
Lemma parted_apart vs ws : parted vs ws -> edges_apart vs ws.
Proof.
  intros H a b c d Hab Hcd. destruct (edge_in _ _ _ Hab), (edge_in _ _ _ Hcd). eapply parted_segments; eassumption.
Qed.
Lemma parted_once vs ws : parted vs ws -> meet_at_most_once vs ws.
Proof.
  intros (k & m & Hv & Hw).
  assert (K : forall p, on_contour p vs -> on_contour p ws -> p = m).
  { intros p (a & b & E & S1) (c & d & E' & S2). destruct (edge_in _ _ _ E) as (Ha & Hb), (edge_in _ _ _ E') as (Hc & Hd).
    apply (kle_antisym k).
    - eapply on_le; [exact S1|apply Hv, Ha|apply Hv, Hb].
    - eapply on_ge; [exact S2|apply Hw, Hc|apply Hw, Hd]. }
  intros p q Hp Hp' Hq Hq'. rewrite (K p Hp Hp'), (K q Hq Hq'). reflexivity.
Qed.
Lemma parted_incl vs ws vs' ws' : parted vs ws -> incl vs' vs -> incl ws' ws -> parted vs' ws'.
Proof. intros (k & m & Hv & Hw) I1 I2. exists k, m. split; auto. Qed.

(** ** Cutting a sorted list. *)
Lemma py_bound_pos {A} (l : list A) i : (0 <= i)%Z -> py_bound l i = Nat.min (Z.to_nat i) (length l).
Proof. intros H. unfold py_bound. destruct (Z.leb_spec 0 i); [|lia]. lia. Qed.
Lemma take_pos {A} (l : list A) i : (0 <= i)%Z -> py_take l i = firstn (Z.to_nat i) l.
Proof.
  intros H. unfold py_take. rewrite py_bound_pos by exact H.
  destruct (Nat.le_ge_cases (Z.to_nat i) (length l)).
  - rewrite Nat.min_l by assumption. reflexivity.
  - rewrite Nat.min_r by assumption. rewrite firstn_all, firstn_all2 by assumption. reflexivity.
Qed.
Lemma drop_pos {A} (l : list A) i : (0 <= i)%Z -> py_drop l i = skipn (Z.to_nat i) l.
Proof.
  intros H. unfold py_drop. rewrite py_bound_pos by exact H.
  destruct (Nat.le_ge_cases (Z.to_nat i) (length l)).
  - rewrite Nat.min_l by assumption. reflexivity.
  - rewrite Nat.min_r by assumption. rewrite skipn_all, skipn_all2 by assumption. reflexivity.
Qed.
Lemma sorted_split {A} (R : A -> A -> Prop) n l x y : (forall z, R z z) -> StronglySorted R l ->
  In x (firstn (S n) l) -> In y (skipn n l) -> (forall m, nth_error l n = Some m -> R x m /\ R m y).
Proof.
  intros Hr Hs Hx Hy m Hm.
  assert (El : firstn (S n) l = firstn n l ++ [m]).
  { clear -Hm. revert l Hm. induction n as [|n IH]; intros [|z l] Hm; try discriminate; cbn in *; [injection Hm as ->; reflexivity|].
    f_equal. apply IH, Hm. }
  assert (Er : skipn n l = m :: skipn (S n) l).
  { clear -Hm. revert l Hm. induction n as [|n IH]; intros [|z l] Hm; try discriminate; cbn in *; [injection Hm as ->; reflexivity|].
    apply IH, Hm. }
  assert (E : l = firstn n l ++ m :: skipn (S n) l) by (rewrite <- Er, firstn_skipn; reflexivity).
  rewrite El in Hx. rewrite Er in Hy. rewrite E in Hs. clear -Hr Hs Hx Hy.
  set (f := firstn n l) in *. set (g := skipn (S n) l) in *. clearbody f g.
  induction f as [|z f IH]; cbn in *.
  - destruct Hx as [-> |[]]. inversion Hs; subst. split; [apply Hr|].
    destruct Hy as [<- |Hy]; [apply Hr|]. rewrite Forall_forall in *. auto.
  - inversion Hs as [|? ? Hs' Hf]; subst. rewrite Forall_forall in Hf. destruct Hx as [<- |Hx].
    + split; [apply Hf; apply in_or_app; right; left; reflexivity|].
      assert (Hm : StronglySorted R (m :: g)).
      { clear -Hs'. induction f as [|w f IH]; [exact Hs'|]. inversion Hs'; subst. apply IH. assumption. }
      inversion Hm; subst. destruct Hy as [<- |Hy]; [apply Hr|]. rewrite Forall_forall in *. auto.
    + apply IH; assumption.
Qed.
Lemma cut_parted k l size t : StronglySorted (kle k) l -> (1 <= size)%Z -> (0 <= t <= 1)%Z ->
  parted (py_take l size) (py_drop l (size - t)).
Proof.
  intros Hs H1 Ht. rewrite take_pos, drop_pos by lia.
  assert (Hsub : forall q, In q (skipn (Z.to_nat (size - t)) l) -> In q (skipn (Z.to_nat (size - 1)) l)).
  { intros q Hq. destruct (Z.eq_dec t 1) as [-> |Nt]; [exact Hq|]. assert (t = 0%Z) as -> by lia.
    replace (Z.to_nat (size - 0)) with (1 + Z.to_nat (size - 1)) in Hq by lia.
    revert Hq. generalize (Z.to_nat (size - 1)). intros n. revert l Hs. induction n as [|n IH]; intros [|z l] Hs Hq; try (destruct Hq; fail).
    - right. exact Hq.
    - inversion Hs; subst. cbn [skipn Nat.add] in *. apply IH; [assumption|]. exact Hq. }
  set (n := Z.to_nat (size - 1)) in *. replace (Z.to_nat size) with (S n) by lia.
  destruct (nth_error l n) as [m|] eqn:Em.
  - exists k, m. split.
    + intros p Hp. destruct (nth_error_split l n Em) as (l1 & l2 & E & Hl).
      assert (Hm : In m (skipn n l)).
      { rewrite E, <- Hl. rewrite skipn_app, skipn_all, Nat.sub_diag. left. reflexivity. }
      apply (sorted_split (kle k) n l p m (kle_refl k) Hs Hp Hm m Em).
    + intros q Hq. apply Hsub in Hq. destruct (nth_error_split l n Em) as (l1 & l2 & E & Hl).
      assert (Hm : In m (firstn (S n) l)).
      { rewrite E, <- Hl. rewrite firstn_app. apply in_or_app. right. replace (S (length l1) - length l1) with 1 by lia. left. reflexivity. }
      apply (sorted_split (kle k) n l m q (kle_refl k) Hs Hm Hq m Em).
  - apply nth_error_None in Em.
    assert (E : skipn n l = []) by (apply skipn_all2; exact Em).
    destruct l as [|z l].
    + exists k, (Pt 0 0)%Qc. split; intros p Hp; [rewrite firstn_nil in Hp; destruct Hp|]. apply Hsub in Hp. rewrite E in Hp. destruct Hp.
    + (* the last point *)
      assert (Hne : z :: l <> []) by discriminate.
      exists k, (last (z :: l) z). split.
      * intros p Hp. assert (Hin : In p (z :: l)) by (rewrite <- (firstn_skipn (S n) (z :: l)); apply in_or_app; left; exact Hp).
        clear -Hs Hin. revert Hs p Hin. generalize (z :: l) as m. intros m Hs. clear l. induction Hs as [|y m Hs IH Hf]; intros p Hp; [destruct Hp|].
        destruct m as [|w m]; [destruct Hp as [<- |[]]; apply kle_refl|].
        change (last (y :: w :: m) z) with (last (w :: m) z). destruct Hp as [<- |Hp]; [|apply IH, Hp].
        rewrite Forall_forall in Hf. apply Hf. apply nth_error_In with (length (w :: m) - 1). apply last_nth_error. discriminate.
      * intros q Hq. apply Hsub in Hq. rewrite E in Hq. destruct Hq.
Qed.
Lemma skipn_in {A} n (l : list A) x : In x (skipn n l) -> In x l.
Proof. intros H. rewrite <- (firstn_skipn n l). apply in_or_app. right. exact H. Qed.
Lemma firstn_in {A} n (l : list A) x : In x (firstn n l) -> In x l.
Proof. intros H. rewrite <- (firstn_skipn n l). apply in_or_app. left. exact H. Qed.
Lemma py_take_in {A} (l : list A) i x : In x (py_take l i) -> In x l.
Proof. apply firstn_in. Qed.
Lemma py_drop_in {A} (l : list A) i x : In x (py_drop l i) -> In x l.
Proof. apply skipn_in. Qed.
Lemma skipn_sorted {A} (R : A -> A -> Prop) n l : StronglySorted R l -> StronglySorted R (skipn n l).
Proof.
  revert l. induction n as [|n IH]; intros l H; [exact H|]. destruct l as [|x l]; [exact H|]. inversion H; subst. apply IH. assumption.
Qed.
Lemma skipn_nodup {A} n (l : list A) : NoDup l -> NoDup (skipn n l).
Proof.
  revert l. induction n as [|n IH]; intros l H; [exact H|]. destruct l as [|x l]; [exact H|]. inversion H; subst. apply IH. assumption.
Qed.
Lemma firstn_nodup {A} n (l : list A) : NoDup l -> NoDup (firstn n l).
Proof.
  revert l. induction n as [|n IH]; intros l H; [constructor|]. destruct l as [|x l]; [constructor|]. inversion H; subst.
  cbn. constructor; [|apply IH; assumption]. intros Hi. apply firstn_in in Hi. contradiction.
Qed.

(** ** [segments_cross_or_overlap] says exactly that the interiors meet. *)
Lemma cross_middle a b p q (t : Qc) m : px m = (px p + t * (px q - px p))%Qc -> py m = (py p + t * (py q - py p))%Qc ->
  collinear a b p -> collinear a b q -> collinear a b m.
Proof.
  intros Hx Hy Hp Hq. unfold collinear in *.
  replace (cross a b m) with ((1 - t) * cross a b p + t * cross a b q)%Qc by (unfold cross; rewrite Hx, Hy; ring).
  rewrite Hp, Hq. ring.
Qed.
Definition middle (p q : point) : point :=
  Pt (px p + Q2Qc (1#2) * (px q - px p))%Qc (py p + Q2Qc (1#2) * (py q - py p))%Qc.
Lemma middle_between p q : plt p q -> plt p (middle p q) /\ plt (middle p q) q.
Proof.
  unfold plt, middle. cbn [px py]. intros [H|(E & H)].
  - split; left; qcl.
  - rewrite <- E. split; right; (split; [ring|qcl]).
Qed.
Lemma inside_order a b m : collinear a b m -> plt a m -> plt m b -> inside m a b.
Proof.
  intros Hc H1 H2. split; [apply on_segment_order; [exact Hc|left; exact H1|left; exact H2]|].
  split; intros ->; eapply plt_irrefl; eassumption.
Qed.
Lemma inside_lohi a b m : collinear a b m ->
  plt (if point_leb a b then a else b) m -> plt m (if point_leb a b then b else a) -> inside m a b.
Proof.
  intros Hc. destruct (point_leb a b); intros H1 H2; [apply inside_order; assumption|].
  apply inside_sym, inside_order; [apply collinear_swap12; exact Hc|assumption|assumption].
Qed.
Lemma proper_cross_inside a b c d : ((cross a b c < 0 /\ 0 < cross a b d) \/ (0 < cross a b c /\ cross a b d < 0))%Qc ->
  ((cross c d a < 0 /\ 0 < cross c d b) \/ (0 < cross c d a /\ cross c d b < 0))%Qc ->
  interiors_meet (Seg a b) (Seg c d).
Proof.
  intros H1 H2. destruct (proper_cross a b c d H1 H2) as (p & Hp & Hq). exists p. cbn.
  pose proof (on_segment_collinear _ _ _ Hp) as C1. pose proof (on_segment_collinear _ _ _ Hq) as C2. unfold collinear in C1, C2.
  assert (Z : forall x : Qc, x = Q2Qc 0 -> ~ (x < 0)%Qc /\ ~ (0 < x)%Qc) by (intros x ->; split; apply Qlt_irrefl).
  split; (split; [assumption|]); split; intros ->; [apply Z in C2|apply Z in C2|apply Z in C1|apply Z in C1]; tauto.
Qed.
Lemma cross_or_overlap_interiors s t : segments_cross_or_overlap s t = true -> interiors_meet s t.
Proof.
  destruct s as [a b], t as [c d]. unfold segments_cross_or_overlap. cbn [seg_start seg_end].
  pose proof (orientation_sign a b c) as O1. pose proof (orientation_sign a b d) as O2.
  pose proof (orientation_sign c d a) as O3. pose proof (orientation_sign c d b) as O4.
  destruct (angle_orientation a b c) eqn:E1, (angle_orientation a b d) eqn:E2; try discriminate.
  - destruct (angle_orientation c d a), (angle_orientation c d b); try discriminate; intros _; apply proper_cross_inside; tauto.
  - intros H. apply point_ltb_lt in H.
    set (lo := fun p q : point => if point_leb p q then p else q) in *.
    set (hi := fun p q : point => if point_leb p q then q else p) in *.
    assert (Lo : forall p q, (lo p q = p \/ lo p q = q) /\ ple (lo p q) p /\ ple (lo p q) q).
    { intros p q. unfold lo. destruct (point_leb p q) eqn:E.
      - split; [first [left; reflexivity|right; reflexivity]|]. split; [right; reflexivity|apply point_leb_le, E].
      - split; [first [left; reflexivity|right; reflexivity]|]. split; [|right; reflexivity]. apply not_plt. intros H'.
        assert (point_leb p q = true) by (apply point_leb_le; left; exact H'). congruence. }
    assert (Hi : forall p q, (hi p q = p \/ hi p q = q) /\ ple p (hi p q) /\ ple q (hi p q)).
    { intros p q. unfold hi. destruct (point_leb p q) eqn:E.
      - split; [first [left; reflexivity|right; reflexivity]|]. split; [apply point_leb_le, E|right; reflexivity].
      - split; [first [left; reflexivity|right; reflexivity]|]. split; [right; reflexivity|]. apply not_plt. intros H'.
        assert (point_leb p q = true) by (apply point_leb_le; left; exact H'). congruence. }
    change (plt (hi (lo a b) (lo c d)) (lo (hi a b) (hi c d))) in H.
    set (p := hi (lo a b) (lo c d)) in *. set (q := lo (hi a b) (hi c d)) in *.
    destruct (Hi (lo a b) (lo c d)) as (P1 & P2 & P3). fold p in P1, P2, P3.
    destruct (Lo (hi a b) (hi c d)) as (Q1 & Q2 & Q3). fold q in Q1, Q2, Q3.
    destruct (Lo a b) as (La & _). destruct (Lo c d) as (Lc & _). destruct (Hi a b) as (Ha & _). destruct (Hi c d) as (Hc & _).
    assert (Zab : collinear a b a /\ collinear a b b) by (split; unfold collinear, cross; ring).
    assert (Zcd : collinear c d c /\ collinear c d d) by (split; unfold collinear, cross; ring).
    assert (Hab : a <> b).
    { intros <-. assert (hi a a = a /\ lo a a = a) as (E & E') by (unfold hi, lo; destruct (point_leb a a); split; reflexivity).
      rewrite E in Q2. rewrite E' in P2. apply (plt_irrefl a). eapply ple_plt_trans; [exact P2|]. eapply plt_ple_trans; [exact H|exact Q2]. }
    assert (Ca : collinear c d a) by (apply (collinear_three a b c d Hab O1 O2)).
    assert (Cb : collinear c d b) by (apply (collinear_three b a c d); [congruence| |]; apply collinear_swap12; assumption).
    assert (Cp : collinear a b p /\ collinear c d p).
    { destruct P1 as [-> | ->]; [destruct La as [-> | ->]; tauto|destruct Lc as [-> | ->]; tauto]. }
    assert (Cq : collinear a b q /\ collinear c d q).
    { destruct Q1 as [-> | ->]; [destruct Ha as [-> | ->]; tauto|destruct Hc as [-> | ->]; tauto]. }
    destruct (middle_between p q H) as (M1 & M2). exists (middle p q). cbn [seg_start seg_end].
    split; apply inside_lohi;
      try (eapply cross_middle; [reflexivity|reflexivity|tauto|tauto]).
    + eapply ple_plt_trans; [exact P2|exact M1].
    + eapply plt_ple_trans; [exact M2|exact Q2].
    + eapply ple_plt_trans; [exact P3|exact M1].
    + eapply plt_ple_trans; [exact M2|exact Q3].
  - destruct (angle_orientation c d a), (angle_orientation c d b); try discriminate; intros _; apply proper_cross_inside; tauto.
Qed.
Lemma cross_or_overlap_spec s t : segments_cross_or_overlap s t = true <-> interiors_meet s t.
Proof. split; [apply cross_or_overlap_interiors|apply interiors_meet_detected]. Qed.
