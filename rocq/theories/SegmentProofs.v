(** Lexicographic orders of points; segments that cross or overlap. *)
From Verif Require Import Base Geometry Contracts Prog Spec QcTac ProgProofs GeomProofs CyclicProofs.
From Coq Require Import Lqa.

(** ** The lexicographic order. *)
Definition plt (p q : point) : Prop := (px p < px q)%Qc \/ (px p = px q /\ (py p < py q)%Qc).
Definition ple (p q : point) : Prop := plt p q \/ p = q.
Lemma point_ltb_lt p q : point_ltb p q = true <-> plt p q.
Proof.
  unfold point_ltb, plt. rewrite orb_true_iff, andb_true_iff, !qltb_lt, qeqb_eq. reflexivity.
Qed.
Lemma point_leb_le p q : point_leb p q = true <-> ple p q.
Proof.
  unfold point_leb, ple, plt. rewrite orb_true_iff, andb_true_iff, qltb_lt, qeqb_eq, qleb_le. split.
  - intros [H|(H1 & H2)]; [auto|]. apply Qcle_lt_or_eq in H2. destruct H2 as [H2|H2]; [auto|].
    right. apply point_ext; assumption.
  - intros [[H|H]| ->]; [auto| |].
    + right. split; [apply H|]. apply Qclt_le_weak, H.
    + right. split; [reflexivity|]. apply Qcle_refl.
Qed.
Lemma plt_irrefl p : ~ plt p p.
Proof. intros [H|(_ & H)]; revert H; apply Qlt_irrefl. Qed.
Lemma plt_trans p q r : plt p q -> plt q r -> plt p r.
Proof.
  unfold plt. intros [H1|(H1 & H1')] [H2|(H2 & H2')].
  - left. qcl.
  - left. qcl.
  - left. qcl.
  - right. split; [congruence|]. qcl.
Qed.
Lemma plt_total p q : plt p q \/ p = q \/ plt q p.
Proof.
  unfold plt. destruct (Qc_lt_eq_gt (px p) (px q)) as [H|[H|H]]; auto.
  destruct (Qc_lt_eq_gt (py p) (py q)) as [H'|[H'|H']]; auto.
  right; left. apply point_ext; assumption.
Qed.
Lemma ple_refl p : ple p p. Proof. right; reflexivity. Qed.
Lemma ple_trans p q r : ple p q -> ple q r -> ple p r.
Proof.
  intros [H1| ->] [H2| ->]; unfold ple; auto. left. eapply plt_trans; eassumption.
Qed.
Lemma ple_plt_trans p q r : ple p q -> plt q r -> plt p r.
Proof. intros [H1| ->] H2; [eapply plt_trans; eassumption|exact H2]. Qed.
Lemma plt_ple_trans p q r : plt p q -> ple q r -> plt p r.
Proof. intros H1 [H2|<-]; [eapply plt_trans; eassumption|exact H1]. Qed.
Lemma ple_antisym p q : ple p q -> ple q p -> p = q.
Proof.
  intros [H1|H1] [H2|H2]; auto. exfalso. eapply plt_irrefl, plt_trans; eassumption.
Qed.
Lemma ple_total p q : ple p q \/ ple q p.
Proof. destruct (plt_total p q) as [H|[H|H]]; unfold ple; auto. Qed.
Lemma not_plt p q : ~ plt p q <-> ple q p.
Proof.
  split.
  - intros H. destruct (plt_total p q) as [H1|[H1|H1]]; [contradiction| |]; unfold ple; auto.
  - intros H1 H2. eapply plt_irrefl, ple_plt_trans; eassumption.
Qed.

(** ** Points inside a segment. *)
Lemma mult_pos (a b : Qc) : (0 < a)%Qc -> (0 < b)%Qc -> (0 < a * b)%Qc.
Proof. qcn. Qed.
Lemma inside_param p a b : inside p a b ->
  exists t : Qc, (0 < t)%Qc /\ (t < 1)%Qc /\
    px p = (px a + t * (px b - px a))%Qc /\ py p = (py a + t * (py b - py a))%Qc.
Proof.
  intros ((t & H0 & H1 & Hx & Hy) & Ha & Hb). exists t.
  apply Qcle_lt_or_eq in H0. apply Qcle_lt_or_eq in H1.
  destruct H0 as [H0|H0].
  - destruct H1 as [H1|H1]; [auto|]. exfalso. apply Hb. subst t. apply point_ext; [rewrite Hx|rewrite Hy]; ring.
  - exfalso. apply Ha. subst t. apply point_ext; [rewrite Hx|rewrite Hy]; ring.
Qed.
Lemma inside_neq p a b : inside p a b -> a <> b.
Proof.
  intros H E. pose proof (inside_param _ _ _ H) as (t & _ & _ & Hx & Hy). subst b.
  destruct H as (_ & Ha & _). apply Ha. apply point_ext; [rewrite Hx|rewrite Hy]; ring.
Qed.
Lemma inside_sym p a b : inside p a b -> inside p b a.
Proof.
  intros ((t & H0 & H1 & Hx & Hy) & Ha & Hb). split; [|auto]. exists (1 - t)%Qc.
  split; [qcl|]. split; [qcl|]. split; [rewrite Hx|rewrite Hy]; ring.
Qed.
Lemma inside_between p a b : inside p a b -> plt a b -> plt a p /\ plt p b.
Proof.
  intros H Hab. destruct (inside_param _ _ _ H) as (t & H0 & H1 & Hx & Hy).
  unfold plt in *. rewrite Hx, Hy. destruct Hab as [Hab|(E & Hab)].
  - split; left; qcn.
  - rewrite <- E. split; right; (split; [ring|qcn]).
Qed.
Lemma cross_affine a b c d t q :
  px q = (px c + t * (px d - px c))%Qc -> py q = (py c + t * (py d - py c))%Qc ->
  cross a b q = ((1 - t) * cross a b c + t * cross a b d)%Qc.
Proof. intros Hx Hy. unfold cross. rewrite Hx, Hy. ring. Qed.
Lemma inside_cross p a b : inside p a b -> cross a b p = Q2Qc 0.
Proof.
  intros H. destruct (inside_param _ _ _ H) as (t & _ & _ & Hx & Hy). unfold cross. rewrite Hx, Hy. ring.
Qed.
Lemma opposite_signs (x y t : Qc) : (0 < t)%Qc -> (t < 1)%Qc -> ((1 - t) * x + t * y = 0)%Qc ->
  (x = Q2Qc 0 /\ y = Q2Qc 0) \/ (x < 0)%Qc /\ (0 < y)%Qc \/ (0 < x)%Qc /\ (y < 0)%Qc.
Proof.
  intros H0 H1 H. destruct (Qc_lt_eq_gt x 0) as [Hx|[Hx|Hx]].
  - right; left. split; [exact Hx|]. qcn.
  - left. split; [exact Hx|]. subst x. apply (mul_zero t); [rewrite <- H; ring|]. intros E. subst t. revert H0. apply Qlt_irrefl.
  - right; right. split; [exact Hx|]. qcn.
Qed.
Lemma collinear_three c d a b : c <> d -> collinear c d a -> collinear c d b -> collinear a b c.
Proof.
  unfold collinear, cross. intros Hcd H1 H2.
  pose proof (parallel (px d - px c) (py d - py c) (px a - px c) (py a - py c) (px b - px c) (py b - py c)
    (point_neq_diff _ _ Hcd)) as Hp.
  transitivity ((px a - px c) * (py b - py c) - (py a - py c) * (px b - px c))%Qc; [ring|].
  apply Hp.
  - transitivity (- ((px d - px c) * (py a - py c) - (py d - py c) * (px a - px c)))%Qc; [ring|]. rewrite H1. ring.
  - transitivity (- ((px d - px c) * (py b - py c) - (py d - py c) * (px b - px c)))%Qc; [ring|]. rewrite H2. ring.
Qed.

Lemma orientation_sign a b c :
  match angle_orientation a b c with
  | CLOCKWISE => (cross a b c < 0)%Qc
  | COLLINEAR => cross a b c = Q2Qc 0
  | COUNTERCLOCKWISE => (0 < cross a b c)%Qc
  end.
Proof.
  destruct (angle_orientation a b c) eqn:E.
  - apply orientation_cw in E. exact E.
  - apply orientation_col in E. exact E.
  - apply orientation_ccw in E. exact E.
Qed.

Lemma interiors_meet_detected s t : interiors_meet s t -> segments_cross_or_overlap s t = true.
Proof.
  intros (p & Hs & Ht). destruct s as [a b], t as [c d]. cbn [seg_start seg_end] in *.
  unfold segments_cross_or_overlap. cbn [seg_start seg_end].
  pose proof (inside_cross _ _ _ Hs) as Cs. pose proof (inside_cross _ _ _ Ht) as Ct.
  destruct (inside_param _ _ _ Hs) as (u & Hu0 & Hu1 & Hux & Huy).
  destruct (inside_param _ _ _ Ht) as (v & Hv0 & Hv1 & Hvx & Hvy).
  pose proof (cross_affine a b c d v p Hvx Hvy) as E1. rewrite Cs in E1. symmetry in E1.
  pose proof (cross_affine c d a b u p Hux Huy) as E2. rewrite Ct in E2. symmetry in E2.
  pose proof (opposite_signs _ _ _ Hv0 Hv1 E1) as S1. pose proof (opposite_signs _ _ _ Hu0 Hu1 E2) as S2.
  pose proof (inside_neq _ _ _ Hs) as Nab. pose proof (inside_neq _ _ _ Ht) as Ncd.
  pose proof (orientation_sign a b c) as O1. pose proof (orientation_sign a b d) as O2.
  pose proof (orientation_sign c d a) as O3. pose proof (orientation_sign c d b) as O4.
  assert (Hno : cross a b c <> Q2Qc 0 -> ~ (cross c d a = Q2Qc 0 /\ cross c d b = Q2Qc 0)).
  { intros Hn (Ha & Hb). apply Hn. exact (collinear_three c d a b Ncd Ha Hb). }
  assert (Hcol : forall A (x y : A), angle_orientation a b c <> COLLINEAR ->
    match angle_orientation c d a, angle_orientation c d b with
    | CLOCKWISE, COUNTERCLOCKWISE | COUNTERCLOCKWISE, CLOCKWISE => x
    | _, _ => y end = x).
  { intros A x y Hn.
    assert (Hn' : cross a b c <> Q2Qc 0) by (intros E; apply Hn; apply orientation_col; exact E).
    specialize (Hno Hn').
    destruct S2 as [S2|[(S2 & S2')|(S2 & S2')]]; [contradiction| |].
    - replace (angle_orientation c d a) with CLOCKWISE by (symmetry; apply orientation_cw; exact S2).
      replace (angle_orientation c d b) with COUNTERCLOCKWISE by (symmetry; apply orientation_ccw; exact S2').
      reflexivity.
    - replace (angle_orientation c d a) with COUNTERCLOCKWISE by (symmetry; apply orientation_ccw; exact S2).
      replace (angle_orientation c d b) with CLOCKWISE by (symmetry; apply orientation_cw; exact S2').
      reflexivity. }
  destruct S1 as [(S1 & S1')|[(S1 & S1')|(S1 & S1')]].
  - replace (angle_orientation a b c) with COLLINEAR by (symmetry; apply orientation_col; exact S1).
    replace (angle_orientation a b d) with COLLINEAR by (symmetry; apply orientation_col; exact S1').
    apply point_ltb_lt.
    set (lo := fun p q : point => if point_leb p q then p else q).
    set (hi := fun p q : point => if point_leb p q then q else p).
    assert (Hb : forall x y, inside p x y -> plt (lo x y) p /\ plt p (hi x y)).
    { intros x y Hi. pose proof (inside_neq _ _ _ Hi) as Hn. unfold lo, hi.
      destruct (point_leb x y) eqn:E.
      - apply point_leb_le in E. destruct E as [E|E]; [|contradiction]. apply inside_between; assumption.
      - assert (plt y x).
        { destruct (plt_total x y) as [H|[H|H]]; [|contradiction|exact H].
          assert (point_leb x y = true) by (apply point_leb_le; left; exact H). congruence. }
        apply inside_between; [apply inside_sym; exact Hi|assumption]. }
    destruct (Hb _ _ Hs) as (B1 & B2). destruct (Hb _ _ Ht) as (B3 & B4).
    change (plt (hi (lo a b) (lo c d)) (lo (hi a b) (hi c d))).
    apply (plt_trans _ p).
    + unfold hi at 1. destruct (point_leb (lo a b) (lo c d)); assumption.
    + unfold lo at 1. destruct (point_leb (hi a b) (hi c d)); assumption.
  - replace (angle_orientation a b c) with CLOCKWISE in * by (symmetry; apply orientation_cw; exact S1).
    replace (angle_orientation a b d) with COUNTERCLOCKWISE by (symmetry; apply orientation_ccw; exact S1').
    apply Hcol. discriminate.
  - replace (angle_orientation a b c) with COUNTERCLOCKWISE in * by (symmetry; apply orientation_ccw; exact S1).
    replace (angle_orientation a b d) with CLOCKWISE by (symmetry; apply orientation_cw; exact S1').
    apply Hcol. discriminate.
Qed.
Lemma interiors_meet_sym s t : interiors_meet s t -> interiors_meet t s.
Proof. intros (p & H1 & H2). exists p. auto. Qed.
(** A list accepted by [are_segments_non_crossing_non_overlapping]. *)
Lemma non_crossing_list l : are_segments_non_crossing_non_overlapping l = true ->
  ForallOrdPairs (fun s t => ~ interiors_meet s t) l.
Proof.
  unfold are_segments_non_crossing_non_overlapping. rewrite negb_true_iff.
  induction l as [|s l IH]; intros H; constructor.
  - cbn in H. apply orb_false_iff in H. destruct H as (H & _). apply Forall_forall. intros t Ht Hm.
    apply interiors_meet_detected in Hm.
    assert (existsb (segments_cross_or_overlap s) l = true) by (apply existsb_exists; exists t; auto).
    congruence.
  - apply IH. cbn in H. apply orb_false_iff in H. apply H.
Qed.
