(** Edges of a contour as a list. *)
From Verif Require Import Base Geometry Ctx Utils Contracts Factories Spec QcTac ProgProofs GeomProofs
  ListProofs CyclicProofs SegmentProofs.

Lemma nth_error_combine {A B} (l : list A) (m : list B) i a b :
  nth_error (combine l m) i = Some (a, b) <-> nth_error l i = Some a /\ nth_error m i = Some b.
Proof.
  revert m i. induction l as [|x l IH]; intros m i.
  - cbn [combine]. destruct i; cbn; split; [discriminate|intros (H & _); discriminate|discriminate|intros (H & _); discriminate].
  - destruct m as [|y m]; cbn [combine].
    + destruct i; cbn; split; [discriminate|intros (_ & H); discriminate|discriminate|intros (_ & H); discriminate].
    + destruct i as [|i]; cbn [nth_error]; [|apply IH]. split; intros H.
      * injection H as -> ->. auto.
      * destruct H as (H1 & H2). congruence.
Qed.
Lemma last_nth_error {A} (l : list A) d : l <> [] -> nth_error l (length l - 1) = Some (last l d).
Proof.
  intros H. destruct (exists_last H) as (m & x & ->). rewrite last_last, app_length. cbn [length].
  replace (length m + 1 - 1) with (length m) by lia. rewrite nth_error_app2, Nat.sub_diag by lia. reflexivity.
Qed.
Lemma zip_prev_in {A B} (f : A -> A -> B) vs s :
  In s (zip_with_prev f vs) <->
  exists i a b, nth_error vs i = Some a /\ nth_error vs (S i mod length vs) = Some b /\ s = f a b.
Proof.
  destruct vs as [|x l]; cbn [zip_with_prev].
  { cbn. split; [intros []|intros (i & a & b & H & _)]. destruct i; discriminate. }
  set (vs := x :: l). rewrite in_map_iff. split.
  - intros ((a & b) & <- & Hin). cbn [fst snd]. apply In_nth_error in Hin. destruct Hin as (j & Hj).
    apply nth_error_combine in Hj. destruct Hj as (Ha & Hb).
    assert (Hjl : j < length vs) by (apply nth_error_Some; congruence).
    destruct j as [|j].
    + cbn [nth_error] in Ha. injection Ha as <-. exists (length vs - 1), (last vs x), b.
      split; [apply last_nth_error; discriminate|]. split; [|reflexivity].
      replace (S (length vs - 1)) with (length vs) by lia. rewrite Nat.mod_same by lia. exact Hb.
    + cbn [nth_error] in Ha. exists j, a, b. split; [exact Ha|]. split; [|reflexivity].
      rewrite Nat.mod_small by lia. exact Hb.
  - intros (i & a & b & Ha & Hb & ->). exists (a, b). split; [reflexivity|].
    assert (Hil : i < length vs) by (apply nth_error_Some; congruence).
    destruct (Nat.eq_dec (S i) (length vs)) as [E|E].
    + apply (nth_error_In _ 0). apply nth_error_combine. rewrite E, Nat.mod_same in Hb by lia. split; [|exact Hb].
      cbn [nth_error]. rewrite <- Ha. replace i with (length vs - 1) by lia. symmetry. apply last_nth_error. discriminate.
    + apply (nth_error_In _ (S i)). apply nth_error_combine. rewrite Nat.mod_small in Hb by lia. split; [|exact Hb]. exact Ha.
Qed.
Lemma segments_edge vs a b : In (Seg a b) (contour_segments vs) <-> contour_edge vs a b.
Proof.
  unfold contour_segments. rewrite zip_prev_in. split.
  - intros (i & a' & b' & Ha & Hb & E). injection E as -> ->. exists i. auto.
  - intros (i & Ha & Hb). exists i, a, b. auto.
Qed.
Lemma segments_length vs : length (contour_segments vs) = length vs.
Proof.
  unfold contour_segments, zip_with_prev. destruct vs as [|x l]; [reflexivity|].
  rewrite map_length, combine_length. cbn [length]. lia.
Qed.

(** ** Common points of two segments. *)
Lemma on_segment_l a b : on_segment a a b.
Proof. exists (Q2Qc 0). repeat split; try ring; qcl. Qed.
Lemma on_segment_r a b : on_segment b a b.
Proof. exists (Q2Qc 1). repeat split; try ring; qcl. Qed.
Lemma on_segment_sym p a b : on_segment p a b -> on_segment p b a.
Proof.
  intros (t & H0 & H1 & Hx & Hy). exists (1 - t)%Qc. split; [qcl|]. split; [qcl|]. split; [rewrite Hx|rewrite Hy]; ring.
Qed.
Lemma on_segment_cases p a b : on_segment p a b -> p = a \/ p = b \/ inside p a b.
Proof.
  intros H. destruct (point_eq_dec p a) as [E|E]; [auto|]. destruct (point_eq_dec p b) as [E'|E']; [auto|].
  right; right. split; auto.
Qed.
Lemma on_segment_collinear p a b : on_segment p a b -> collinear a b p.
Proof. intros (t & _ & _ & Hx & Hy). unfold collinear, cross. rewrite Hx, Hy. ring. Qed.

Lemma between_ratio (u v w : Qc) : u <> v -> (u <= w)%Qc /\ (w <= v)%Qc \/ (v <= w)%Qc /\ (w <= u)%Qc ->
  exists t : Qc, (0 <= t)%Qc /\ (t <= 1)%Qc /\ w = (u + t * (v - u))%Qc.
Proof.
  intros Hne H. exists ((w - u) / (v - u))%Qc.
  assert (Hd : (v - u <> 0)%Qc) by (intros E; apply Hne; rewrite <- (Qcplus_0_r u), <- E; ring).
  assert (E : ((w - u) / (v - u) * (v - u) = w - u)%Qc) by (field; exact Hd).
  set (t := ((w - u) / (v - u))%Qc) in *. clearbody t.
  split; [|split; [|rewrite E; ring]].
  - apply Qcnot_lt_le. intros Hlt. destruct H as [(H1 & H2)|(H1 & H2)]; destruct (Qc_lt_eq_gt u v) as [C|[C|C]]; try (apply Hne; exact C); qcn.
  - apply Qcnot_lt_le. intros Hlt. destruct H as [(H1 & H2)|(H1 & H2)]; destruct (Qc_lt_eq_gt u v) as [C|[C|C]]; try (apply Hne; exact C); qcn.
Qed.
Lemma on_segment_box p a b : collinear a b p ->
  ((px a <= px p)%Qc /\ (px p <= px b)%Qc \/ (px b <= px p)%Qc /\ (px p <= px a)%Qc) ->
  ((py a <= py p)%Qc /\ (py p <= py b)%Qc \/ (py b <= py p)%Qc /\ (py p <= py a)%Qc) ->
  on_segment p a b.
Proof.
  intros Hc Hx Hy. unfold collinear, cross in Hc.
  destruct (Qc_eq_dec (px a) (px b)) as [E|E].
  - destruct (Qc_eq_dec (py a) (py b)) as [E'|E'].
    + replace p with a; [apply on_segment_l|]. apply point_ext; apply Qcle_antisym; destruct Hx as [(?&?)|(?&?)], Hy as [(?&?)|(?&?)]; qcl.
    + destruct (between_ratio _ _ _ E' Hy) as (t & H0 & H1 & Et). exists t. repeat split; auto.
      rewrite <- E. replace (px a + t * (px a - px a))%Qc with (px a) by ring.
      apply Qcle_antisym; destruct Hx as [(?&?)|(?&?)]; qcl.
  - destruct (between_ratio _ _ _ E Hx) as (t & H0 & H1 & Et). exists t. repeat split; auto.
    assert (Hm : ((px b - px a) * (py p - (py a + t * (py b - py a))) = 0)%Qc).
    { replace (px p) with (px a + t * (px b - px a))%Qc in Hc by (symmetry; exact Et).
      rewrite <- Hc. ring. }
    apply Qcmult_integral in Hm. destruct Hm as [Hm|Hm].
    + exfalso. apply E. rewrite <- (Qcplus_0_r (px a)), <- Hm. ring.
    + rewrite <- (Qcplus_0_r (py a + t * (py b - py a))), <- Hm. ring.
Qed.
Lemma on_segment_bounds p a b : on_segment p a b ->
  ((px a <= px p)%Qc /\ (px p <= px b)%Qc \/ (px b <= px p)%Qc /\ (px p <= px a)%Qc) /\
  ((py a <= py p)%Qc /\ (py p <= py b)%Qc \/ (py b <= py p)%Qc /\ (py p <= py a)%Qc).
Proof.
  intros (t & H0 & H1 & Hx & Hy).
  assert (Hb : forall u v : Qc, (u <= u + t * (v - u))%Qc /\ (u + t * (v - u) <= v)%Qc \/ (v <= u + t * (v - u))%Qc /\ (u + t * (v - u) <= u)%Qc).
  { intros u v. destruct (Qc_lt_eq_gt u v) as [C|[C|C]].
    - left. split; qcn.
    - subst v. left. replace (u + t * (u - u))%Qc with u by ring. split; apply Qcle_refl.
    - right. split; qcn. }
  split; [rewrite Hx|rewrite Hy]; apply Hb.
Qed.
Lemma segments_touch_sym s t : segments_touch s t -> segments_touch t s.
Proof. intros (p & H1 & H2). exists p. auto. Qed.

(** The collinear points between two points of a line (in the lexicographic order) are those of the segment. *)
Lemma ple_x p q : ple p q -> (px p <= px q)%Qc.
Proof. intros [[H|(H & _)]| ->]; [apply Qclt_le_weak, H|rewrite H; apply Qcle_refl|apply Qcle_refl]. Qed.
Lemma on_segment_order p a b : collinear a b p -> ple a p -> ple p b -> on_segment p a b.
Proof.
  intros Hc H1 H2. destruct (Qc_eq_dec (px a) (px b)) as [E|E].
  - assert (Ex : px p = px a) by (apply Qcle_antisym; [rewrite E; apply ple_x, H2|apply ple_x, H1]).
    apply on_segment_box; [exact Hc|left; rewrite <- E, Ex; split; apply Qcle_refl|]. left. split.
    + destruct H1 as [[H1|(_ & H1)]| ->]; [rewrite Ex in H1; exfalso; revert H1; apply Qlt_irrefl|apply Qclt_le_weak, H1|apply Qcle_refl].
    + destruct H2 as [[H2|(_ & H2)]| ->]; [rewrite Ex, E in H2; exfalso; revert H2; apply Qlt_irrefl|apply Qclt_le_weak, H2|apply Qcle_refl].
  - destruct (between_ratio (px a) (px b) (px p) E) as (t & H0 & H1' & Et); [left; split; apply ple_x; assumption|].
    exists t. repeat split; auto. unfold collinear, cross in Hc.
    assert (Hm : ((px b - px a) * (py p - (py a + t * (py b - py a))) = 0)%Qc).
    { replace (px p) with (px a + t * (px b - px a))%Qc in Hc by (symmetry; exact Et).
      rewrite <- Hc. ring. }
    apply Qcmult_integral in Hm. destruct Hm as [Hm|Hm].
    + exfalso. apply E. rewrite <- (Qcplus_0_r (px a)), <- Hm. ring.
    + rewrite <- (Qcplus_0_r (py a + t * (py b - py a))), <- Hm. ring.
Qed.
