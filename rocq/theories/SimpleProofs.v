(** Exact supports of the strategies of points, segments, boxes, rectangles, triangles. *)
From Verif Require Import Base Prog Geometry Ctx Utils Contracts Factories Strategies Spec QcTac ProgProofs GeomProofs.
From Coq Require Import Lqa.

Lemma gen_point xs ys p : generates (to_point_strategy xs ys) p <-> drawable_point xs ys p.
Proof.
  unfold to_point_strategy, drawable_point, drawable. rewrite gen_bind. setoid_rewrite gen_bind.
  setoid_rewrite gen_ret. split.
  - intros (x & Hx & y & Hy & ->). auto.
  - intros (Hx & Hy). exists (px p). split; [exact Hx|]. exists (py p). split; [exact Hy|].
    destruct p; reflexivity.
Qed.
Lemma gen_unique_points xs ys mn mx l :
  generates (to_unique_point_sequence_strategy xs ys mn mx) l <->
  NoDup l /\ (0 <= mn)%Z /\ size_ok (lenZ l) mn mx /\ (forall p, In p l -> drawable_point xs ys p).
Proof.
  unfold to_unique_point_sequence_strategy. rewrite (gen_unique_lists _ point_eqb_eq).
  setoid_rewrite gen_point. reflexivity.
Qed.
Lemma gen_segment xs ys s :
  generates (to_segment_strategy xs ys) s <->
  seg_start s <> seg_end s /\ drawable_point xs ys (seg_start s) /\ drawable_point xs ys (seg_end s).
Proof.
  unfold to_segment_strategy. rewrite gen_bind. split.
  - intros ((a & b) & Hab & Hs). apply gen_ret in Hs. subst s. cbn.
    apply gen_pfilter in Hab. destruct Hab as (Hab & Hne). cbn in Hne.
    apply negb_true_iff, point_eqb_neq in Hne.
    apply gen_bind in Hab. destruct Hab as (a' & Ha & Hab). apply gen_bind in Hab.
    destruct Hab as (b' & Hb & Hab). apply gen_ret in Hab. injection Hab as <- <-.
    apply gen_point in Ha. apply gen_point in Hb. auto.
  - destruct s as [a b]; cbn. intros (Hne & Ha & Hb). exists (a, b). split; [|constructor].
    apply gen_pfilter. split; [|cbn; apply negb_true_iff, point_eqb_neq; exact Hne].
    apply gen_bind. exists a. split; [apply gen_point; exact Ha|].
    apply gen_bind. exists b. split; [apply gen_point; exact Hb|constructor].
Qed.

Lemma gen_sorted_pair s ab :
  generates (draw_sorted_pair s) ab <-> (fst ab < snd ab)%Qc /\ drawable s (fst ab) /\ drawable s (snd ab).
Proof.
  unfold draw_sorted_pair. rewrite gen_bind. setoid_rewrite gen_unique_scalars. split.
  - intros (l & (Hd & _ & (H1 & H2) & Hx) & Hg). specialize (H2 2%Z eq_refl).
    unfold lenZ in *. destruct l as [|a [|b [|c l]]]; cbn in H1, H2; try lia.
    apply gen_ret in Hg. subst ab. unfold sort_pair. inversion Hd as [|x l' Hn _]; subst.
    assert (a <> b) by (intros ->; apply Hn; left; reflexivity).
    pose proof (Hx a (or_introl eq_refl)). pose proof (Hx b (or_intror (or_introl eq_refl))).
    destruct (qltb a b) eqn:E; cbn.
    + apply qltb_lt in E. auto.
    + apply qltb_ge in E. repeat split; auto. apply Qcle_lt_or_eq in E. destruct E; congruence.
  - destruct ab as [a b]; cbn. intros (Hlt & Ha & Hb). exists [a; b].
    split.
    + assert (a <> b) by (intros ->; revert Hlt; apply Qlt_irrefl).
      split; [repeat constructor; cbn; intuition congruence|]. split; [lia|].
      split; [split; cbn; [lia|intros m E; injection E as <-; lia]|].
      intros x [<-|[<-|[]]]; assumption.
    + unfold sort_pair. rewrite (proj2 (qltb_lt a b) Hlt). cbn. constructor.
Qed.
Definition box_ok xs ys (b : box) : Prop :=
  (min_x b < max_x b)%Qc /\ (min_y b < max_y b)%Qc
  /\ drawable xs (min_x b) /\ drawable xs (max_x b)
  /\ drawable (ordinates xs ys) (min_y b) /\ drawable (ordinates xs ys) (max_y b).
Lemma gen_box xs ys b : generates (to_box_strategy xs ys) b <-> box_ok xs ys b.
Proof.
  unfold to_box_strategy, box_ok. change (or_else ys xs) with (ordinates xs ys).
  rewrite gen_bind. setoid_rewrite gen_sorted_pair. split.
  - intros ((x1 & x2) & Hx & Hg). apply gen_bind in Hg. destruct Hg as ((y1 & y2) & Hy & Hg).
    apply gen_sorted_pair in Hy. apply gen_ret in Hg. subst b. cbn in *. tauto.
  - destruct b as [x1 x2 y1 y2]; cbn. intros H. exists (x1, x2). cbn. split; [tauto|].
    apply gen_bind. exists (y1, y2). split; [|constructor]. apply gen_sorted_pair. cbn. tauto.
Qed.
Lemma gen_rectangle xs ys vs :
  generates (to_rectangular_vertex_sequence_strategy xs ys) vs <->
  exists x1 x2 y1 y2, vs = [Pt x1 y1; Pt x2 y1; Pt x2 y2; Pt x1 y2]
    /\ (x1 < x2)%Qc /\ (y1 < y2)%Qc /\ drawable xs x1 /\ drawable xs x2
    /\ drawable (ordinates xs ys) y1 /\ drawable (ordinates xs ys) y2.
Proof.
  unfold to_rectangular_vertex_sequence_strategy. rewrite gen_pmap. setoid_rewrite gen_box.
  unfold box_ok. split.
  - intros (b & Hb & ->). exists (min_x b), (max_x b), (min_y b), (max_y b). split; [reflexivity|tauto].
  - intros (x1 & x2 & y1 & y2 & -> & H). exists (Box x1 x2 y1 y2). cbn. split; [tauto|reflexivity].
Qed.

(** Cyclic lists. *)
Lemma edges_cases3 a b c x y : contour_edge [a; b; c] x y ->
  (x = a /\ y = b) \/ (x = b /\ y = c) \/ (x = c /\ y = a).
Proof.
  intros (i & Hi & Hj). destruct i as [|[|[|i]]]; cbn in Hi, Hj; try (injection Hi as <-; injection Hj as <-; auto 10).
  destruct i; discriminate.
Qed.
Lemma edges_cases4 a b c d x y : contour_edge [a; b; c; d] x y ->
  (x = a /\ y = b) \/ (x = b /\ y = c) \/ (x = c /\ y = d) \/ (x = d /\ y = a).
Proof.
  intros (i & Hi & Hj). destruct i as [|[|[|[|i]]]]; cbn in Hi, Hj; try (injection Hi as <-; injection Hj as <-; auto 10).
  destruct i; discriminate.
Qed.
Lemma rectangle_convex x1 x2 y1 y2 : (x1 < x2)%Qc -> (y1 < y2)%Qc ->
  convex_ccw [Pt x1 y1; Pt x2 y1; Pt x2 y2; Pt x1 y2].
Proof.
  intros Hx Hy. split; [cbn; lia|]. split.
  - repeat constructor; cbn; intros H;
      repeat match goal with
      | H : _ \/ _ |- _ => destruct H as [H|H]
      | H : Pt _ _ = Pt _ _ |- _ => injection H; intros; subst
      | H : False |- _ => destruct H
      end; try (eapply Qlt_irrefl; eassumption).
  - intros a b He c Hc Hca Hcb. apply edges_cases4 in He. unfold left_turn, cross.
    cbn [In] in Hc.
    repeat match goal with
    | H : _ \/ _ |- _ => destruct H as [H|H]
    | H : _ /\ _ |- _ => destruct H
    | H : False |- _ => destruct H
    end; subst; cbn [px py]; try congruence; clear Hca Hcb; qcn.
Qed.

Lemma cross_rot a b c : cross b c a = cross a b c.
Proof. unfold cross. ring. Qed.
Lemma cross_swap a b c : cross a c b = (- cross a b c)%Qc.
Proof. unfold cross. ring. Qed.

Lemma strict_triple a b c : are_vertices_strict [a; b; c] = true <-> ~ collinear a b c.
Proof.
  unfold are_vertices_strict, to_contour_orientations.
  cbn [last app combine map fst snd forallb].
  rewrite !andb_true_iff, !negb_true_iff, !orientation_eqb_neq, !orientation_col.
  unfold collinear.
  replace (cross b a c) with (- cross a b c)%Qc by (unfold cross; ring).
  replace (cross a c b) with (- cross a b c)%Qc by (unfold cross; ring).
  replace (cross c b a) with (- cross a b c)%Qc by (unfold cross; ring).
  assert (E : (- cross a b c)%Qc = Q2Qc 0 <-> cross a b c = Q2Qc 0).
  { split; intros H; [rewrite <- (Qcopp_involutive (cross a b c)), H; reflexivity | rewrite H; reflexivity]. }
  tauto.
Qed.
Lemma not_collinear_turn a b c : ~ collinear a b c <-> left_turn a b c \/ left_turn c b a.
Proof.
  unfold collinear, left_turn. replace (cross c b a) with (- cross a b c)%Qc by (unfold cross; ring).
  destruct (Qc_lt_eq_gt (cross a b c) 0) as [H|[H|H]].
  - split; [intros _; right; qcl | intros _ E; rewrite E in H; revert H; apply Qlt_irrefl].
  - rewrite H. split; [tauto|]. intros [H'|H']; [qcl | qcl].
  - split; [intros _; left; exact H | intros _ E; rewrite E in H; revert H; apply Qlt_irrefl].
Qed.
Lemma gen_triangle xs ys vs :
  generates (to_triangular_vertex_sequence_strategy xs ys) vs <->
  exists a b c, vs = [a; b; c] /\ left_turn a b c /\ drawable_point xs ys a
    /\ drawable_point xs ys b /\ drawable_point xs ys c.
Proof.
  unfold to_triangular_vertex_sequence_strategy. rewrite gen_pmap.
  setoid_rewrite gen_pfilter. setoid_rewrite gen_draw_n. setoid_rewrite gen_point. split.
  - intros (l & ((Hlen & Hl) & Hs) & ->). destruct l as [|a [|b [|c [|d l]]]]; try discriminate.
    apply strict_triple in Hs. cbn [to_counterclockwise_vertices].
    assert (drawable_point xs ys a /\ drawable_point xs ys b /\ drawable_point xs ys c) as (Ha & Hb & Hc).
    { repeat split; apply Hl; cbn; auto. }
    destruct (orientation_eqb (angle_orientation a b c) COUNTERCLOCKWISE) eqn:E.
    + apply orientation_eqb_eq, orientation_ccw in E. exists a, b, c. auto.
    + apply orientation_eqb_neq in E. rewrite orientation_ccw in E.
      apply not_collinear_turn in Hs. exists c, b, a. tauto.
  - intros (a & b & c & -> & Ht & Ha & Hb & Hc). exists [a; b; c]. split.
    + split; [split; [reflexivity|intros p [<-|[<-|[<-|[]]]]; assumption]|].
      apply strict_triple. apply not_collinear_turn. auto.
    + cbn [to_counterclockwise_vertices]. apply orientation_ccw in Ht. rewrite Ht. reflexivity.
Qed.
