(** The strategy of star contours: what it generates is convex. *)
From Verif Require Import Base Geometry Ctx Utils Contracts Factories Prog Strategies Spec QcTac QcFast ProgProofs
  GeomProofs LoopProofs ListProofs CyclicProofs CompressProofs SegmentProofs GridProofs HelperProofs ConvexProofs
  MultiProofs BorderProofs GeneralProofs StarProofs StarSpec StarFan StarOrder StarConvex.
From Coq Require Import Lqa Sorting.Sorted.
Import List ListNotations.
Open Scope Qc_scope.

Lemma convexly_convex vs d : (3 <= length vs)%nat ->
  convexly (length vs) (around_list vs d) 1 \/ convexly (length vs) (around_list vs d) (- (1)) ->
  convex_ccw vs \/ convex_ccw (reverse_vertices vs).
Proof.
  intros Hn [H|H]; destruct (convexly_edges vs d _ Hn H) as (Hd & G).
  - left. split; [exact Hn|]. split; [exact Hd|]. intros a b He e Hin Na Nb. pose proof (G a b He e Hin Na Nb) as K.
    unfold left_turn. replace (cross a b e) with (1 * cross a b e) by ring. exact K.
  - right. split; [rewrite reverse_length; exact Hn|]. split; [apply reverse_nodup; exact Hd|].
    intros a b He e Hin Na Nb. apply reverse_edge in He. pose proof (G b a He e (proj1 (reverse_in vs e) Hin) Nb Na) as K.
    unfold left_turn. replace (cross a b e) with (- (1) * cross b a e) by (unfold cross; ring). exact K.
Qed.

(** ** The order of the vertices. *)
Lemma angle_point_leb_fst a b : angle_point_leb a b = true -> fst a <= fst b.
Proof.
  unfold angle_point_leb. rewrite orb_true_iff, andb_true_iff, qltb_lt, qeqb_eq.
  intros [H|(H & _)]; [apply Qclt_le_weak; exact H|rewrite H; apply Qcle_refl].
Qed.
Lemma angle_point_leb_total a b : angle_point_leb a b = true \/ angle_point_leb b a = true.
Proof.
  unfold angle_point_leb. rewrite !orb_true_iff, !andb_true_iff, !qltb_lt, !qeqb_eq, !point_leb_le.
  destruct (Qc_lt_eq_gt (fst a) (fst b)) as [H|[H|H]]; [auto| |auto].
  destruct (ple_total (snd a) (snd b)); [left; right; auto|right; right; auto].
Qed.
Lemma angle_point_leb_trans a b c : angle_point_leb a b = true -> angle_point_leb b c = true -> angle_point_leb a c = true.
Proof.
  unfold angle_point_leb. rewrite !orb_true_iff, !andb_true_iff, !qltb_lt, !qeqb_eq, !point_leb_le.
  intros [H|(H & H')] [K|(K & K')].
  - left. eapply Qclt_trans; eassumption.
  - left. rewrite <- K. exact H.
  - left. rewrite H. exact K.
  - right. split; [congruence|]. eapply ple_trans; eassumption.
Qed.
Fixpoint last_keyed (l : list (Qc * point)) : list (Qc * point) :=
  match l with
  | [] => []
  | a :: l' =>
      match l' with
      | b :: _ => if qeqb (fst a) (fst b) then last_keyed l' else a :: last_keyed l'
      | [] => [a]
      end
  end.
Lemma last_keyed_snd l : map snd (last_keyed l) = last_of_groups l.
Proof.
  induction l as [|a l IH]; [reflexivity|]. cbn [last_keyed last_of_groups]. destruct l as [|b l]; [reflexivity|].
  destruct (qeqb (fst a) (fst b)); [exact IH|]. cbn [map]. f_equal. exact IH.
Qed.
Lemma last_keyed_in l x : In x (last_keyed l) -> In x l.
Proof.
  induction l as [|a l IH]; [intros []|]. cbn [last_keyed]. destruct l as [|b l]; [exact (fun H => H)|].
  destruct (qeqb (fst a) (fst b)); [intros H; right; apply IH, H|].
  intros [H|H]; [left; exact H|right; apply IH, H].
Qed.
Lemma last_keyed_sorted l : StronglySorted (fun a b => fst a <= fst b) l -> StronglySorted (fun a b => fst a < fst b) (last_keyed l).
Proof.
  induction l as [|a l IH]; intros Hs; [constructor|]. apply StronglySorted_inv in Hs. destruct Hs as (Hs & Hf).
  specialize (IH Hs). cbn [last_keyed]. destruct l as [|b l]; [repeat constructor|].
  destruct (qeqb (fst a) (fst b)) eqn:E; [exact IH|]. constructor; [exact IH|].
  apply Forall_forall. intros x Hx. apply last_keyed_in in Hx. rewrite Forall_forall in Hf.
  assert (Hb : fst a < fst b).
  { pose proof (Hf b ltac:(left; reflexivity)) as H. apply Qcle_lt_or_eq in H. destruct H as [H|H]; [exact H|].
    apply qeqb_eq in H. congruence. }
  destruct Hx as [<-|Hx]; [exact Hb|]. apply StronglySorted_inv in Hs. destruct Hs as (_ & Hg). rewrite Forall_forall in Hg.
  pose proof (Hg x Hx) as G. eapply Qclt_le_trans; eassumption.
Qed.
Lemma sorted_nth {A} (R : A -> A -> Prop) l : StronglySorted R l -> forall i j a b, (i < j)%nat ->
  nth_error l i = Some a -> nth_error l j = Some b -> R a b.
Proof.
  induction 1 as [|x l Hs IH Hf]; intros i j a b Hij Ha Hb; [destruct i; discriminate|].
  destruct j as [|j]; [lia|]. cbn [nth_error] in Hb. destruct i as [|i]; cbn [nth_error] in Ha.
  - injection Ha as <-. rewrite Forall_forall in Hf. apply Hf. apply (nth_error_In _ _ Hb).
  - apply (IH i j a b); [lia|exact Ha|exact Hb].
Qed.
Lemma keyed_angle {A} (f : A -> res Qc) l keyed a x :
  mapM (fun p => let* a := f p in Ok (a, p)) l = Ok keyed -> In (a, x) keyed -> f x = Ok a.
Proof.
  intros H Hin. apply mapM_ok in H. induction H as [|y k l l' Hy H IH]; [destruct Hin|].
  destruct Hin as [E|Hin]; [|apply IH, Hin]. destruct (f y) as [b|e] eqn:Ey; cbn [rbind] in Hy; [|discriminate].
  injection Hy as <-. injection E as <- <-. exact Ey.
Qed.
Lemma grouped_seen ctx c result keyed : orders_directions ctx ->
  mapM (fun p => let* a := to_segment_angle ctx c p in Ok (a, p)) result = Ok keyed ->
  seen_in_order c (last_of_groups (isort angle_point_leb keyed)).
Proof.
  intros Ho H i j p q Hij Hp Hq. rewrite <- last_keyed_snd in Hp, Hq.
  set (l := isort angle_point_leb keyed) in *.
  assert (Hs : StronglySorted (fun a b => fst a <= fst b) l).
  { pose proof (isort_sorted angle_point_leb angle_point_leb_total angle_point_leb_trans keyed) as S. fold l in S.
    clear - S. induction S as [|x m S IH Hf]; constructor; [exact IH|].
    eapply Forall_impl; [|exact Hf]. intros y Hy. apply angle_point_leb_fst. exact Hy. }
  apply last_keyed_sorted in Hs.
  rewrite nth_error_map in Hp, Hq. destruct (nth_error (last_keyed l) i) as [(a, p')|] eqn:Ei; [|discriminate].
  destruct (nth_error (last_keyed l) j) as [(b, q')|] eqn:Ej; [|discriminate]. cbn [option_map snd] in Hp, Hq.
  injection Hp as ->. injection Hq as ->.
  pose proof (sorted_nth _ _ Hs i j _ _ Hij Ei Ej) as Hlt. cbn [fst] in Hlt.
  assert (Ka : to_segment_angle ctx c p = Ok a).
  { apply (keyed_angle _ _ _ _ _ H). apply (isort_in angle_point_leb). fold l. apply last_keyed_in. apply (nth_error_In _ _ Ei). }
  assert (Kb : to_segment_angle ctx c q = Ok b).
  { apply (keyed_angle _ _ _ _ _ H). apply (isort_in angle_point_leb). fold l. apply last_keyed_in. apply (nth_error_In _ _ Ej). }
  unfold to_segment_angle in Ka, Kb. apply (Ho _ _ _ _ _ _ Ka Kb Hlt).
Qed.
Lemma star_step_seen ctx c0 result c r : orders_directions ctx ->
  star_step ctx c0 result = Ok (c, r) -> length r = length result -> seen_in_order c0 r.
Proof.
  intros Ho. unfold star_step. destruct (mapM _ result) as [keyed|e] eqn:Ek; cbn [rbind]; [|discriminate].
  pose proof (grouped_seen ctx c0 result keyed Ho Ek) as Hs.
  destruct (grouped_spec ctx c0 result keyed Ek) as (_ & Hl & _).
  set (r1 := last_of_groups (isort angle_point_leb keyed)) in *.
  destruct (Z.ltb_spec 2 (lenZ r1)) as [Hlt|Hge].
  - destruct (region_centroid r1) as [c1|e]; cbn [rbind]; [|discriminate].
    pose proof (drop_subsequence (S (length r1)) 0 c1 r1) as Hd.
    remember (drop_bad_angles (S (length r1)) 0 c1 r1) as r2 eqn:Er2. intros H. injection H as <- <-. intros E.
    pose proof (compress_subsequence r2) as Hc.
    pose proof (subsequence_length _ _ Hd) as L1. pose proof (subsequence_length _ _ Hc) as L2.
    assert (E2 : r2 = r1) by (apply subsequence_full; [exact Hd|lia]).
    assert (E3 : compress_contour r2 = r2) by (apply subsequence_full; [exact Hc|lia]).
    rewrite E3, E2. exact Hs.
  - intros H. injection H as <- <-. intros _. exact Hs.
Qed.
Lemma star_spec_seen ctx points vs : orders_directions ctx -> NoDup points -> to_star_contour_vertices ctx points = Ok vs ->
  (length vs <= 2)%nat \/ exists c O, star_fixed c vs /\ seen_in_order O vs.
Proof.
  intros Ho Hd. unfold to_star_contour_vertices.
  apply (while_ok (fun st : point * list point * Z => let '(c, r, prev) := st in
    NoDup r /\ (lenZ r <= prev)%Z /\ (lenZ r = prev -> (length r <= 2)%nat \/ (star_fixed c r /\ exists O, seen_in_order O r)))
    (fun vs => (length vs <= 2)%nat \/ exists c O, star_fixed c vs /\ seen_in_order O vs)).
  - intros ((c, r), prev) (H2 & H3 & H4).
    destruct (Z.ltb_spec 2 (lenZ r)) as [Hl|Hl]; cbn [andb].
    + destruct (Z.ltb_spec (lenZ r) prev) as [Hp|Hp]; cbn [andb].
      * destruct (star_step ctx c r) as [(c', r')|e] eqn:E; cbn [rbind]; [|exact I]. pose proof E as E'.
        apply (star_step_spec ctx c r c' r' H2) in E. destruct E as (E1 & E2 & E3 & E4).
        split; [exact E2|]. unfold lenZ. split; [lia|].
        intros E. assert (El : length r' = length r) by lia. destruct (E4 El) as [G|G]; [left; exact G|].
        right. split; [exact G|]. exists c. apply (star_step_seen ctx c r c' r' Ho E' El).
      * destruct (H4 ltac:(lia)) as [H|(H & O & HO)]; [auto|right; exists c, O; auto].
    + left. unfold lenZ in Hl. lia.
  - split; [exact Hd|]. split; [lia|]. intros H. lia.
Qed.
Lemma star_strategy_convex ctx xs ys mn mx vs : orders_directions ctx -> (3 <= mn)%Z ->
  generates (to_star_vertex_sequence_strategy ctx xs ys mn mx) vs ->
  convex_ccw vs \/ convex_ccw (reverse_vertices vs).
Proof.
  intros Ho Hmn H. pose proof (star_strategy_spec ctx xs ys mn mx vs Hmn H) as (Hs & _ & _ & Hst & c & Hc & Ha).
  unfold to_star_vertex_sequence_strategy in H.
  apply gen_pfilter in H. destruct H as (H & _).
  apply gen_bind in H. destruct H as (points & Hp & H). apply gen_lift in H. apply grid_sound in Hp.
  apply (star_spec_seen ctx points vs Ho) in H; [|apply (grid_nodup _ _ _ _ _ Hp)].
  destruct Hs as (Hs & _). unfold lenZ in Hs.
  destruct H as [H|(c' & O & _ & HO)]; [lia|].
  apply (convexly_convex vs (Pt 0 0)); [lia|]. apply (seen_convexly O vs c); try assumption. lia.
Qed.
