(** Relaxing the bounds or the coordinates of a call never loses a geometry. *)
From Verif Require Import Base Prog Geometry Ctx Utils Contracts Factories Strategies Planar Spec RelaxSpec ProgProofs
  GeomProofs PrimeProofs PlanarProofs MixProofs.
Import List ListNotations.
Local Open Scope Z_scope.

Lemma cov_refl {A} (p : prog A) : covered p p.
Proof. intros a H. exact H. Qed.
Lemma cov_bind {A B} (p q : prog A) (f g : A -> prog B) :
  covered p q -> (forall a, generates p a -> covered (f a) (g a)) -> covered (bind p f) (bind q g).
Proof. intros H1 H2 b H. apply gen_bind in H. destruct H as (a & Ha & Hb). apply gen_bind. exists a. split; [auto|]. apply (H2 a Ha). exact Hb. Qed.
Lemma cov_pmap {A B} (f : A -> B) p q : covered p q -> covered (pmap f p) (pmap f q).
Proof. intros H. apply cov_bind; [exact H|]. intros. apply cov_refl. Qed.
Lemma cov_pfilter {A} (f g : A -> bool) p q : covered p q -> (forall a, generates p a -> f a = true -> g a = true) ->
  covered (pfilter f p) (pfilter g q).
Proof. intros H H1 a Ha. apply gen_pfilter in Ha. apply gen_pfilter. split; [apply H, Ha|apply H1; apply Ha]. Qed.
Lemma cov_pfilter_res {A} (f : A -> res bool) p q : covered p q -> covered (pfilter_res f p) (pfilter_res f q).
Proof. intros H a Ha. apply gen_pfilter_res in Ha. apply gen_pfilter_res. split; [apply H, Ha|apply Ha]. Qed.
Lemma cov_alt {A} (p q p' q' : prog A) : covered p p' -> covered q q' -> covered (alt p q) (alt p' q').
Proof. intros H1 H2 a H. apply gen_alt in H. apply gen_alt. destruct H; auto. Qed.
Lemma cov_left {A} (p q q' : prog A) : covered p q -> covered p (alt q q').
Proof. intros H1 a H. apply gen_alt. auto. Qed.
Lemma cov_right {A} (p q q' : prog A) : covered p q' -> covered p (alt q q').
Proof. intros H1 a H. apply gen_alt. auto. Qed.
Lemma cov_integers mn mx mn' mx' : wider mn mx mn' mx' -> covered (integers mn mx) (integers mn' mx').
Proof.
  intros (H1 & H2) z H. apply gen_integers in H. apply gen_integers. apply in_range_size in H. apply in_range_size.
  destruct H as (H & H'). split; [lia|]. intros m' E. destruct (H2 m' E) as (m & Em & Hm). specialize (H' m Em). lia.
Qed.
Lemma wider_size mn mx mn' mx' n : wider mn mx mn' mx' -> size_ok n mn mx -> size_ok n mn' mx'.
Proof.
  intros (H1 & H2) (H & H'). split; [lia|]. intros m' E. destruct (H2 m' E) as (m & Em & Hm). specialize (H' m Em). lia.
Qed.
Lemma wider_refl mn mx : wider mn mx mn mx.
Proof. split; [lia|]. intros m' E. exists m'. split; [exact E|lia]. Qed.
Lemma wider_max mn mx mn' mx' l : wider mn mx mn' mx' -> wider (Z.max mn l) mx (Z.max mn' l) mx'.
Proof. intros (H1 & H2). split; [lia|exact H2]. Qed.
Lemma wider_lower mn mn' a b : mn' <= mn -> a <= b -> wider mn (Some a) mn' (Some b).
Proof. intros H1 H2. split; [lia|]. intros m' E. injection E as <-. exists a. auto. Qed.
Lemma wider_valid {A} mn mx mn' mx' (l : list A) : wider mn mx mn' mx' ->
  has_valid_size l mn mx = true -> has_valid_size l mn' mx' = true.
Proof.
  intros (H1 & H2) H. unfold has_valid_size in *. apply andb_true_iff in H. destruct H as (Ha & Hb). apply Z.leb_le in Ha.
  apply andb_true_iff. split; [apply Z.leb_le; lia|]. destruct mx' as [m'|]; [|reflexivity].
  destruct (H2 m' eq_refl) as (m & -> & Hm). apply Z.leb_le in Hb. apply Z.leb_le. lia.
Qed.
Lemma cov_lists {A} (p p' : prog A) mn mx mn' mx' : covered p p' -> wider mn mx mn' mx' -> 0 <= mn' ->
  covered (lists p mn mx) (lists p' mn' mx').
Proof.
  intros Hp Hw H0 l H. apply gen_lists in H. apply gen_lists. destruct H as (_ & Hs & Hx).
  split; [exact H0|]. split; [eapply wider_size; eassumption|]. auto.
Qed.
Lemma cov_scalars s s' mn mx mn' mx' : richer s s' -> wider mn mx mn' mx' -> 0 <= mn' ->
  covered (unique_scalars s mn mx) (unique_scalars s' mn' mx').
Proof.
  intros Hp Hw H0 l H. apply gen_unique_scalars in H. apply gen_unique_scalars. destruct H as (Hn & _ & Hs & Hx).
  split; [exact Hn|]. split; [exact H0|]. split; [eapply wider_size; eassumption|]. intros x Hi. apply Hp, Hx, Hi.
Qed.
Lemma cov_unique {A} (eqb : A -> A -> bool) (p p' : prog A) mn mx mn' mx' :
  covered p p' -> wider mn mx mn' mx' -> 0 <= mn' ->
  covered (unique_lists eqb p mn mx) (unique_lists eqb p' mn' mx').
Proof. intros. apply cov_pfilter; [apply cov_lists; assumption|auto]. Qed.
Lemma cov_draw_n {A} n (p p' : prog A) : covered p p' -> covered (draw_n n p) (draw_n n p').
Proof. intros H l Hl. apply gen_draw_n in Hl. apply gen_draw_n. destruct Hl as (Hn & Hx). split; [exact Hn|]. auto. Qed.
Lemma cov_sequence {A} (ps ps' : list (prog A)) : Forall2 covered ps ps' -> covered (sequence ps) (sequence ps').
Proof.
  intros H. induction H as [|p p' ps ps' Hp _ IH]; [apply cov_refl|]. cbn [sequence].
  apply cov_bind; [exact Hp|]. intros a _. apply cov_bind; [exact IH|]. intros. apply cov_refl.
Qed.

(** The bounds are consistent. *)
Definition fits (mn : Z) (mx : option Z) : Prop := forall m, mx = Some m -> mn <= m.

Lemma next_prime_mono mn mn' p : 3 <= mn' <= mn -> to_next_prime mn = Ok p ->
  exists p', to_next_prime mn' = Ok p' /\ p' <= p.
Proof.
  intros H E. apply to_next_prime_ge in E. destruct E as (_ & Hp & H5 & Hle & _).
  destruct (to_next_prime_spec mn' ltac:(lia)) as (p' & E' & _ & _ & _ & Hq). exists p'. split; [exact E'|].
  apply Hq; [exact Hp|lia|lia].
Qed.

Section Coordinates.
  Context (ctx : context) (xs xs' ys ys' : scalars) (Rx : richer xs xs') (Ry : richer ys ys').

  Lemma cov_box : covered (to_box_strategy xs (Some ys)) (to_box_strategy xs' (Some ys')).
  Proof.
    assert (P : forall s s', richer s s' -> covered (draw_sorted_pair s) (draw_sorted_pair s')).
    { intros s s' R. unfold draw_sorted_pair. apply cov_bind; [apply cov_scalars; [exact R|apply wider_refl|lia]|].
      intros. apply cov_refl. }
    unfold to_box_strategy. apply cov_bind; [apply P, Rx|]. intros (x1, x2) _. apply cov_bind; [apply P, Ry|].
    intros (y1, y2) _. apply cov_refl.
  Qed.
  Lemma cov_point : covered (to_point_strategy xs (Some ys)) (to_point_strategy xs' (Some ys')).
  Proof.
    unfold to_point_strategy. cbn [or_else]. apply cov_bind; [exact Rx|]. intros x _. apply cov_bind; [exact Ry|].
    intros y _. apply cov_refl.
  Qed.
  Lemma cov_multipoint mn mx mn' mx' : wider mn mx mn' mx' -> 0 <= mn' ->
    covered (to_unique_point_sequence_strategy xs (Some ys) mn mx) (to_unique_point_sequence_strategy xs' (Some ys') mn' mx').
  Proof. intros. unfold to_unique_point_sequence_strategy. apply cov_unique; [apply cov_point|assumption|assumption]. Qed.
  Lemma cov_segment : covered (to_segment_strategy xs (Some ys)) (to_segment_strategy xs' (Some ys')).
  Proof.
    unfold to_segment_strategy. apply cov_bind; [|intros (a, b) _; apply cov_refl]. apply cov_pfilter; [|auto].
    apply cov_bind; [apply cov_point|]. intros a _. apply cov_bind; [apply cov_point|]. intros b _. apply cov_refl.
  Qed.
  Lemma cov_rectangle : covered (to_rectangular_vertex_sequence_strategy xs (Some ys))
    (to_rectangular_vertex_sequence_strategy xs' (Some ys')).
  Proof. apply cov_pmap, cov_box. Qed.
  Lemma cov_triangle : covered (to_triangular_vertex_sequence_strategy xs (Some ys))
    (to_triangular_vertex_sequence_strategy xs' (Some ys')).
  Proof. apply cov_pmap. apply cov_pfilter; [|auto]. apply cov_draw_n, cov_point. Qed.
  (** The bounds on the number of points: relaxed, and in a way that keeps the numbers of coordinates. *)
  Definition relaxed (mn : Z) (mx : option Z) (mn' : Z) (mx' : option Z) : Prop :=
    wider mn mx mn' mx' /\ ((mn' = mn /\ mx' = mx) \/ prime_between mn mx').
  Lemma cov_grid mn mx mn' mx' : relaxed mn mx mn' mx' -> 3 <= mn' ->
    covered (to_point_sequence_in_general_position_strategy xs (Some ys) mn mx)
            (to_point_sequence_in_general_position_strategy xs' (Some ys') mn' mx').
  Proof.
    intros (Hw & Hr) H3 l H. unfold to_point_sequence_in_general_position_strategy in *. cbn [or_else] in *.
    apply gen_bind in H. destruct H as (p & Hp & H). apply gen_lift in Hp.
    destruct (next_prime_mono mn mn' p) as (p' & Ep' & Hle); [destruct Hw; lia|exact Hp|].
    apply gen_bind. exists p'. split; [apply gen_lift; exact Ep'|]. revert l H.
    assert (W : wider p match mx with Some m => Some (Z.max m p) | None => None end
                      p' match mx' with Some m => Some (Z.max m p') | None => None end).
    { split; [exact Hle|]. intros m' E. destruct mx' as [k|]; [|discriminate]. injection E as <-.
      destruct Hr as [(-> & <-)|Hr].
      { rewrite Hp in Ep'. injection Ep' as <-. eexists. split; [reflexivity|lia]. }
      destruct (Hr k eq_refl) as (q & Hq & H3q & Hmq).
      destruct Hw as (_ & Hw). destruct (Hw k eq_refl) as (m & -> & Hm). eexists. split; [reflexivity|].
      apply to_next_prime_ge in Hp. destruct Hp as (_ & _ & _ & _ & Hp). specialize (Hp q Hq H3q ltac:(lia)). lia. }
    apply cov_bind; [apply cov_scalars; [exact Rx|exact W|apply to_next_prime_ge in Ep'; lia]|]. intros l1 _.
    apply cov_bind; [apply cov_scalars; [exact Ry|exact W|apply to_next_prime_ge in Ep'; lia]|]. intros l2 _.
    apply cov_refl.
  Qed.

  (** *** Contours *)
  Section Contours.
    Context (mn : Z) (mx : option Z) (mn' : Z) (mx' : option Z) (R : relaxed mn mx mn' mx') (H3 : 3 <= mn') (F : fits mn mx).
    Lemma cov_star : covered (to_star_vertex_sequence_strategy ctx xs (Some ys) mn mx)
      (to_star_vertex_sequence_strategy ctx xs' (Some ys') mn' mx').
    Proof.
      apply cov_pfilter; [|intros l _; apply wider_valid, R]. apply cov_bind; [apply cov_grid; assumption|].
      intros. apply cov_refl.
    Qed.
    Lemma cov_carved : covered (to_carved_vertex_sequence_strategy ctx xs (Some ys) mn mx)
      (to_carved_vertex_sequence_strategy ctx xs' (Some ys') mn' mx').
    Proof.
      apply cov_pfilter; [|intros l _; apply wider_valid, R]. apply cov_bind; [apply cov_grid; assumption|].
      intros l _. apply cov_bind; [|intros; apply cov_refl]. apply cov_integers.
      destruct R as ((H1 & H2) & _). apply wider_lower; [exact H1|]. unfold min_opt.
      destruct mx' as [m'|]; [|destruct mx; lia]. destruct (H2 m' eq_refl) as (m & -> & Hm). lia.
    Qed.
    Lemma cov_sequences : covered (to_vertex_sequences_ ctx xs (Some ys) mn mx) (to_vertex_sequences_ ctx xs' (Some ys') mn' mx').
    Proof. apply cov_alt; [apply cov_star|apply cov_carved]. Qed.
    Lemma cov_concave : covered (to_concave_vertex_sequence_strategy ctx xs (Some ys) mn mx)
      (to_concave_vertex_sequence_strategy ctx xs' (Some ys') mn' mx').
    Proof. apply cov_pfilter_res, cov_sequences. Qed.
    Lemma cov_convex : covered (to_convex_vertex_sequence_strategy ctx xs (Some ys) mn mx)
      (to_convex_vertex_sequence_strategy ctx xs' (Some ys') mn' mx').
    Proof.
      unfold to_convex_vertex_sequence_strategy, CONCAVE. assert (Hw := proj1 R). destruct Hw as (H1 & H2).
      destruct (match mx with Some m => m <? 4 | None => false end) eqn:E.
      - destruct mx as [m|]; [|discriminate]. apply Z.ltb_lt in E. specialize (F m eq_refl).
        destruct (match mx' with Some m => m <? 4 | None => false end); [apply cov_triangle|].
        replace (mn' =? 3) with true by (symmetry; apply Z.eqb_eq; lia). apply cov_left, cov_triangle.
      - destruct (match mx' with Some m => m <? 4 | None => false end) eqn:E'.
        { destruct mx' as [m'|]; [|discriminate]. destruct (H2 m' eq_refl) as (m & -> & Hm). apply Z.ltb_lt in E'. apply Z.ltb_ge in E. lia. }
        cbv zeta. clear E E'.
        set (g := pfilter _ _). set (g' := pfilter (fun vs => has_valid_size vs mn' mx') _).
        assert (Cg : covered g g').
        { apply cov_pfilter; [|intros l _; apply wider_valid, R]. apply cov_bind; [apply cov_grid; assumption|].
          intros. apply cov_refl. }
        clearbody g g'.
        assert (Cr : covered (if mn <=? 4 then alt (to_rectangular_vertex_sequence_strategy xs (Some ys)) g else g)
                             (if mn' <=? 4 then alt (to_rectangular_vertex_sequence_strategy xs' (Some ys')) g' else g')).
        { destruct (Z.leb_spec mn 4).
          - replace (mn' <=? 4) with true by (symmetry; apply Z.leb_le; lia). apply cov_alt; [apply cov_rectangle|exact Cg].
          - destruct (mn' <=? 4); [apply cov_right|]; exact Cg. }
        destruct (Z.eqb_spec mn 3).
        + replace (mn' =? 3) with true by (symmetry; apply Z.eqb_eq; lia). apply cov_alt; [apply cov_triangle|exact Cr].
        + destruct (mn' =? 3); [apply cov_right|]; exact Cr.
    Qed.
    Lemma cov_contour : covered (to_vertex_sequence_strategy ctx xs (Some ys) mn mx)
      (to_vertex_sequence_strategy ctx xs' (Some ys') mn' mx').
    Proof. apply cov_alt; [apply cov_convex|apply cov_sequences]. Qed.
  End Contours.

  (** *** Segments *)
  Lemma cov_multisegment mn mx mn' mx' : wider mn mx mn' mx' -> fits mn mx -> (mn' = mn /\ mx' = mx) \/ prime_between (Z.max mn 3) mx' ->
    0 <= mn' -> 1 <= mn' \/ (mn' = mn /\ mx' = mx) ->
    covered (to_segment_sequence_strategy ctx xs (Some ys) mn mx) (to_segment_sequence_strategy ctx xs' (Some ys') mn' mx').
  Proof.
    intros Hw F Hr H0 H1. unfold to_segment_sequence_strategy. change MIN_CONTOUR_SIZE with 3. cbn [or_else]. cbv zeta.
    assert (Hl : covered (pfilter are_segments_non_crossing_non_overlapping (lists (to_segment_strategy xs (Some ys)) mn mx))
                         (pfilter are_segments_non_crossing_non_overlapping (lists (to_segment_strategy xs' (Some ys')) mn' mx'))).
    { apply cov_pfilter; [|auto]. apply cov_lists; [apply cov_segment|exact Hw|exact H0]. }
    destruct (match mx with Some m => m <? 2 | None => false end) eqn:E.
    - destruct mx as [m|]; [|discriminate]. apply Z.ltb_lt in E.
      destruct (match mx' with Some m => m <? 2 | None => false end) eqn:E'.
      + destruct mx' as [m'|]; [|discriminate]. apply Z.ltb_lt in E'.
        assert (m' = m).
        { destruct H1 as [H1|(-> & E1)]; [|congruence]. destruct Hw as (Hw & Hw'). destruct (Hw' m' eq_refl) as (m1 & Em & Hm).
          injection Em as <-. specialize (F m eq_refl). lia. }
        subst m'. destruct m; apply cov_refl || (apply cov_pmap, cov_segment).
      + destruct H1 as [H1|(-> & ->)]; [|apply Z.ltb_ge in E'; lia].
        specialize (F m eq_refl). destruct Hw as (Hw & Hw'). assert (m = 1) by lia. subst m.
        apply cov_right. intros l Hg. apply gen_pmap in Hg. destruct Hg as (s & Hs & ->).
        apply gen_pfilter. split; [|reflexivity]. apply gen_lists. split; [exact H0|]. split.
        * unfold lenZ. cbn [length]. split; [lia|]. intros m' Em. destruct (Hw' m' Em) as (k & Ek & Hk). injection Ek as <-. lia.
        * intros x [<-|[]]. apply cov_segment, Hs.
    - destruct (match mx' with Some m => m <? 2 | None => false end) eqn:E'.
      { destruct mx' as [m'|]; [|discriminate]. destruct Hw as (_ & Hw). destruct (Hw m' eq_refl) as (m & -> & Hm). apply Z.ltb_lt in E'. apply Z.ltb_ge in E. lia. }
      apply cov_alt; [|exact Hl].
      set (g := alt (bind (draw_scalar xs) _) _). set (g' := alt (bind (draw_scalar xs') _) _).
      assert (W : wider (mn + 1) match mx with Some m => Some (m + 1) | None => None end (mn' + 1) match mx' with Some m => Some (m + 1) | None => None end).
      { destruct Hw as (Hw & Hw'). split; [lia|]. intros m' Em. destruct mx' as [k|]; [|discriminate]. injection Em as <-.
        destruct (Hw' k eq_refl) as (m & -> & Hm). eexists. split; [reflexivity|lia]. }
      assert (Cg : covered g g').
      { apply cov_alt.
        - apply cov_bind; [exact Rx|]. intros x _. apply cov_bind; [apply cov_scalars; [exact Ry|exact W|lia]|]. intros. apply cov_refl.
        - apply cov_bind; [apply cov_scalars; [exact Rx|exact W|lia]|]. intros l _. apply cov_bind; [exact Ry|]. intros. apply cov_refl. }
      clearbody g g'.
      destruct (match mx with Some m => 3 <=? m | None => true end) eqn:E3.
      + replace (match mx' with Some m => 3 <=? m | None => true end) with true.
        2:{ symmetry. destruct mx' as [m'|]; [|reflexivity]. destruct Hw as (_ & Hw). destruct (Hw m' eq_refl) as (m & -> & Hm).
            apply Z.leb_le in E3. apply Z.leb_le. lia. }
        apply cov_alt; [exact Cg|]. apply cov_bind.
        * apply cov_contour; [|lia|].
          -- split; [apply wider_max, Hw|]. destruct Hr as [(-> & ->)|Hr]; [left; auto|right; exact Hr].
          -- intros m ->. apply Z.leb_le in E3. specialize (F m eq_refl). lia.
        * intros vs _. unfold to_sub_sequence_strategy. apply cov_bind; [apply cov_refl|]. intros l _.
          apply cov_bind; [|intros; apply cov_refl]. apply cov_integers. destruct Hw as (Hw & _). apply wider_lower; [exact Hw|lia].
      + destruct (match mx' with Some m => 3 <=? m | None => true end); [apply cov_left|]; exact Cg.
  Qed.

  (** *** Multicontours *)
  Lemma valid_sizes_wider mn mx mn' mx' cmn cmx cmn' cmx' (l : list contour) : wider mn mx mn' mx' -> wider cmn cmx cmn' cmx' ->
    multicontour_has_valid_sizes l mn mx cmn cmx = true -> multicontour_has_valid_sizes l mn' mx' cmn' cmx' = true.
  Proof.
    intros W1 W2 H. unfold multicontour_has_valid_sizes in *. apply andb_true_iff in H. destruct H as (Ha & Hb).
    apply andb_true_iff. split; [eapply wider_valid; eassumption|]. rewrite forallb_forall in *.
    intros c Hc. eapply wider_valid; [exact W2|]. apply Hb, Hc.
  Qed.
End Coordinates.

(** *** Distribution of points *)
Lemma set_nth_length {A} k (v : A) l : length (set_nth k v l) = length l.
Proof. revert k. induction l as [|x l IH]; intros [|k]; cbn [set_nth length]; auto. Qed.
Lemma spread_length n i l : length (spread n i l) = length l.
Proof. revert i l. induction n as [|n IH]; intros i l; cbn [spread]; [reflexivity|]. rewrite IH. apply set_nth_length. Qed.
Lemma spread_add a b i l : l <> [] -> (i < length l)%nat ->
  spread (a + b) i l = spread b ((i + a) mod length l) (spread a i l).
Proof.
  intros Hl. revert i l Hl. induction a as [|a IH]; intros i l Hl Hi.
  - cbn [spread plus]. rewrite Nat.add_0_r, Nat.mod_small by exact Hi. reflexivity.
  - cbn [spread plus]. set (l' := set_nth i (nth i l 0 + 1) l).
    assert (E : length l' = length l) by apply set_nth_length.
    assert (0 < length l)%nat by lia.
    rewrite IH; [|intros E0; rewrite E0 in E; cbn in E; lia|rewrite E; apply Nat.mod_upper_bound; lia].
    rewrite E. f_equal. rewrite Nat.add_mod_idemp_l by lia. f_equal. lia.
Qed.
Lemma set_nth_mid {A} (a : list A) x v b : set_nth (length a) v (a ++ x :: b) = a ++ v :: b.
Proof. induction a as [|y a IH]; cbn [set_nth length app]; [reflexivity|]. f_equal. exact IH. Qed.
Lemma spread_round m : forall b a, spread b a (repeat (m + 1) a ++ repeat m b) = repeat (m + 1) (a + b).
Proof.
  induction b as [|b IH]; intros a; cbn [spread].
  - cbn [repeat]. rewrite app_nil_r, Nat.add_0_r. reflexivity.
  - cbn [repeat]. assert (E : nth a (repeat (m + 1) a ++ m :: repeat m b) 0 = m).
    { rewrite app_nth2; rewrite repeat_length; [|lia]. rewrite Nat.sub_diag. reflexivity. }
    rewrite E. assert (L : set_nth a (m + 1) (repeat (m + 1) a ++ m :: repeat m b) = repeat (m + 1) (S a) ++ repeat m b).
    { transitivity (set_nth (length (repeat (m + 1) a)) (m + 1) (repeat (m + 1) a ++ m :: repeat m b)); [rewrite repeat_length; reflexivity|].
      rewrite set_nth_mid. replace (S a) with (a + 1)%nat by lia. rewrite repeat_app. cbn [repeat]. rewrite <- app_assoc. reflexivity. }
    rewrite L. rewrite app_length. cbn [length]. rewrite !repeat_length.
    destruct b as [|b].
    + replace (a + 1)%nat with (S a) by lia. cbn [spread repeat]. rewrite app_nil_r. reflexivity.
    + rewrite Nat.mod_small by lia. rewrite IH. f_equal. lia.
Qed.
Lemma spread_turn m k n : (0 < k)%nat -> spread (k + n) 0 (repeat m k) = spread n 0 (repeat (m + 1) k).
Proof.
  intros Hk. rewrite spread_add; [|destruct k; [lia|discriminate]|rewrite repeat_length; exact Hk].
  rewrite repeat_length, Nat.add_0_l, Nat.mod_same by lia. f_equal. exact (spread_round m k 0).
Qed.
(** The maxima do not depend on the minimum. *)
Lemma spread_sizes_same size m m' limit : 0 < size -> m' <= m -> size * m <= limit ->
  spread_sizes size m' limit = spread_sizes size m limit.
Proof.
  intros Hs Hm Hl. unfold spread_sizes. replace (size <=? 0) with false by (symmetry; apply Z.leb_gt; exact Hs).
  cbn [andb]. f_equal. remember (Z.to_nat (m - m')) as d eqn:Ed. revert m' Hm Ed.
  induction d as [|d IH]; intros m' Hm Ed.
  - replace m' with m by lia. reflexivity.
  - rewrite <- (IH (m' + 1)) by lia.
    replace (Z.to_nat (limit - size * m')) with (Z.to_nat size + Z.to_nat (limit - size * (m' + 1)))%nat
      by (rewrite <- Z2Nat.inj_add by nia; f_equal; ring).
    apply spread_turn. lia.
Qed.
Lemma cov_ranges (l : list Z) m m' : m' <= m ->
  Forall2 covered (map (fun k => integers m (Some k)) l) (map (fun k => integers m' (Some k)) l).
Proof. intros H. induction l as [|k l IH]; cbn [map]; constructor; [apply cov_integers, wider_lower; lia|exact IH]. Qed.
Lemma cov_sizes size m m' limit : 0 < size -> m' <= m -> size * m <= limit ->
  covered (to_sizes_ size m limit) (to_sizes_ size m' limit).
Proof.
  intros. unfold to_sizes_. rewrite (spread_sizes_same size m m') by assumption.
  apply cov_bind; [apply cov_refl|]. intros l _. apply cov_bind; [apply cov_sequence, cov_ranges; assumption|]. intros. apply cov_refl.
Qed.
Lemma cov_hole_sizes_ size m m' limit : 0 <= size -> m' <= m -> size * m <= limit ->
  covered (to_hole_sizes_ size m limit) (to_hole_sizes_ size m' limit).
Proof.
  intros. unfold to_hole_sizes_. destruct (Z.eqb_spec size 0); [apply cov_refl|].
  rewrite (spread_sizes_same size m m') by (assumption || lia).
  apply cov_bind; [apply cov_refl|]. intros l _. apply cov_bind; [apply cov_refl|]. intros. apply cov_sequence, cov_ranges; assumption.
Qed.

Section Shapes.
  Context (ctx : context).
  Lemma cov_multicontour xs xs' ys ys' mn mx mn' mx' cmn cmx cmn' cmx' : richer xs xs' -> richer ys ys' ->
    wider mn mx mn' mx' -> wider cmn cmx cmn' cmx' -> fits mn mx -> fits cmn cmx -> 1 <= mn' -> 3 <= cmn' ->
    (mn' = mn /\ mx' = mx /\ cmn' = cmn /\ cmx' = cmx) \/ prime_between (mn * cmn) (max_product mx' cmx') ->
    covered (to_multicontour_strategy ctx xs (Some ys) mn mx cmn cmx) (to_multicontour_strategy ctx xs' (Some ys') mn' mx' cmn' cmx').
  Proof.
    intros Rx Ry W1 W2 F1 F2 H1 H3 Hr. unfold to_multicontour_strategy. cbv zeta.
    apply cov_pfilter; [|intros l _; apply valid_sizes_wider; assumption].
    destruct W1 as (W1 & W1'), W2 as (W2 & W2').
    apply cov_bind.
    - apply cov_grid; [exact Rx|exact Ry| |nia]. split.
      + split; [nia|]. intros m' E. destruct mx' as [k|]; [|discriminate]. destruct cmx' as [ck|]; [|discriminate]. injection E as <-.
        destruct (W1' k eq_refl) as (m & -> & Hm). destruct (W2' ck eq_refl) as (cm & -> & Hcm). eexists. split; [reflexivity|].
        specialize (F1 m eq_refl). specialize (F2 cm eq_refl). nia.
      + destruct Hr as [(-> & -> & -> & ->)|Hr]; [left; auto|right; exact Hr].
    - intros l _. apply cov_bind.
      + apply cov_integers, wider_lower; [exact W1|]. assert (lenZ l / cmn <= lenZ l / cmn') by (apply Z.div_le_compat_l; unfold lenZ; lia).
        unfold min_opt. destruct mx' as [m'|]; [|destruct mx; lia]. destruct (W1' m' eq_refl) as (m & -> & Hm). lia.
      + intros size Hs. apply gen_integers in Hs. destruct Hs as (Hs1 & Hs2).
        assert (Hd : size <= lenZ l / cmn) by (unfold min_opt in Hs2; destruct mx; lia).
        apply cov_bind; [|intros; apply cov_refl]. apply cov_sizes; [lia|lia|].
        pose proof (Z.mul_div_le (lenZ l) cmn ltac:(lia)). nia.
  Qed.

  (** *** Polygons *)
  Lemma cov_hole_sizes points hmn hmx hmn' hmx' smn smn' : wider hmn hmx hmn' hmx' -> 0 <= hmn' -> 3 <= smn' <= smn ->
    fits hmn hmx -> smn * hmn <= lenZ points - lenZ (to_max_convex_hull points) ->
    covered (to_hole_sizes points hmn hmx smn) (to_hole_sizes points hmn' hmx' smn').
  Proof.
    intros (W & W') H0 Hs F Hin. unfold to_hole_sizes. cbv zeta. set (n := lenZ points - _) in *. clearbody n.
    assert (Hmin : 0 <= n -> min_opt (n / smn) hmx <= min_opt (n / smn') hmx').
    { intros Hn. assert (n / smn <= n / smn') by (apply Z.div_le_compat_l; lia).
      unfold min_opt. destruct hmx' as [m'|]; [|destruct hmx; lia]. destruct (W' m' eq_refl) as (m & -> & Hm). lia. }
    destruct (Z.leb_spec smn n) as [Hn|Hn].
    - replace (smn' <=? n) with true by (symmetry; apply Z.leb_le; lia).
      apply cov_bind; [apply cov_integers, wider_lower; [exact W|apply Hmin; lia]|].
      intros size Hsz. apply gen_integers in Hsz. destruct Hsz as (Hs1 & Hs2).
      assert (Hd : size <= n / smn) by (unfold min_opt in Hs2; destruct hmx; lia).
      apply cov_hole_sizes_; [lia|lia|]. pose proof (Z.mul_div_le n smn ltac:(lia)). nia.
    - assert (hmn' = 0) by nia. subst hmn'. destruct (Z.leb_spec smn' n) as [Hn'|Hn']; [|apply cov_refl].
      intros l Hl. apply gen_bind. exists 0. split.
      + apply gen_integers. split; [lia|]. pose proof (Z.div_pos n smn' ltac:(lia) ltac:(lia)).
        unfold min_opt. destruct hmx' as [m'|]; [|lia]. destruct (W' m' eq_refl) as (m & -> & Hm). specialize (F m eq_refl). lia.
      + exact Hl.
  Qed.
  Section Polygon.
    Context (mn : Z) (mx : option Z) (mn' : Z) (mx' : option Z) (W1 : wider mn mx mn' mx') (F1 : fits mn mx) (H1 : 3 <= mn')
            (hmn : Z) (hmx : option Z) (hmn' : Z) (hmx' : option Z) (W2 : wider hmn hmx hmn' hmx') (F2 : fits hmn hmx) (H2 : 0 <= hmn')
            (smn : Z) (smx : option Z) (smn' : Z) (smx' : option Z) (W3 : wider smn smx smn' smx') (F3 : fits smn smx) (H3 : 3 <= smn')
            (Room : (mn' = mn /\ mx' = mx /\ hmn' = hmn /\ hmx' = hmx /\ smn' = smn /\ smx' = smx)
                    \/ prime_between (mn + hmn * smn) (max_vertices mx' hmx' smx')).
    Lemma totals_wider :
      wider (mn + smn * hmn) match mx, hmx, smx with Some m, Some c, Some s => Some (m + s * c) | _, _, _ => None end
            (mn' + smn' * hmn') match mx', hmx', smx' with Some m, Some c, Some s => Some (m + s * c) | _, _, _ => None end.
    Proof.
      destruct W1 as (V1 & V1'), W2 as (V2 & V2'), W3 as (V3 & V3').
      split; [nia|]. intros m' E. destruct mx' as [k|]; [|discriminate]. destruct hmx' as [c|]; [|discriminate].
      destruct smx' as [s|]; [|discriminate]. injection E as <-.
      destruct (V1' k eq_refl) as (m & Em & Hm). destruct (V2' c eq_refl) as (h & Eh & Hh). destruct (V3' s eq_refl) as (z & Ez & Hz).
      rewrite Em, Eh, Ez. eexists. split; [reflexivity|]. specialize (F1 m Em). specialize (F2 h Eh). specialize (F3 z Ez). nia.
    Qed.
    Lemma cov_polygon xs xs' ys ys' : richer xs xs' -> richer ys ys' ->
      covered (to_polygon_strategy ctx xs (Some ys) mn mx hmn hmx smn smx)
              (to_polygon_strategy ctx xs' (Some ys') mn' mx' hmn' hmx' smn' smx').
    Proof.
      intros Rx Ry. unfold to_polygon_strategy. cbv zeta. pose proof totals_wider as Ht.
      apply cov_pfilter.
      2:{ intros p _ H. unfold polygon_has_valid_sizes in *. apply andb_true_iff in H. destruct H as (Ha & Hb). apply andb_true_iff.
          split; [eapply wider_valid; eassumption|eapply valid_sizes_wider; eassumption]. }
      assert (V1 := W1). assert (V2 := W2). assert (V3 := W3).
      destruct V1 as (V1 & V1'), V2 as (V2 & V2'), V3 as (V3 & V3').
      apply cov_bind.
      - apply cov_pfilter.
        + apply cov_grid; [exact Rx|exact Ry| |nia]. split; [exact Ht|].
          destruct Room as [(-> & -> & -> & -> & -> & ->)|Hr]; [left; auto|right].
          intros m E. specialize (Hr m). unfold max_vertices, max_product in Hr.
          destruct mx' as [k|]; [|discriminate]. destruct hmx' as [c|]; [|discriminate]. destruct smx' as [s|]; [|discriminate].
          injection E as <-. rewrite Z.mul_comm with (n := smn). apply Hr. f_equal. lia.
        + intros l _ H. apply andb_true_iff in H. destruct H as (Ha & Hb). apply Z.leb_le in Hb. apply andb_true_iff. split.
          * destruct mx' as [m'|]; [|reflexivity]. destruct (V1' m' eq_refl) as (m & Em & Hm). rewrite Em in Ha. apply Z.leb_le in Ha. apply Z.leb_le. lia.
          * apply Z.leb_le. nia.
      - intros l Hl. apply gen_pfilter in Hl. destruct Hl as (_ & Hl). apply andb_true_iff in Hl. destruct Hl as (_ & Hl). apply Z.leb_le in Hl.
        apply cov_bind.
        + apply cov_integers, wider_lower; [lia|]. assert (smn' * hmn' <= smn * hmn) by nia.
          destruct mx' as [m'|]; [|destruct mx; lia]. destruct (V1' m' eq_refl) as (m & -> & Hm). lia.
        + intros size _. apply cov_bind; [|intros; apply cov_refl]. apply cov_hole_sizes; [exact W2|exact H2|lia|exact F2|exact Hl].
    Qed.

    (** *** Multipolygons *)
    Lemma point_count_mono p : to_next_prime (mn + hmn * smn) = Ok p ->
      exists p', to_next_prime (mn' + hmn' * smn') = Ok p' /\ p' <= p.
    Proof. destruct W1 as (V1 & _), W2 as (V2 & _), W3 as (V3 & _). apply next_prime_mono. nia. Qed.
    Lemma cov_multipolygon_loop a xs xs' ys ys' p p' : richer xs xs' -> richer ys ys' -> 0 < p' <= p -> forall left l start,
      covered (multipolygon_loop ctx a xs ys mn mx hmn hmx smn smx p left l start)
              (multipolygon_loop ctx a xs' ys' mn' mx' hmn' hmx' smn' smx' p' left l start).
    Proof.
      intros Rx Ry Hp.
      assert (S : forall slice, covered (slice_polygon ctx a xs ys mn mx hmn hmx smn smx slice)
                                        (slice_polygon ctx a xs' ys' mn' mx' hmn' hmx' smn' smx' slice)).
      { intros slice. unfold slice_polygon, sliced. destruct a; apply cov_polygon; assumption || (intros q Hq; exact Hq). }
      induction left as [|left IH]; intros l start.
      - cbn [multipolygon_loop]. apply cov_bind; [apply S|]. intros. apply cov_refl.
      - destruct left as [|left].
        + cbn [multipolygon_loop]. apply cov_bind; [apply S|]. intros. apply cov_refl.
        + cbn [multipolygon_loop] in *. apply cov_bind; [apply cov_integers, wider_lower; lia|]. intros n _.
          apply cov_bind; [apply cov_refl|]. intros k _. apply cov_bind; [apply S|]. intros q _.
          apply cov_bind; [apply cov_refl|]. intros b _. apply cov_bind; [apply IH|]. intros. apply cov_refl.
    Qed.
    Lemma cov_multipolygon xs xs' ys ys' gmn gmx gmn' gmx' : richer xs xs' -> richer ys ys' ->
      wider gmn gmx gmn' gmx' -> fits gmn gmx -> 1 <= gmn' ->
      (gmn' = gmn /\ gmx' = gmx /\ mn' = mn /\ mx' = mx /\ hmn' = hmn /\ hmx' = hmx /\ smn' = smn /\ smx' = smx)
      \/ (prime_between (mn + hmn * smn) (max_vertices mx' hmx' smx')
          /\ (hmn = 0 -> prime_between (gmn * mn) (max_product gmx' mx'))) ->
      covered (to_multipolygon_strategy ctx xs (Some ys) gmn gmx mn mx hmn hmx smn smx)
              (to_multipolygon_strategy ctx xs' (Some ys') gmn' gmx' mn' mx' hmn' hmx' smn' smx').
    Proof.
      intros Rx Ry W0 F0 H0 Hr l H. unfold to_multipolygon_strategy in *. cbv zeta in *. cbn [or_else] in *.
      apply gen_bind in H. destruct H as (p & Hp & H). apply gen_lift in Hp. destruct (point_count_mono p Hp) as (p' & Ep' & Hle).
      apply gen_bind. exists p'. split; [apply gen_lift; exact Ep'|].
      assert (P5 := to_next_prime_ge _ _ Hp). assert (P5' := to_next_prime_ge _ _ Ep').
      assert (V0 := W0). destruct V0 as (V0 & V0').
      match type of H with generates (if _ then alt _ ?q else _) _ => set (g := q) in * end.
      match goal with |- generates (if _ then alt _ ?q else _) _ => set (g' := q) end.
      assert (Cg : covered g g').
      { assert (A : forall a s s', richer s s' ->
          covered (bind (unique_scalars s (gmn * p) match gmx, mx, hmx, smx with Some m, Some b, Some c, Some z => Some (Z.max (m * (b + z * c)) (gmn * p)) | _, _, _, _ => None end)
                     (coordinates_to_polygons ctx a xs ys mn mx hmn hmx smn smx p gmn gmx))
                  (bind (unique_scalars s' (gmn' * p') match gmx', mx', hmx', smx' with Some m, Some b, Some c, Some z => Some (Z.max (m * (b + z * c)) (gmn' * p')) | _, _, _, _ => None end)
                     (coordinates_to_polygons ctx a xs' ys' mn' mx' hmn' hmx' smn' smx' p' gmn' gmx'))).
        { intros a s s' Rs. apply cov_bind.
          - apply cov_scalars; [exact Rs| |nia]. split; [nia|]. intros m' E.
            pose proof totals_wider as (_ & Ht).
            destruct gmx' as [gk|]; [|discriminate]. destruct mx' as [k|]; [|discriminate]. destruct hmx' as [c|]; [|discriminate].
            destruct smx' as [z|]; [|discriminate]. injection E as <-.
            destruct (V0' gk eq_refl) as (gm & Eg & Hg). specialize (F0 gm Eg). rewrite Eg. destruct (Ht _ eq_refl) as (t & Et & Hlt).
            destruct W1 as (_ & V1'), W2 as (_ & V2'), W3 as (V3 & V3').
            destruct (V1' k eq_refl) as (m & Em & Hm). destruct (V2' c eq_refl) as (h & Eh & Hh). destruct (V3' z eq_refl) as (zz & Ez & Hz).
            rewrite Em, Eh, Ez in *. injection Et as <-. eexists. split; [reflexivity|].
            assert (Hgp : gmn * p <= Z.max (gk * (k + z * c)) (gmn' * p')).
            { destruct Hr as [(-> & _ & -> & _ & -> & _ & -> & _)|(Hr & _)].
              - rewrite Hp in Ep'. injection Ep' as <-. lia.
              - destruct (Hr _ eq_refl) as (q & Hq & H3q & Hmq). destruct P5 as (_ & _ & _ & _ & Pq). specialize (Pq q Hq H3q ltac:(lia)). nia. }
            assert (Hm0 : gm * (m + zz * h) <= gk * (k + z * c)).
            { specialize (F1 m eq_refl). specialize (F2 h eq_refl). specialize (F3 zz eq_refl). destruct W2 as (V2 & _).
              apply Z.mul_le_mono_nonneg; nia. }
            lia.
          - intros coords _. unfold coordinates_to_polygons. apply cov_bind.
            + apply cov_integers, wider_lower; [exact V0|]. assert (lenZ coords / p <= lenZ coords / p') by (apply Z.div_le_compat_l; unfold lenZ; lia).
              unfold min_opt. destruct gmx' as [m'|]; [|destruct gmx; lia]. destruct (V0' m' eq_refl) as (m & -> & Hm). lia.
            + intros size _. apply cov_multipolygon_loop; [exact Rx|exact Ry|lia]. }
        apply cov_alt; [apply (A AxisX), Rx|apply (A AxisY), Ry]. }
      clearbody g g'.
      destruct (Z.eqb_spec hmn 0) as [E0|E0].
      - replace (hmn' =? 0) with true by (symmetry; apply Z.eqb_eq; destruct W2; lia). revert l H. apply cov_alt; [|exact Cg].
        apply cov_pmap. apply cov_multicontour; [exact Rx|exact Ry|exact W0|exact W1|exact F0|exact F1|exact H0|exact H1|].
        destruct Hr as [Hr|(_ & Hr)]; [left; tauto|right; exact (Hr E0)].
      - apply Cg in H. destruct (hmn' =? 0); [apply gen_alt; right|]; exact H.
    Qed.

    (** *** Mixes *)
    Section Mix.
      Context (pmn : Z) (pmx : option Z) (pmn' : Z) (tmn : Z) (tmx : option Z) (tmn' : Z) (tmx' : option Z)
              (gmn : Z) (gmx : option Z) (gmn' : Z) (gmx' : option Z)
              (Wp : pmn' <= pmn) (Hp0 : 0 <= pmn') (Wt : wider tmn tmx tmn' tmx') (Ht0 : 0 <= tmn')
              (Wg : wider gmn gmx gmn' gmx') (Hg0 : 0 <= gmn').
      Lemma cov_point_counts p p' n : 5 <= p' <= p ->
        covered (to_point_counts pmn pmx tmn tmx gmn gmx p n) (to_point_counts pmn' pmx tmn' tmx' gmn' gmx' p' n).
      Proof.
        intros Hp r H. unfold to_point_counts in *. cbv zeta in *. destruct Wt as (Vt & Vt'), Wg as (Vg & Vg').
        apply gen_bind in H. destruct H as (gc & Hgc & H). apply gen_bind in H. destruct H as (mp & Hmp & H).
        apply gen_bind in H. destruct H as (gs & Hgs & H). apply gen_bind in H. destruct H as (half & Hh & H).
        apply gen_integers in Hgc, Hh. destruct Hgc as (Hgc1 & Hgc2), Hh as (Hh1 & Hh2).
        set (t := n - pmn - 2 * tmn) in *. set (t' := n - pmn' - 2 * tmn'). assert (Htt : t <= t') by (unfold t, t'; lia).
        assert (Hgt : gc <= t / p) by (unfold min_opt in Hgc2; destruct gmx; lia).
        assert (Hdiv : gc = 0 \/ (1 <= gc /\ p <= t / gc /\ t / gc <= t' / gc)).
        { destruct (Z.eq_dec gc 0) as [E|E]; [left; exact E|right]. split; [lia|].
          pose proof (Z.mul_div_le t p ltac:(lia)). split; [apply Z.div_le_lower_bound; nia|apply Z.div_le_mono; lia]. }
        assert (Hq : t / p <= t' / p').
        { destruct (Z_lt_le_dec t 0) as [Hn|Hn].
          - assert (gc < 0) by (assert (t / p < 0) by (apply Z.div_lt_upper_bound; lia); lia). lia.
          - transitivity (t' / p); [apply Z.div_le_mono; lia|apply Z.div_le_compat_l; lia]. }
        apply gen_bind. exists gc. split.
        { apply gen_integers. split; [lia|]. unfold min_opt in *. destruct gmx' as [m'|]; [|lia].
          destruct (Vg' m' eq_refl) as (m & Em & Hm). rewrite Em in Hgc2. lia. }
        assert (Hex : exists mp', generates (if gc =? 0 then Ret 0 else lift (to_prior_prime (t' / gc))) mp' /\ mp <= mp').
        { destruct (Z.eqb_spec gc 0) as [E|E]; [exists mp; split; [exact Hmp|lia]|].
          destruct Hdiv as [->|(D1 & D2 & D3)]; [congruence|]. apply gen_lift in Hmp.
          destruct (to_prior_prime_spec (t / gc) ltac:(lia)) as (q & Eq & Pq & Bq & Mq).
          destruct (to_prior_prime_spec (t' / gc) ltac:(lia)) as (q' & Eq' & Pq' & Bq' & Mq').
          rewrite Eq in Hmp. injection Hmp as <-. exists q'. split; [apply gen_lift; exact Eq'|]. apply Mq'; [exact Pq|lia]. }
        destruct Hex as (mp' & Hmp' & Hle). apply gen_bind. exists mp'. split; [exact Hmp'|].
        apply gen_bind. exists gs. split.
        { destruct (gc =? 0); [exact Hgs|]. revert gs Hgs H Hh2. intros gs Hgs _ _. revert gs Hgs. apply cov_draw_n, cov_integers, wider_lower; lia. }
        apply gen_bind. exists (half + (tmn - tmn')).
        set (total := fold_right Z.add 0 gs) in *.
        set (up := match tmx with Some m => Z.min (n - total - pmn) (2 * m) | None => n - total - pmn end) in *.
        set (up' := match tmx' with Some m => Z.min (n - total - pmn') (2 * m) | None => n - total - pmn' end).
        assert (Hup : up <= up').
        { unfold up, up'. destruct tmx' as [m'|]; [|destruct tmx; lia]. destruct (Vt' m' eq_refl) as (m & -> & Hm). lia. }
        split.
        { apply gen_integers. split; [lia|].
          replace ((up' - 2 * tmn') / 2) with ((up' - 2 * tmn) / 2 + (tmn - tmn')).
          2:{ rewrite <- Z.div_add by lia. f_equal. lia. }
          assert ((up - 2 * tmn) / 2 <= (up' - 2 * tmn) / 2) by (apply Z.div_le_mono; lia). lia. }
        replace (2 * tmn' + 2 * (half + (tmn - tmn'))) with (2 * tmn + 2 * half) by lia. exact H.
      Qed.
      Lemma cov_mix_loop a xs xs' ys ys' : richer xs xs' -> richer ys ys' -> forall drawers l ps ss gs,
        (forall d c, In (d, c) drawers -> 0 <= c) ->
        covered (mix_loop ctx xs ys mn mx hmn hmx smn smx a drawers l ps ss gs)
                (mix_loop ctx xs' ys' mn' mx' hmn' hmx' smn' smx' a drawers l ps ss gs).
      Proof.
        intros Rx Ry. assert (Rl : forall s, richer s s) by (intros s q Hq; exact Hq).
        induction drawers as [|(d, c) rest IH]; intros l ps ss gs Hc; [apply cov_refl|]. cbn [mix_loop].
        assert (Hc0 : 0 <= c) by (apply (Hc d c); left; reflexivity).
        apply cov_bind.
        - destruct d.
          + apply cov_bind; [|intros; apply cov_refl]. unfold draw_points, sliced.
            destruct a; apply cov_multipoint; auto using wider_refl.
          + apply cov_bind; [|intros; apply cov_refl]. unfold draw_segments, sliced.
            assert (0 <= c / 2) by (apply Z.div_pos; lia).
            destruct a; apply cov_multisegment; auto using wider_refl; intros m E; injection E as <-; lia.
          + apply cov_bind; [|intros; apply cov_refl]. unfold draw_polygon, sliced.
            apply cov_bind; [apply cov_refl|]. intros k _. destruct a; apply cov_polygon; auto.
        - intros ((ps1, ss1), gs1) _. apply cov_bind; [apply cov_refl|]. intros t _. apply IH.
          intros d' c' Hi. apply (Hc d' c'). right. exact Hi.
      Qed.
      Lemma cov_mix xs xs' ys ys' : richer xs xs' -> richer ys ys' -> fits pmn pmx ->
        covered (to_mix_strategy ctx xs (Some ys) pmn pmx tmn tmx gmn gmx mn mx hmn hmx smn smx)
                (to_mix_strategy ctx xs' (Some ys') pmn' pmx tmn' tmx' gmn' gmx' mn' mx' hmn' hmx' smn' smx').
      Proof.
        intros Rx Ry Fp r H. unfold to_mix_strategy in *. cbv zeta in *. cbn [or_else] in *.
        apply gen_bind in H. destruct H as (p & Hp & H). apply gen_lift in Hp. destruct (point_count_mono p Hp) as (p' & Ep' & Hle).
        apply gen_bind. exists p'. split; [apply gen_lift; exact Ep'|].
        assert (P5 := to_next_prime_ge _ _ Hp). assert (P5' := to_next_prime_ge _ _ Ep').
        destruct Wt as (Vt & Vt'), Wg as (Vg & Vg'). revert r H.
        assert (A : forall a s s', richer s s' ->
          covered (bind (unique_scalars s (pmn + 2 * tmn + gmn * p) None)
                     (coordinates_to_mix ctx xs ys pmn pmx tmn tmx gmn gmx mn mx hmn hmx smn smx p a))
                  (bind (unique_scalars s' (pmn' + 2 * tmn' + gmn' * p') None)
                     (coordinates_to_mix ctx xs' ys' pmn' pmx tmn' tmx' gmn' gmx' mn' mx' hmn' hmx' smn' smx' p' a))).
        { intros a s s' Rs. apply cov_bind; [apply cov_scalars; [exact Rs| |nia]; split; [nia|discriminate]|].
          intros l _. unfold coordinates_to_mix. apply cov_bind; [apply cov_point_counts; lia|].
          intros ((pc, sc), gc) Hc.
          destruct (point_counts_spec pmn pmx tmn tmx gmn gmx p (lenZ l) pc sc gc ltac:(lia) ltac:(lia) Fp Hc)
            as (sizes & -> & C1 & C2 & C3 & _).
          apply cov_bind; [apply cov_refl|]. intros drawers Hd. apply gen_permutations in Hd.
          apply cov_bind; [|intros; apply cov_refl]. apply cov_mix_loop; [exact Rx|exact Ry|].
          intros d c Hi. apply (Permutation.Permutation_in _ (Permutation.Permutation_sym Hd)) in Hi.
          apply in_app_or in Hi. destruct Hi as [Hi|Hi].
          - apply in_map_iff in Hi. destruct Hi as (x & E & Hi). injection E as <- <-. specialize (C1 x Hi). lia.
          - apply in_app_or in Hi. destruct Hi as [Hi|Hi].
            + apply in_map_iff in Hi. destruct Hi as (x & E & Hi). injection E as <- <-.
              apply in_map_iff in Hi. destruct Hi as (y & <- & Hi). specialize (C2 y Hi). lia.
            + apply in_map_iff in Hi. destruct Hi as (x & E & Hi). injection E as <- <-. specialize (C3 x Hi). lia. }
        apply cov_alt; [apply (A AxisX), Rx|apply (A AxisY), Ry].
      Qed.
    End Mix.
  End Polygon.
End Shapes.
