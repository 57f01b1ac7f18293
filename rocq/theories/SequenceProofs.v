(** Contours carved out of triangulations, concave contours, sequences of segments. *)
From Coq Require Import Sorting.Sorted.
From Verif Require Import Base Prog Geometry Ctx Utils Contracts Factories Strategies Spec QcTac ProgProofs GeomProofs
  SimpleProofs GridProofs ListProofs CompressProofs AdjacentProofs EdgeProofs HelperProofs ConvexProofs StarProofs
  SegmentProofs TriProofs CarveProofs SeparationProofs.

(** ** Carved contours *)
Lemma border_vertices_compressed fuel h t vs : triangulation_to_border_vertices fuel h t = Ok vs ->
  exists l, vs = compress_contour l.
Proof.
  unfold triangulation_to_border_vertices. intros H. apply rbind_ok in H. destruct H as (es & _ & H). injection H as <-. eauto.
Qed.
Lemma carved_compressed ctx pts size vs : to_vertex_sequence ctx pts size = Ok vs -> exists l, vs = compress_contour l.
Proof.
  intros H. unfold to_vertex_sequence in H. apply rbind_ok in H. destruct H as ((t & h) & _ & H).
  apply rbind_ok in H. destruct H as (es & _ & H). unfold to_vertex_sequence_ in H.
  destruct (_ <? _)%Z.
  - injection H as <-. eauto.
  - apply rbind_ok in H. destruct H as (sets & _ & H). apply rbind_ok in H. destruct H as (st & _ & H).
    apply rbind_ok in H. destruct H as (ears & _ & H). apply rbind_ok in H. destruct H as (es' & _ & H).
    apply rbind_ok in H. destruct H as (st' & _ & H). eapply border_vertices_compressed, H.
Qed.
Lemma compressed_inner l a b c i : 3 <= length (compress_contour l) ->
  nth_error (compress_contour l) i = Some a -> nth_error (compress_contour l) (S i) = Some b ->
  nth_error (compress_contour l) (S (S i)) = Some c -> ~ collinear a b c.
Proof.
  intros H3 Ha Hb Hc. destruct (compress_adjacent_at l H3) as (B & _). set (r := compress_contour l) in *. clearbody r.
  assert (Hl : S (S i) < length r) by (apply nth_error_Some; congruence).
  pose proof (B i ltac:(lia) ltac:(lia)) as K. rewrite (at_nth_error _ _ _ Ha), (at_nth_error _ _ _ Hb), (at_nth_error _ _ _ Hc) in K.
  intros C. apply K. unfold collinear, cross in *. rewrite <- C. ring.
Qed.
Lemma carved_strategy_spec ctx xs ys mn mx vs : (3 <= mn)%Z ->
  generates (to_carved_vertex_sequence_strategy ctx xs ys mn mx) vs ->
  size_ok (lenZ vs) mn mx /\ (forall p, In p vs -> drawable_point xs ys p)
  /\ (forall a b, contour_edge vs a b -> a <> b) /\ inner_strict vs.
Proof.
  intros Hm H. unfold to_carved_vertex_sequence_strategy in H. apply gen_pfilter in H. destruct H as (H & Hv).
  apply size_valid in Hv. split; [exact Hv|].
  apply gen_bind in H. destruct H as (points & Hp & H). apply gen_bind in H. destruct H as (size & _ & H).
  apply gen_lift in H. apply grid_sound in Hp. split.
  - intros p Hin. apply Hp. eapply to_vertex_sequence_in; eassumption.
  - destruct (carved_compressed _ _ _ _ H) as (l & ->).
    assert (H3 : 3 <= length (compress_contour l)) by (destruct Hv as (Hv & _); unfold lenZ in Hv; lia).
    split; [intros a b; apply compress_adjacent, H3|]. intros i a b c. apply compressed_inner, H3.
Qed.
Lemma strict_inner vs : strict vs -> inner_strict vs.
Proof.
  intros H i a b c Ha Hb Hc. assert (S (S i) < length vs) by (apply nth_error_Some; congruence).
  apply H. exists i. rewrite !Nat.mod_small by lia. auto.
Qed.
Lemma strict_edges vs a b : 3 <= length vs -> strict vs -> contour_edge vs a b -> a <> b.
Proof.
  intros Hl Hs He. destruct (turn_of_edge vs a b ltac:(lia) He) as (c & Ht). apply Hs in Ht.
  apply not_collinear_distinct in Ht. apply Ht.
Qed.
Lemma vertex_sequences_spec ctx xs ys mn mx vs : (3 <= mn)%Z ->
  generates (to_vertex_sequences_ ctx xs ys mn mx) vs ->
  size_ok (lenZ vs) mn mx /\ (forall p, In p vs -> drawable_point xs ys p)
  /\ (forall a b, contour_edge vs a b -> a <> b) /\ inner_strict vs.
Proof.
  intros Hm H. apply gen_alt in H. destruct H as [H|H]; [|apply carved_strategy_spec with ctx; assumption].
  apply star_strategy_spec in H; [|exact Hm]. destruct H as (H1 & H2 & H3 & H4 & _).
  split; [exact H1|]. split; [exact H3|]. split; [|apply strict_inner, H4].
  intros a b. apply strict_edges; [|exact H4]. destruct H1 as (H1 & _). unfold lenZ in H1. lia.
Qed.
Lemma vertex_sequence_spec ctx xs ys mn mx vs : (forall l, is_hull l (ctx_hull ctx l)) -> (3 <= mn)%Z ->
  (forall m, mx = Some m -> (mn <= m)%Z) ->
  generates (to_vertex_sequence_strategy ctx xs ys mn mx) vs ->
  size_ok (lenZ vs) mn mx
  /\ (forall p, In p vs -> in_drawable_range xs (px p) /\ in_drawable_range (ordinates xs ys) (py p))
  /\ (forall a b, contour_edge vs a b -> a <> b) /\ inner_strict vs
  /\ (convex_ccw vs \/ forall p, In p vs -> drawable_point xs ys p).
Proof.
  intros Hh Hm Hx H. apply gen_alt in H. destruct H as [H|H].
  - apply convex_strategy_spec in H; [|assumption..]. destruct H as (H1 & H2 & H3).
    split; [exact H2|]. split; [exact H3|]. pose proof (convex_strict _ H1) as St.
    split; [|split; [apply strict_inner, St|left; exact H1]].
    intros a b. apply strict_edges; [apply H1|exact St].
  - apply vertex_sequences_spec in H; [|exact Hm]. destruct H as (H1 & H2 & H3 & H4).
    split; [exact H1|]. split; [|auto]. intros p Hp. destruct (H2 p Hp). split; apply drawable_in_range; assumption.
Qed.

(** ** Concave contours *)
Lemma non_convex_spec vs : are_vertices_non_convex vs = Ok true ->
  exists a b c a' b' c', contour_turn vs a b c /\ contour_turn vs a' b' c' /\
    angle_orientation b a c <> angle_orientation b' a' c'.
Proof.
  unfold are_vertices_non_convex. pose proof (orientations_in vs) as K.
  destruct (to_contour_orientations vs) as [|o rest]; [discriminate|]. intros H. injection H as H.
  apply existsb_exists in H. destruct H as (o' & Ho & E). apply negb_true_iff, orientation_eqb_neq in E.
  destruct (proj1 (K o) (or_introl eq_refl)) as (a & b & c & Ht & ->).
  destruct (proj1 (K o') (or_intror Ho)) as (a' & b' & c' & Ht' & ->).
  exists a, b, c, a', b', c'. auto.
Qed.
Lemma turn_orientation a b c :
  (angle_orientation b a c = CLOCKWISE <-> left_turn a b c) /\ (angle_orientation b a c = COUNTERCLOCKWISE <-> right_turn a b c)
  /\ (angle_orientation b a c = COLLINEAR <-> collinear a b c).
Proof.
  unfold left_turn, right_turn, collinear. assert (E : cross b a c = (- cross a b c)%Qc) by (unfold cross; ring).
  rewrite orientation_cw, orientation_ccw, orientation_col. unfold left_turn, right_turn, collinear. rewrite E.
  split; [|split]; split; intros K; try qcl.
Qed.
Lemma concave_strategy_spec ctx xs ys mn mx vs : (3 <= mn)%Z ->
  generates (to_concave_vertex_sequence_strategy ctx xs ys mn mx) vs ->
  size_ok (lenZ vs) mn mx /\ (forall p, In p vs -> drawable_point xs ys p)
  /\ ~ convex_ccw vs
  /\ (strict vs -> (exists a b c, contour_turn vs a b c /\ left_turn a b c) /\
                   (exists a b c, contour_turn vs a b c /\ right_turn a b c)).
Proof.
  intros Hm H. unfold to_concave_vertex_sequence_strategy in H. apply gen_pfilter_res in H. destruct H as (H & Hn).
  apply vertex_sequences_spec in H; [|exact Hm]. destruct H as (H1 & H2 & _). split; [exact H1|]. split; [exact H2|].
  apply non_convex_spec in Hn. destruct Hn as (a & b & c & a' & b' & c' & Ht & Ht' & Ne).
  split.
  - intros C. pose proof (convex_turns _ C) as K. apply K in Ht, Ht'. apply turn_orientation in Ht, Ht'. congruence.
  - intros St. pose proof (St _ _ _ Ht) as N. pose proof (St _ _ _ Ht') as N'.
    destruct (angle_orientation b a c) eqn:E; [|apply turn_orientation in E; contradiction|];
      destruct (angle_orientation b' a' c') eqn:E'; try congruence; try (apply turn_orientation in E'; contradiction);
      apply turn_orientation in E, E'; eauto 10.
Qed.

(** ** [simple] is decidable *)
Lemma simple_or_not vs : simple vs \/ ~ simple vs.
Proof.
  destruct (ListDec.NoDup_dec point_eq_dec vs) as [D|D]; [|right; intros (H & _); contradiction].
  set (bad := fun s t => andb (negb (point_eqb (seg_start s) (seg_start t) && point_eqb (seg_end s) (seg_end t))) (segments_cross_or_overlap s t)).
  destruct (existsb (fun s => existsb (bad s) (contour_segments vs)) (contour_segments vs)) eqn:E.
  - right. intros (_ & H). apply existsb_exists in E. destruct E as ([a b] & Hs & E). apply existsb_exists in E. destruct E as ([c d] & Ht & E).
    unfold bad in E. apply andb_true_iff in E. destruct E as (N & E). cbn in N. apply cross_or_overlap_spec in E.
    apply (H a b c d); [apply segments_edge, Hs|apply segments_edge, Ht| |exact E].
    intros Eq. injection Eq as -> ->. rewrite !(proj2 (point_eqb_eq _ _) eq_refl) in N. discriminate.
  - left. split; [exact D|]. intros a b c d Hab Hcd N M. apply segments_edge in Hab, Hcd.
    assert (T : existsb (fun s => existsb (bad s) (contour_segments vs)) (contour_segments vs) = true); [|congruence].
    apply existsb_exists. exists (Seg a b). split; [exact Hab|]. apply existsb_exists. exists (Seg c d). split; [exact Hcd|].
    unfold bad. apply andb_true_iff. split; [|apply cross_or_overlap_spec, M]. cbn. apply negb_true_iff, andb_false_iff.
    destruct (point_eq_dec a c) as [-> |Na]; [right|left]; apply point_eqb_neq; congruence.
Qed.

(** ** Sequences of segments *)
Lemma pairwise_strict l a b : StronglySorted Qclt l -> In (a, b) (pairwise l) -> (a < b)%Qc /\ In a l /\ In b l.
Proof.
  intros Hs Hin. apply In_nth_error in Hin. destruct Hin as (i & Hi). apply pairwise_nth in Hi. destruct Hi as (Ha & Hb).
  split; [|split; eapply nth_error_In; eassumption].
  clear -Hs Ha Hb. revert i Ha Hb. induction Hs as [|x l Hs IH Hf]; intros i Ha Hb; [destruct i; discriminate|].
  destruct i as [|i]; [|eapply IH; eassumption]. injection Ha as ->. change (nth_error l 0 = Some b) in Hb. apply nth_error_In in Hb.
  rewrite Forall_forall in Hf. apply Hf, Hb.
Qed.
Lemma pairwise_ordered l : StronglySorted Qclt l -> forall i j a b c d, i < j ->
  nth_error (pairwise l) i = Some (a, b) -> nth_error (pairwise l) j = Some (c, d) -> (b <= c)%Qc.
Proof.
  intros Hs i j a b c d L Hi Hj. apply pairwise_nth in Hi, Hj. destruct Hi as (_ & Hb). destruct Hj as (Hc & _).
  assert (K : forall u v x y, u < v -> nth_error l u = Some x -> nth_error l v = Some y -> (x < y)%Qc).
  { clear -Hs. induction Hs as [|x l Hs IH Hf]; intros u v y z L Hu Hv; [destruct u; discriminate|].
    destruct u as [|u], v as [|v]; try lia.
    - injection Hu as ->. cbn in Hv. apply nth_error_In in Hv. rewrite Forall_forall in Hf. apply Hf, Hv.
    - apply (IH u v); [lia|exact Hu|exact Hv]. }
  destruct (Nat.eq_dec (S i) j) as [E|E].
  - subst j. rewrite Hb in Hc. injection Hc as <-. apply Qcle_refl.
  - apply Qclt_le_weak, (K (S i) j); [lia|assumption..].
Qed.

Lemma pairwise_apart_lt (l : list segment) :
  (forall i j s t, nth_error l i = Some s -> nth_error l j = Some t -> i < j -> ~ interiors_meet s t) -> pairwise_apart l.
Proof.
  intros H i j s t Hi Hj N M. destruct (Nat.lt_ge_cases i j) as [L|L].
  - apply (H i j s t); assumption.
  - apply (H j i t s); [assumption..|lia|]. apply interiors_meet_sym, M.
Qed.

Lemma vertical_apart x l : NoDup l -> pairwise_apart (to_vertical_multisegment x l).
Proof.
  intros Hd. apply pairwise_apart_lt. intros i j s t Hi Hj L. unfold to_vertical_multisegment in *.
  rewrite nth_error_map in Hi, Hj.
  destruct (nth_error (pairwise _) i) as [(a & b)|] eqn:Ei; [|discriminate].
  destruct (nth_error (pairwise _) j) as [(c & d)|] eqn:Ej; [|discriminate].
  cbn in Hi, Hj. injection Hi as <-. injection Hj as <-.
  pose proof (isort_strict l Hd) as Hs. pose proof (pairwise_ordered _ Hs _ _ _ _ _ _ L Ei Ej) as O.
  destruct (pairwise_strict _ _ _ Hs (nth_error_In _ _ Ei)) as (O1 & _). destruct (pairwise_strict _ _ _ Hs (nth_error_In _ _ Ej)) as (O2 & _).
  apply parted_segments with [Pt x a; Pt x b] [Pt x c; Pt x d]; [|cbn; auto..].
  exists true, (Pt x b). split; intros p [<-|[<-|[]]]; unfold kle; cbn.
  - left. right. split; [reflexivity|exact O1].
  - right. reflexivity.
  - destruct (Qc_eq_dec b c) as [-> |N]; [right; reflexivity|]. left. right. split; [reflexivity|]. cbn.
    apply Qcle_lt_or_eq in O. destruct O; [assumption|contradiction].
  - left. right. split; [reflexivity|]. cbn. qcl.
Qed.
Lemma horizontal_apart l y : NoDup l -> pairwise_apart (to_horizontal_multisegment l y).
Proof.
  intros Hd. apply pairwise_apart_lt. intros i j s t Hi Hj L. unfold to_horizontal_multisegment in *.
  rewrite nth_error_map in Hi, Hj.
  destruct (nth_error (pairwise _) i) as [(a & b)|] eqn:Ei; [|discriminate].
  destruct (nth_error (pairwise _) j) as [(c & d)|] eqn:Ej; [|discriminate].
  cbn in Hi, Hj. injection Hi as <-. injection Hj as <-.
  pose proof (isort_strict l Hd) as Hs. pose proof (pairwise_ordered _ Hs _ _ _ _ _ _ L Ei Ej) as O.
  destruct (pairwise_strict _ _ _ Hs (nth_error_In _ _ Ei)) as (O1 & _). destruct (pairwise_strict _ _ _ Hs (nth_error_In _ _ Ej)) as (O2 & _).
  apply parted_segments with [Pt a y; Pt b y] [Pt c y; Pt d y]; [|cbn; auto..].
  exists true, (Pt b y). split; intros p [<-|[<-|[]]]; unfold kle; cbn.
  - left. left. exact O1.
  - right. reflexivity.
  - destruct (Qc_eq_dec b c) as [-> |N]; [right; reflexivity|]. left. left. cbn.
    apply Qcle_lt_or_eq in O. destruct O; [assumption|contradiction].
  - left. left. cbn. qcl.
Qed.

(** The filter of the last alternative. *)
Lemma no_cross_apart l : are_segments_non_crossing_non_overlapping l = true -> pairwise_apart l.
Proof.
  unfold are_segments_non_crossing_non_overlapping. rewrite negb_true_iff. intros H. apply pairwise_apart_lt.
  revert H. induction l as [|s0 l IH]; intros H i j s t Hi Hj L; [destruct i; discriminate|].
  cbn in H. apply orb_false_iff in H. destruct H as (H1 & H2).
  destruct i as [|i], j as [|j]; try lia; cbn in Hj.
  - injection Hi as ->. intros M. apply nth_error_In in Hj.
    assert (E : existsb (segments_cross_or_overlap s) l = true); [|congruence].
    apply existsb_exists. exists t. split; [exact Hj|]. apply cross_or_overlap_spec, M.
  - apply (IH H2 i j); [assumption..|lia].
Qed.

Lemma gen_sub_sequence {A} (l : list A) mn r : (0 <= mn)%Z -> generates (to_sub_sequence_strategy l mn) r ->
  size_ok (lenZ r) mn (Some (lenZ l)) /\ exists rest, Permutation l (r ++ rest).
Proof.
  intros Hm H. unfold to_sub_sequence_strategy in H. apply gen_bind in H. destruct H as (l' & Hl & H).
  apply gen_permutations in Hl. apply gen_bind in H. destruct H as (n & Hn & H). apply gen_ret in H. subst r.
  apply gen_integers in Hn. destruct Hn as (N1 & N2).
  destruct (cut_spec l' n ltac:(lia)) as (rest & E & L).
  assert (El : lenZ l' = lenZ l) by (unfold lenZ; rewrite (Permutation_length Hl); reflexivity).
  split.
  - rewrite L, El. unfold size_ok. split; [lia|]. intros m Em. injection Em as <-. lia.
  - exists rest. rewrite <- E. exact Hl.
Qed.
Lemma apart_sub (l r rest : list segment) : pairwise_apart l -> Permutation l (r ++ rest) -> pairwise_apart r.
Proof.
  intros H P i j s t Hi Hj N.
  assert (Hi' : nth_error (r ++ rest) i = Some s) by (rewrite nth_error_app1; [exact Hi|apply nth_error_Some; congruence]).
  assert (Hj' : nth_error (r ++ rest) j = Some t) by (rewrite nth_error_app1; [exact Hj|apply nth_error_Some; congruence]).
  apply Permutation_nth_error_bis in P. destruct P as (f & Fi & _ & Fe).
  rewrite Fe in Hi', Hj'. apply (H (f i) (f j)); [assumption..|]. intros E. apply N, Fi, E.
Qed.
Lemma simple_apart vs : simple vs -> pairwise_apart (contour_segments vs).
Proof.
  intros (Hd & H) i j s t Hi Hj N. unfold contour_segments, zip_with_prev in Hi, Hj. destruct vs as [|x l]; [destruct i; discriminate|].
  assert (K : forall k u, nth_error (map (fun ab => Seg (fst ab) (snd ab)) (combine (last (x :: l) x :: x :: l) (x :: l))) k = Some u ->
     nth_error (x :: l) k = Some (seg_end u) /\ contour_edge (x :: l) (seg_start u) (seg_end u)).
  { intros k u Hk. split.
    - rewrite nth_error_map in Hk. destruct (nth_error (combine _ _) k) as [(a & b)|] eqn:E; [|discriminate]. cbn [option_map] in Hk. injection Hk as <-.
      apply nth_error_combine in E. apply E.
    - apply segments_edge. apply nth_error_In in Hk. destruct u. exact Hk. }
  destruct (K i s Hi) as (Ei & Es). destruct (K j t Hj) as (Ej & Et). destruct s as [a b], t as [c d]. cbn [seg_start seg_end] in *.
  apply H; [exact Es|exact Et|]. intros E. injection E as -> ->. apply N.
  eapply (proj1 (NoDup_nth_error (x :: l)) Hd); [apply nth_error_Some; congruence|congruence].
Qed.

Lemma segment_sequence_spec ctx xs ys mn mx l : (forall l, is_hull l (ctx_hull ctx l)) -> (0 <= mn)%Z ->
  (forall m, mx = Some m -> (mn <= m)%Z) ->
  generates (to_segment_sequence_strategy ctx xs ys mn mx) l ->
  size_ok (lenZ l) mn mx
  /\ (forall s, In s l -> seg_start s <> seg_end s
        /\ in_drawable_range xs (px (seg_start s)) /\ in_drawable_range xs (px (seg_end s))
        /\ in_drawable_range (ordinates xs ys) (py (seg_start s)) /\ in_drawable_range (ordinates xs ys) (py (seg_end s)))
  /\ (pairwise_apart l
      \/ exists vs, generates (to_vertex_sequences_ ctx xs (Some (ordinates xs ys)) (Z.max mn 3) mx) vs
           /\ ~ simple vs /\ exists rest, Permutation (contour_segments vs) (l ++ rest)).
Proof.
  intros Hh Hm Hx H. unfold to_segment_sequence_strategy in H. change (or_else ys xs) with (ordinates xs ys) in H.
  set (zs := ordinates xs ys) in *. clearbody zs.
  assert (G1 : forall s, generates (to_segment_strategy xs (Some zs)) s -> seg_start s <> seg_end s
        /\ in_drawable_range xs (px (seg_start s)) /\ in_drawable_range xs (px (seg_end s))
        /\ in_drawable_range zs (py (seg_start s)) /\ in_drawable_range zs (py (seg_end s))).
  { intros s Hs. apply gen_segment in Hs. destruct Hs as (N & (D1 & D2) & (D3 & D4)).
    split; [exact N|]. repeat split; apply drawable_in_range; assumption. }
  destruct (match mx with None => false | Some m => m <? 2 end)%Z eqn:E2.
  { destruct mx as [m|]; [|discriminate]. apply Z.ltb_lt in E2. pose proof (Hx m eq_refl) as Hx'.
    assert (Hc : m = 0%Z \/ m = 1%Z) by lia. destruct Hc as [-> | ->].
    - apply gen_ret in H. subst l. split; [split; [cbn; lia|intros m E; injection E as <-; cbn; lia]|].
      split; [intros s []|left; intros i j s t Hi; destruct i; discriminate].
    - apply gen_pmap in H. destruct H as (s & Hs & ->).
      split; [split; [cbn; lia|intros m E; injection E as <-; cbn; lia]|].
      split; [intros t [<-|[]]; apply G1, Hs|]. left. intros i j t u Hi Hj N. destruct i as [|[|i]], j as [|[|j]]; try discriminate; lia. }
  assert (G2 : forall l', generates (unique_scalars xs (mn + 1) (match mx with None => None | Some m => Some (m + 1)%Z end)) l' \/
                          generates (unique_scalars zs (mn + 1) (match mx with None => None | Some m => Some (m + 1)%Z end)) l' ->
     NoDup l' /\ size_ok (Z.of_nat (length l' - 1)) mn mx).
  { assert (G3 : forall s l', generates (unique_scalars s (mn + 1) (match mx with None => None | Some m => Some (m + 1)%Z end)) l' ->
      NoDup l' /\ size_ok (Z.of_nat (length l' - 1)) mn mx).
    { intros s l' G. apply gen_unique_scalars in G. destruct G as (D & _ & (S1 & S2) & _). split; [exact D|]. unfold lenZ in *.
      split; [lia|]. intros m ->. specialize (S2 _ eq_refl). lia. }
    intros l' [G|G]; eapply G3, G. }
  apply gen_alt in H. destruct H as [H|H].
  2: { apply gen_pfilter in H. destruct H as (H & Hf). apply gen_lists in H. destruct H as (_ & H1 & H2).
       split; [exact H1|]. split; [intros s Hs; apply G1, H2, Hs|]. left. apply no_cross_apart, Hf. }
  assert (Base : generates (alt (let! x := draw_scalar xs in
           let! l := unique_scalars zs (mn + 1) (match mx with None => None | Some m => Some (m + 1)%Z end) in
           Ret (to_vertical_multisegment x l))
          (let! l := unique_scalars xs (mn + 1) (match mx with None => None | Some m => Some (m + 1)%Z end) in
           let! y := draw_scalar zs in
           Ret (to_horizontal_multisegment l y))) l ->
    size_ok (lenZ l) mn mx
    /\ (forall s, In s l -> seg_start s <> seg_end s
        /\ in_drawable_range xs (px (seg_start s)) /\ in_drawable_range xs (px (seg_end s))
        /\ in_drawable_range zs (py (seg_start s)) /\ in_drawable_range zs (py (seg_end s)))
    /\ pairwise_apart l).
  { clear H. intros H. apply gen_alt in H. destruct H as [H|H].
    - apply gen_bind in H. destruct H as (x & Hdx & H). apply gen_bind in H. destruct H as (l' & Hl & H). apply gen_ret in H. subst l.
      destruct (G2 l' (or_intror Hl)) as (D & S). apply gen_unique_scalars in Hl. destruct Hl as (_ & _ & _ & Dr).
      split; [|split; [|apply vertical_apart, D]].
      + unfold lenZ, to_vertical_multisegment. rewrite map_length, pairwise_length, isort_length. exact S.
      + intros s Hs. unfold to_vertical_multisegment in Hs. apply in_map_iff in Hs. destruct Hs as ((a & b) & <- & Hin).
        destruct (pairwise_strict _ _ _ (isort_strict _ D) Hin) as (L & Ia & Ib). apply isort_in in Ia, Ib. cbn.
        split; [intros E; injection E as ->; revert L; apply Qlt_irrefl|].
        repeat split; apply drawable_in_range; first [exact Hdx|apply Dr; assumption].
    - apply gen_bind in H. destruct H as (l' & Hl & H). apply gen_bind in H. destruct H as (y & Hdy & H). apply gen_ret in H. subst l.
      destruct (G2 l' (or_introl Hl)) as (D & S). apply gen_unique_scalars in Hl. destruct Hl as (_ & _ & _ & Dr).
      split; [|split; [|apply horizontal_apart, D]].
      + unfold lenZ, to_horizontal_multisegment. rewrite map_length, pairwise_length, isort_length. exact S.
      + intros s Hs. unfold to_horizontal_multisegment in Hs. apply in_map_iff in Hs. destruct Hs as ((a & b) & <- & Hin).
        destruct (pairwise_strict _ _ _ (isort_strict _ D) Hin) as (L & Ia & Ib). apply isort_in in Ia, Ib. cbn.
        split; [intros E; injection E as ->; revert L; apply Qlt_irrefl|].
        repeat split; apply drawable_in_range; first [exact Hdy|apply Dr; assumption]. }
  change MIN_CONTOUR_SIZE with 3%Z in H.
  destruct (match mx with None => true | Some m => 3 <=? m end)%Z eqn:E3.
  2: { destruct (Base H) as (B1 & B2 & B3). auto. }
  apply gen_alt in H. destruct H as [H|H]; [destruct (Base H) as (B1 & B2 & B3); auto|].
  clear Base G1 G2. apply gen_bind in H. destruct H as (vs & Hv & H).
  change (contour_vertices_to_edges vs) with (contour_segments vs) in H.
  apply gen_sub_sequence in H; [|exact Hm]. destruct H as ((S1 & S2) & rest & P). specialize (S2 _ eq_refl).
  assert (Hx3 : forall m, mx = Some m -> (Z.max mn 3 <= m)%Z).
  { intros m ->. specialize (Hx m eq_refl). apply Z.leb_le in E3. lia. }
  destruct (vertex_sequence_spec ctx xs (Some zs) (Z.max mn 3) mx vs Hh ltac:(lia) Hx3 Hv) as ((V1 & V2) & V3 & V4 & _ & _).
  assert (El : lenZ (contour_segments vs) = lenZ vs) by (unfold lenZ; rewrite segments_length; reflexivity).
  split; [split; [exact S1|]|split].
  - intros m Em. specialize (V2 m Em). lia.
  - intros s Hs. assert (Hin : In s (contour_segments vs)) by (apply (Permutation_in _ (Permutation_sym P)), in_or_app; left; exact Hs).
    destruct s as [a b]. apply segments_edge in Hin. cbn [seg_start seg_end].
    split; [apply V4, Hin|]. destruct (edge_in _ _ _ Hin) as (Ia & Ib). destruct (V3 a Ia), (V3 b Ib). auto.
  - apply gen_alt in Hv. destruct Hv as [Hv|Hv].
    + left. apply convex_strategy_spec in Hv; [|assumption|lia|assumption]. destruct Hv as (C & _).
      eapply apart_sub; [apply simple_apart, convex_simple, C|exact P].
    + destruct (simple_or_not vs) as [Sm|Sm].
      * left. eapply apart_sub; [apply simple_apart, Sm|exact P].
      * right. exists vs. split; [exact Hv|]. split; [exact Sm|]. exists rest. exact P.
Qed.
