(** Contours, multisegments, multicontours and polygons, for the public API. *)
From Verif Require Import Base Prog Geometry Ctx Utils Contracts Factories Strategies Planar Spec ProgProofs
  PlanarProofs QcTac GeomProofs EdgeProofs ConvexProofs StarProofs SeparationProofs MultiProofs ContourProofs SequenceProofs.

Lemma contours_spec ctx xs ys mn mx w s vs : (forall l, is_hull l (ctx_hull ctx l)) ->
  contours ctx xs ys mn mx = Ok (w, s) -> generates s vs ->
  size_ok (lenZ vs) (Z.max mn 3) mx
  /\ (forall p, In p vs -> in_drawable_range xs (px p) /\ in_drawable_range (ordinates xs ys) (py p))
  /\ (forall a b, contour_edge vs a b -> a <> b) /\ inner_strict vs
  /\ (convex_ccw vs \/ forall p, In p vs -> drawable_point xs ys p).
Proof.
  intros Hh H. unfold contours in H. validate; try discriminate. injection H as _ <-.
  apply vertex_sequence_spec; [exact Hh|unfold MIN_CONTOUR_SIZE, CONCAVE, CONVEX; lia|apply clamped_range; assumption].
Qed.
Lemma contours_sizes ctx xs ys mn mx w s vs : (forall l, is_hull l (ctx_hull ctx l)) ->
  contours ctx xs ys mn mx = Ok (w, s) -> generates s vs ->
  size_ok (lenZ vs) (Z.max mn 3) mx
  /\ (forall p, In p vs -> in_drawable_range xs (px p) /\ in_drawable_range (ordinates xs ys) (py p))
  /\ (convex_ccw vs \/ forall p, In p vs -> drawable_point xs ys p).
Proof. intros Hh H Hg. destruct (contours_spec _ _ _ _ _ _ _ _ Hh H Hg) as (H1 & H2 & _ & _ & H5). auto. Qed.
Lemma contours_angles ctx xs ys mn mx w s vs : (forall l, is_hull l (ctx_hull ctx l)) ->
  contours ctx xs ys mn mx = Ok (w, s) -> generates s vs ->
  (forall a b, contour_edge vs a b -> a <> b) /\ inner_strict vs.
Proof. intros Hh H Hg. destruct (contours_spec _ _ _ _ _ _ _ _ Hh H Hg) as (_ & _ & H3 & H4 & _). auto. Qed.

(** A triangle is simple. *)
Lemma cross_in_seg a b c p : on_segment p a b -> ~ collinear a b c ->
  forall q, on_segment q b c -> p = q -> p = b.
Proof.
  intros (t & T0 & T1 & Tx & Ty) N q (u & U0 & U1 & Ux & Uy) E. subst q.
  assert (Hu : (u * cross a b c = 0)%Qc).
  { transitivity ((px b - px a) * (py p - py a) - (py b - py a) * (px p - px a))%Qc.
    - rewrite Ux, Uy. unfold cross. ring.
    - rewrite Tx, Ty. ring. }
  apply Qcmult_integral in Hu. destruct Hu as [-> |Hu]; [|contradiction]. apply point_ext; [rewrite Ux|rewrite Uy]; ring.
Qed.
Lemma triangle_simple a b c : ~ collinear a b c -> simple [a; b; c].
Proof.
  intros N. assert (Nab : a <> b) by (intros ->; apply N; unfold collinear, cross; ring).
  assert (Nbc : b <> c) by (intros ->; apply N; unfold collinear, cross; ring).
  assert (Nac : a <> c) by (intros ->; apply N; unfold collinear, cross; ring).
  assert (N1 : ~ collinear b c a) by (intros K; apply N; unfold collinear, cross in *; rewrite <- K; ring).
  assert (N2 : ~ collinear c a b) by (intros K; apply N; unfold collinear, cross in *; rewrite <- K; ring).
  assert (K : forall x y z, ~ collinear x y z -> ~ interiors_meet (Seg x y) (Seg y z)).
  { intros x y z C (p & (H1 & _ & H2) & (H3 & _)). cbn in *. apply H2. eapply cross_in_seg; [exact H1|exact C|exact H3|reflexivity]. }
  assert (K' : forall x y z, ~ collinear x y z -> ~ interiors_meet (Seg y z) (Seg x y)).
  { intros x y z C M. apply (K x y z C). apply SegmentProofs.interiors_meet_sym, M. }
  split.
  - repeat constructor; cbn; intuition congruence.
  - intros x y u v H1 H2 Ne. apply segments_edge in H1, H2. cbn in H1, H2.
    destruct H1 as [H1|[H1|[H1|[]]]]; injection H1 as <- <-; destruct H2 as [H2|[H2|[H2|[]]]]; injection H2 as <- <-;
      first [congruence|apply K; assumption|apply K'; assumption].
Qed.
Lemma contours_three ctx xs ys mn mx w s vs : (forall l, is_hull l (ctx_hull ctx l)) ->
  contours ctx xs ys mn mx = Ok (w, s) -> generates s vs -> lenZ vs = 3%Z -> simple vs.
Proof.
  intros Hh H Hg L. destruct (contours_spec _ _ _ _ _ _ _ _ Hh H Hg) as (_ & _ & _ & I & _).
  destruct vs as [|a [|b [|c [|d l]]]]; unfold lenZ in L; cbn [Datatypes.length] in L; try lia.
  apply triangle_simple, (I 0%nat); reflexivity.
Qed.

Lemma concave_contours_spec ctx xs ys mn mx w s vs :
  concave_contours ctx xs ys mn mx = Ok (w, s) -> generates s vs ->
  size_ok (lenZ vs) (Z.max mn 4) mx /\ (forall p, In p vs -> drawable_point xs ys p)
  /\ ~ convex_ccw vs
  /\ (strict vs -> (exists a b c, contour_turn vs a b c /\ left_turn a b c) /\
                   (exists a b c, contour_turn vs a b c /\ right_turn a b c)).
Proof.
  intros H. unfold concave_contours in H. validate; try discriminate. injection H as _ <-.
  apply concave_strategy_spec. unfold CONCAVE. lia.
Qed.

Lemma multisegments_spec ctx xs ys mn mx w s l : (forall l, is_hull l (ctx_hull ctx l)) ->
  multisegments ctx xs ys mn mx = Ok (w, s) -> generates s l ->
  size_ok (lenZ l) (Z.max mn 2) mx
  /\ (forall s, In s l -> seg_start s <> seg_end s
        /\ in_drawable_range xs (px (seg_start s)) /\ in_drawable_range xs (px (seg_end s))
        /\ in_drawable_range (ordinates xs ys) (py (seg_start s)) /\ in_drawable_range (ordinates xs ys) (py (seg_end s)))
  /\ (pairwise_apart l
      \/ exists w' s' vs, contours ctx xs ys (Z.max mn 3) mx = Ok (w', s') /\ generates s' vs
           /\ ~ simple vs /\ exists rest, Permutation (contour_segments vs) (l ++ rest)).
Proof.
  intros Hh H. unfold multisegments in H. validate; try discriminate. injection H as _ <-. intros Hg.
  change MIN_MULTISEGMENT_SIZE with 2%Z in *.
  apply segment_sequence_spec in Hg; [|exact Hh|lia|apply clamped_range; assumption].
  destruct Hg as (H1 & H2 & H3). split; [exact H1|]. split; [exact H2|]. destruct H3 as [H3|(vs & Hv & Hs & P)]; [left; exact H3|right].
  unfold contours. change MIN_CONTOUR_SIZE with 3%Z.
  replace (Z.max (Z.max mn 2) 3) with (Z.max (Z.max mn 3) 3) in Hv by lia.
  assert (Hv' : generates (to_vertex_sequence_strategy ctx xs ys (Z.max (Z.max mn 3) 3) mx) vs).
  { apply gen_alt. right. destruct ys; exact Hv. }
  assert (V : validate_sizes (Z.max mn 3) mx 3 "min_size" = Ok (if (Z.max mn 3 <? 3)%Z then ["min_size"%string] else [])).
  { unfold validate_sizes. destruct mx as [m|]; [|reflexivity].
    assert (L : (Z.max (Z.max mn 2) 3 <= m)%Z).
    { apply (vertex_sequences_spec ctx xs (Some (ordinates xs ys))) in Hv; [|lia]. destruct Hv as ((L1 & L2) & _). specialize (L2 m eq_refl). lia. }
    replace (m <? 3)%Z with false by lia. replace (m <? Z.max mn 3)%Z with false by lia. replace (Z.max mn 3 <? 0)%Z with false by lia. reflexivity. }
  rewrite V. cbn [rbind]. eexists _, _, vs. split; [reflexivity|]. auto.
Qed.
Lemma multisegments_sizes ctx xs ys mn mx w s l : (forall l, is_hull l (ctx_hull ctx l)) ->
  multisegments ctx xs ys mn mx = Ok (w, s) -> generates s l -> size_ok (lenZ l) (Z.max mn 2) mx.
Proof. intros Hh H Hg. apply (multisegments_spec _ _ _ _ _ _ _ _ Hh H Hg). Qed.
Lemma multisegments_ends ctx xs ys mn mx w s l : (forall l, is_hull l (ctx_hull ctx l)) ->
  multisegments ctx xs ys mn mx = Ok (w, s) -> generates s l ->
  forall s, In s l -> seg_start s <> seg_end s
    /\ in_drawable_range xs (px (seg_start s)) /\ in_drawable_range xs (px (seg_end s))
    /\ in_drawable_range (ordinates xs ys) (py (seg_start s)) /\ in_drawable_range (ordinates xs ys) (py (seg_end s)).
Proof. intros Hh H Hg. apply (multisegments_spec _ _ _ _ _ _ _ _ Hh H Hg). Qed.
Lemma multisegments_apart ctx xs ys mn mx w s l : (forall l, is_hull l (ctx_hull ctx l)) ->
  multisegments ctx xs ys mn mx = Ok (w, s) -> generates s l ->
  pairwise_apart l
  \/ exists w' s' vs, contours ctx xs ys (Z.max mn 3) mx = Ok (w', s') /\ generates s' vs
       /\ ~ simple vs /\ exists rest, Permutation (contour_segments vs) (l ++ rest).
Proof. intros Hh H Hg. apply (multisegments_spec _ _ _ _ _ _ _ _ Hh H Hg). Qed.

Lemma multicontours_spec ctx xs ys mn mx cmn cmx w s mc :
  multicontours ctx xs ys mn mx cmn cmx = Ok (w, s) -> generates s mc ->
  size_ok (lenZ mc) (Z.max mn 2) mx /\ (forall vs : contour, In vs mc -> size_ok (lenZ vs) (Z.max cmn 3) cmx) /\
  (forall vs p, In vs mc -> In p vs -> drawable_point xs ys p) /\ ForallOrdPairs parted mc.
Proof.
  intros H. unfold multicontours in H. validate; try discriminate. injection H as _ <-.
  apply multicontour_strategy_spec. change MIN_CONTOUR_SIZE with 3%Z. lia.
Qed.
Lemma multicontours_sizes ctx xs ys mn mx cmn cmx w s mc :
  multicontours ctx xs ys mn mx cmn cmx = Ok (w, s) -> generates s mc ->
  size_ok (lenZ mc) (Z.max mn 2) mx /\ (forall vs : contour, In vs mc -> size_ok (lenZ vs) (Z.max cmn 3) cmx) /\
  forall vs p, In vs mc -> In p vs -> drawable_point xs ys p.
Proof. intros H Hg. destruct (multicontours_spec _ _ _ _ _ _ _ _ _ _ H Hg) as (H1 & H2 & H3 & _). auto. Qed.
Lemma ordered_pairs_nth {A} (R : A -> A -> Prop) l : (forall x y, R x y -> R y x) -> ForallOrdPairs R l ->
  forall i j x y, nth_error l i = Some x -> nth_error l j = Some y -> i <> j -> R x y.
Proof.
  intros Sy F. assert (K : forall i j x y, nth_error l i = Some x -> nth_error l j = Some y -> (i < j)%nat -> R x y).
  { induction F as [|z l Hz F IH]; intros i j x y Hi Hj L; [destruct i; discriminate|].
    destruct i as [|i], j as [|j]; try lia.
    - injection Hi as ->. change (nth_error l j = Some y) in Hj. apply nth_error_In in Hj. rewrite Forall_forall in Hz. apply Hz, Hj.
    - apply (IH i j); [exact Hi|exact Hj|lia]. }
  intros i j x y Hi Hj N. destruct (Nat.lt_ge_cases i j) as [L|L]; [apply (K i j); assumption|].
  apply Sy, (K j i); [assumption..|lia].
Qed.
Lemma apart_sym vs ws : edges_apart vs ws -> edges_apart ws vs.
Proof. intros H a b c d Hab Hcd M. apply (H c d a b Hcd Hab). apply SegmentProofs.interiors_meet_sym, M. Qed.
Lemma once_sym vs ws : meet_at_most_once vs ws -> meet_at_most_once ws vs.
Proof. intros H p q H1 H2 H3 H4. apply H; assumption. Qed.
Lemma parted_pairs (l : list contour) : ForallOrdPairs parted l ->
  forall i j vs ws, nth_error l i = Some vs -> nth_error l j = Some ws -> i <> j -> edges_apart vs ws /\ meet_at_most_once vs ws.
Proof.
  intros F. apply ordered_pairs_nth.
  - intros x y (H1 & H2). split; [apply apart_sym, H1|apply once_sym, H2].
  - revert F. apply ForallOrdPairs_impl. intros x y H. split; [apply parted_apart, H|apply parted_once, H].
Qed.
Lemma multicontours_apart ctx xs ys mn mx cmn cmx w s mc :
  multicontours ctx xs ys mn mx cmn cmx = Ok (w, s) -> generates s mc ->
  forall i j vs ws, nth_error mc i = Some vs -> nth_error mc j = Some ws -> i <> j -> edges_apart vs ws /\ meet_at_most_once vs ws.
Proof. intros H Hg. apply parted_pairs, (multicontours_spec _ _ _ _ _ _ _ _ _ _ H Hg). Qed.

Lemma polygons_spec ctx xs ys mn mx hmn hmx smn smx w s p :
  polygons ctx xs ys mn mx hmn hmx smn smx = Ok (w, s) -> generates s p ->
  size_ok (lenZ (border p)) (Z.max mn 3) mx /\ size_ok (lenZ (holes p)) (Z.max hmn 0) hmx /\
  (forall vs : contour, In vs (holes p) -> size_ok (lenZ vs) (Z.max smn 3) smx) /\
  (forall q, In q (border p) -> drawable_point xs ys q) /\
  (forall vs q, In vs (holes p) -> In q vs -> drawable_point xs ys q) /\
  ForallOrdPairs parted (holes p).
Proof.
  intros H. unfold polygons in H. validate; try discriminate. injection H as _ <-.
  apply polygon_strategy_spec. change MIN_CONTOUR_SIZE with 3%Z. lia.
Qed.
Lemma polygons_sizes ctx xs ys mn mx hmn hmx smn smx w s p :
  polygons ctx xs ys mn mx hmn hmx smn smx = Ok (w, s) -> generates s p ->
  size_ok (lenZ (border p)) (Z.max mn 3) mx /\ size_ok (lenZ (holes p)) (Z.max hmn 0) hmx /\
  (forall vs : contour, In vs (holes p) -> size_ok (lenZ vs) (Z.max smn 3) smx) /\
  (forall q, In q (border p) -> drawable_point xs ys q) /\
  forall vs q, In vs (holes p) -> In q vs -> drawable_point xs ys q.
Proof. intros H Hg. destruct (polygons_spec _ _ _ _ _ _ _ _ _ _ _ _ H Hg) as (H1 & H2 & H3 & H4 & H5 & _). auto 6. Qed.
Lemma polygons_holes_apart ctx xs ys mn mx hmn hmx smn smx w s p :
  polygons ctx xs ys mn mx hmn hmx smn smx = Ok (w, s) -> generates s p ->
  forall i j vs ws, nth_error (holes p) i = Some vs -> nth_error (holes p) j = Some ws -> i <> j ->
    edges_apart vs ws /\ meet_at_most_once vs ws.
Proof. intros H Hg. apply parted_pairs, (polygons_spec _ _ _ _ _ _ _ _ _ _ _ _ H Hg). Qed.
