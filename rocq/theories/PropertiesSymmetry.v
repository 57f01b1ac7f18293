(** C97: exchanging the axes, or reversing one, does so with the generated points, segments, boxes, rectangles and triangles. *)
From Verif Require Import Base Prog Geometry Planar Spec SymmetrySpec ProgProofs SymmetryProofs PropertiesApi.
Import List ListNotations.
Local Open Scope Z_scope.

(** ** C97, exchanged axes. *)
Theorem C97_points_exchanged : forall xs ys xs' ys' w s w' s', exchanged xs ys xs' ys' ->
  points xs ys = Ok (w, s) -> points xs' ys' = Ok (w', s') ->
  forall p, generates s p <-> generates s' (transpose p).
Proof. exact (fun xs ys xs' ys' w s w' s' H => points_map xs xs' ys ys' transpose (exchanged_points xs ys xs' ys' H) w s w' s'). Qed.
Print Assumptions C97_points_exchanged.
Theorem C97_multipoints_exchanged : forall xs ys xs' ys' mn mx w s w' s', exchanged xs ys xs' ys' ->
  multipoints xs ys mn mx = Ok (w, s) -> multipoints xs' ys' mn mx = Ok (w', s') ->
  forall l, generates s l <-> generates s' (map transpose l).
Proof.
  exact (fun xs ys xs' ys' mn mx w s w' s' H =>
    multipoints_map xs xs' ys ys' transpose transpose_inj (exchanged_points xs ys xs' ys' H) mn mx w s w' s').
Qed.
Print Assumptions C97_multipoints_exchanged.
Theorem C97_segments_exchanged : forall xs ys xs' ys' w s w' s', exchanged xs ys xs' ys' ->
  segments xs ys = Ok (w, s) -> segments xs' ys' = Ok (w', s') ->
  forall a b, generates s (Seg a b) <-> generates s' (Seg (transpose a) (transpose b)).
Proof.
  exact (fun xs ys xs' ys' w s w' s' H =>
    segments_map xs xs' ys ys' transpose transpose_inj (exchanged_points xs ys xs' ys' H) w s w' s').
Qed.
Print Assumptions C97_segments_exchanged.
Theorem C97_boxes_exchanged : forall xs ys xs' ys' w s w' s', exchanged xs ys xs' ys' ->
  boxes xs ys = Ok (w, s) -> boxes xs' ys' = Ok (w', s') ->
  forall x1 x2 y1 y2, generates s (Box x1 x2 y1 y2) <-> generates s' (Box y1 y2 x1 x2).
Proof. exact (fun xs ys xs' ys' w s w' s' H => boxes_exchanged xs ys xs' ys' H w s w' s'). Qed.
Print Assumptions C97_boxes_exchanged.
Theorem C97_rectangular_contours_exchanged : forall xs ys xs' ys' w s w' s', exchanged xs ys xs' ys' ->
  rectangular_contours xs ys = Ok (w, s) -> rectangular_contours xs' ys' = Ok (w', s') ->
  forall a b c d, generates s [a; b; c; d] <-> generates s' [transpose a; transpose d; transpose c; transpose b].
Proof. exact (fun xs ys xs' ys' w s w' s' H => rectangular_exchanged xs ys xs' ys' H w s w' s'). Qed.
Print Assumptions C97_rectangular_contours_exchanged.
Theorem C97_triangular_contours_exchanged : forall xs ys xs' ys' w s w' s', exchanged xs ys xs' ys' ->
  triangular_contours xs ys = Ok (w, s) -> triangular_contours xs' ys' = Ok (w', s') ->
  forall a b c, generates s [a; b; c] <-> generates s' [transpose a; transpose c; transpose b].
Proof.
  exact (fun xs ys xs' ys' w s w' s' H =>
    triangular_map xs xs' ys ys' transpose (exchanged_points xs ys xs' ys' H) transposed_turn w s w' s').
Qed.
Print Assumptions C97_triangular_contours_exchanged.

(** ** C97, reversed abscissas. *)
Theorem C97_points_reversed : forall xs ys xs' ys' w s w' s', reversed xs ys xs' ys' ->
  points xs ys = Ok (w, s) -> points xs' ys' = Ok (w', s') ->
  forall p, generates s p <-> generates s' (mirror p).
Proof. exact (fun xs ys xs' ys' w s w' s' H => points_map xs xs' ys ys' mirror (reversed_points xs ys xs' ys' H) w s w' s'). Qed.
Print Assumptions C97_points_reversed.
Theorem C97_multipoints_reversed : forall xs ys xs' ys' mn mx w s w' s', reversed xs ys xs' ys' ->
  multipoints xs ys mn mx = Ok (w, s) -> multipoints xs' ys' mn mx = Ok (w', s') ->
  forall l, generates s l <-> generates s' (map mirror l).
Proof.
  exact (fun xs ys xs' ys' mn mx w s w' s' H =>
    multipoints_map xs xs' ys ys' mirror mirror_inj (reversed_points xs ys xs' ys' H) mn mx w s w' s').
Qed.
Print Assumptions C97_multipoints_reversed.
Theorem C97_segments_reversed : forall xs ys xs' ys' w s w' s', reversed xs ys xs' ys' ->
  segments xs ys = Ok (w, s) -> segments xs' ys' = Ok (w', s') ->
  forall a b, generates s (Seg a b) <-> generates s' (Seg (mirror a) (mirror b)).
Proof.
  exact (fun xs ys xs' ys' w s w' s' H =>
    segments_map xs xs' ys ys' mirror mirror_inj (reversed_points xs ys xs' ys' H) w s w' s').
Qed.
Print Assumptions C97_segments_reversed.
Theorem C97_boxes_reversed : forall xs ys xs' ys' w s w' s', reversed xs ys xs' ys' ->
  boxes xs ys = Ok (w, s) -> boxes xs' ys' = Ok (w', s') ->
  forall x1 x2 y1 y2, generates s (Box x1 x2 y1 y2) <-> generates s' (Box (- x2)%Qc (- x1)%Qc y1 y2).
Proof. exact (fun xs ys xs' ys' w s w' s' H => boxes_reversed xs ys xs' ys' H w s w' s'). Qed.
Print Assumptions C97_boxes_reversed.
Theorem C97_rectangular_contours_reversed : forall xs ys xs' ys' w s w' s', reversed xs ys xs' ys' ->
  rectangular_contours xs ys = Ok (w, s) -> rectangular_contours xs' ys' = Ok (w', s') ->
  forall a b c d, generates s [a; b; c; d] <-> generates s' [mirror b; mirror a; mirror d; mirror c].
Proof. exact (fun xs ys xs' ys' w s w' s' H => rectangular_reversed xs ys xs' ys' H w s w' s'). Qed.
Print Assumptions C97_rectangular_contours_reversed.
Theorem C97_triangular_contours_reversed : forall xs ys xs' ys' w s w' s', reversed xs ys xs' ys' ->
  triangular_contours xs ys = Ok (w, s) -> triangular_contours xs' ys' = Ok (w', s') ->
  forall a b c, generates s [a; b; c] <-> generates s' [mirror a; mirror c; mirror b].
Proof.
  exact (fun xs ys xs' ys' w s w' s' H =>
    triangular_map xs xs' ys ys' mirror (reversed_points xs ys xs' ys' H) mirrored_turn w s w' s').
Qed.
Print Assumptions C97_triangular_contours_reversed.

(** A triangle over the abscissas 0, 1, 2 and the ordinates 3, 5, and what becomes of it. *)
Example C97_occurs :
  let xs := Sampled [Q2Qc 0; Q2Qc 1; Q2Qc 2] in
  let xs' := Sampled [Q2Qc (-2 # 1); Q2Qc (-1 # 1); Q2Qc 0] in
  let ys := Sampled [Q2Qc 3; Q2Qc 5] in
  exchanged xs (Some ys) ys (Some xs) /\ reversed xs (Some ys) xs' (Some ys) /\
  (exists w s, triangular_contours xs (Some ys) = Ok (w, s) /\
     generates s [Pt (Q2Qc 0) (Q2Qc 3); Pt (Q2Qc 2) (Q2Qc 3); Pt (Q2Qc 1) (Q2Qc 5)]) /\
  (exists w s, triangular_contours ys (Some xs) = Ok (w, s) /\
     generates s [Pt (Q2Qc 3) (Q2Qc 0); Pt (Q2Qc 5) (Q2Qc 1); Pt (Q2Qc 3) (Q2Qc 2)]) /\
  (exists w s, triangular_contours xs' (Some ys) = Ok (w, s) /\
     generates s [Pt (Q2Qc 0) (Q2Qc 3); Pt (Q2Qc (-1 # 1)) (Q2Qc 5); Pt (Q2Qc (-2 # 1)) (Q2Qc 3)]).
Proof.
  intros xs xs' ys.
  assert (X : exchanged xs (Some ys) ys (Some xs)) by (split; intros q; reflexivity).
  assert (R : reversed xs (Some ys) xs' (Some ys)).
  { split; intros q; [|reflexivity]. unfold drawable, xs, xs', draw_scalar. rewrite !gen_sampled_from. cbn [In]. split.
    - intros [<-|[<-|[<-|[]]]]; [right; right; left|right; left|left]; apply Qc_is_canon; reflexivity.
    - intros [H|[H|[H|[]]]]; rewrite <- (Qcopp_involutive q), <- H; [right; right; left|right; left|left]; apply Qc_is_canon; reflexivity. }
  assert (T : exists w s, triangular_contours xs (Some ys) = Ok (w, s) /\
     generates s [Pt (Q2Qc 0) (Q2Qc 3); Pt (Q2Qc 2) (Q2Qc 3); Pt (Q2Qc 1) (Q2Qc 5)]).
  { eexists; eexists; split; [reflexivity|]. apply (C11_triangular_contours _ _ [] _ eq_refl).
    eexists; eexists; eexists; split; [reflexivity|]. split; [reflexivity|].
    repeat split; apply gen_sampled_from; cbn; auto. }
  repeat (split; [assumption|]). destruct T as (w & s & E & G). split.
  - eexists; eexists; split; [reflexivity|].
    exact (proj1 (C97_triangular_contours_exchanged _ _ _ _ _ _ [] _ X E eq_refl _ _ _) G).
  - eexists; eexists; split; [reflexivity|].
    replace (Pt (Q2Qc 0) (Q2Qc 3)) with (mirror (Pt (Q2Qc 0) (Q2Qc 3))) by reflexivity.
    replace (Pt (Q2Qc (-1 # 1)) (Q2Qc 5)) with (mirror (Pt (Q2Qc 1) (Q2Qc 5))) by (unfold mirror; cbn [px py]; f_equal; apply Qc_is_canon; reflexivity).
    replace (Pt (Q2Qc (-2 # 1)) (Q2Qc 3)) with (mirror (Pt (Q2Qc 2) (Q2Qc 3))) by (unfold mirror; cbn [px py]; f_equal; apply Qc_is_canon; reflexivity).
    exact (proj1 (C97_triangular_contours_reversed _ _ _ _ _ _ [] _ R E eq_refl _ _ _) G).
Qed.
