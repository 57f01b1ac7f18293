(** C80: contours and multisegments of every size; C81: values that are always generated. *)
From Coq Require Import Znumtheory.
From Verif Require Import Base Prog Geometry Ctx Utils Contracts Planar Spec StarSpec SizeSpec RelaxSpec
  Factories Strategies ProgProofs SizeApiProofs Reference ReferenceProofs StarOrder PropertiesContours PropertiesMixes.
Import List ListNotations.
Local Open Scope Z_scope.

(** ** C80: given enough coordinates, a convex contour of exactly [n] vertices can be generated,
    if [n] is the minimum, or at most 4, or there is a prime number between [n] and the maximum. *)
Theorem C80_convex_contours : forall ctx xs ys n mn mx w s,
  orders_directions ctx -> total_directions ctx -> spans_hulls ctx ->
  3 <= n -> draws_upto xs ys (4 * n * n) -> size_ok n mn mx -> (n <= 4 \/ mn = n) \/ prime_between n mx ->
  convex_contours ctx xs ys mn mx = Ok (w, s) -> exists vs, generates s vs /\ lenZ vs = n.
Proof. exact (fun ctx xs ys n mn mx w s D T H => convex_reach ctx xs ys D T H n mn mx w s). Qed.
Print Assumptions C80_convex_contours.
Theorem C80_contours : forall ctx xs ys n mn mx w s,
  orders_directions ctx -> total_directions ctx -> spans_hulls ctx ->
  3 <= n -> draws_upto xs ys (4 * n * n) -> size_ok n mn mx -> (n <= 4 \/ mn = n) \/ prime_between n mx ->
  contours ctx xs ys mn mx = Ok (w, s) -> exists vs, generates s vs /\ lenZ vs = n /\ convex_ccw vs.
Proof. exact (fun ctx xs ys n mn mx w s D T H => contours_reach ctx xs ys D T H n mn mx w s). Qed.
Print Assumptions C80_contours.
Theorem C80_multisegments : forall ctx xs ys n mn mx w s, draws_upto xs ys n -> size_ok n (Z.max mn 2) mx ->
  multisegments ctx xs ys mn mx = Ok (w, s) -> exists l, generates s l /\ lenZ l = n.
Proof. exact multisegments_reach. Qed.
Print Assumptions C80_multisegments.

Lemma upto_draws k : draws_upto (upto k) None (Z.of_nat k).
Proof.
  intros z Hz. assert (G : drawable (upto k) (Qc_of_Z z)); [|split; exact G]. unfold drawable, upto. apply gen_sampled_from.
  apply in_map_iff. exists (Z.to_nat z). split; [f_equal; lia|]. apply in_seq. lia.
Qed.
(** The contracts are those of the reference libraries, and the calls with an unbounded and with
    an exact size are accepted for convex contours of 11 vertices. *)
Example C80_eleven : orders_directions reference /\ total_directions reference /\ spans_hulls reference /\ draws_upto (upto 484) None (4 * 11 * 11) /\
  prime_between 11 None /\ size_ok 11 3 None /\ size_ok 11 11 (Some 11) /\
  exists w s w' s', convex_contours reference (upto 484) None 3 None = Ok (w, s) /\ convex_contours reference (upto 484) None 11 (Some 11) = Ok (w', s').
Proof.
  split; [exact reference_directions|]. split; [exact reference_total|]. split; [exact reference_spans|]. split; [exact (upto_draws 484)|].
  split; [intros m E; discriminate|]. split; [split; [lia|intros m E; discriminate]|]. split; [split; [lia|intros m E; injection E as <-; lia]|].
  do 4 eexists. split; reflexivity.
Qed.

(** ** C81: every drawable triangle and rectangle is a convex contour and a contour, as long as the
    bounds allow its size; every set of drawable segments that do not cross or overlap is a multisegment. *)
Theorem C81_convex_triangles : forall ctx xs ys mn mx w s a b c, convex_contours ctx xs ys mn mx = Ok (w, s) ->
  mn <= 3 -> left_turn a b c -> drawable_point xs ys a -> drawable_point xs ys b -> drawable_point xs ys c -> generates s [a; b; c].
Proof. exact convex_triangle. Qed.
Print Assumptions C81_convex_triangles.
Theorem C81_convex_triangles_only : forall ctx xs ys mn w s vs, convex_contours ctx xs ys mn (Some 3) = Ok (w, s) ->
  generates s vs <-> exists a b c, vs = [a; b; c] /\ left_turn a b c /\ drawable_point xs ys a /\ drawable_point xs ys b /\ drawable_point xs ys c.
Proof. exact convex_triangles_only. Qed.
Print Assumptions C81_convex_triangles_only.
Theorem C81_convex_rectangles : forall ctx xs ys mn mx w s x1 x2 y1 y2, convex_contours ctx xs ys mn mx = Ok (w, s) ->
  size_ok 4 mn mx -> (x1 < x2)%Qc -> (y1 < y2)%Qc -> drawable xs x1 -> drawable xs x2 ->
  drawable (ordinates xs ys) y1 -> drawable (ordinates xs ys) y2 -> generates s [Pt x1 y1; Pt x2 y1; Pt x2 y2; Pt x1 y2].
Proof. exact convex_rectangle. Qed.
Print Assumptions C81_convex_rectangles.
Theorem C81_convex_contours_are_contours : forall ctx xs ys mn mx w s w' s', contours ctx xs ys mn mx = Ok (w, s) ->
  convex_contours ctx xs ys mn mx = Ok (w', s') -> covered s' s.
Proof. exact (fun ctx xs ys mn mx w s w' s' H H' vs => contours_convex ctx xs ys mn mx w s w' s' vs H H'). Qed.
Print Assumptions C81_convex_contours_are_contours.
Theorem C81_multisegments : forall ctx xs ys mn mx w s l, multisegments ctx xs ys mn mx = Ok (w, s) ->
  size_ok (lenZ l) (Z.max mn 2) mx -> pairwise_apart l ->
  (forall t, In t l -> seg_start t <> seg_end t /\ drawable_point xs ys (seg_start t) /\ drawable_point xs ys (seg_end t)) -> generates s l.
Proof. exact multisegments_complete. Qed.
Print Assumptions C81_multisegments.

(** Two parallel segments; a triangle and a rectangle. *)
Example C81_cases : exists w s w' s', multisegments reference (upto 3) None 2 None = Ok (w, s) /\ convex_contours reference (upto 3) None 3 (Some 4) = Ok (w', s') /\
  generates s [Seg (Pt (Qc_of_Z 0) (Qc_of_Z 0)) (Pt (Qc_of_Z 3) (Qc_of_Z 0)); Seg (Pt (Qc_of_Z 1) (Qc_of_Z 1)) (Pt (Qc_of_Z 2) (Qc_of_Z 1))] /\
  generates s' (ints [(0, 0); (3, 1); (2, 2)]) /\ generates s' (ints [(0, 1); (3, 1); (3, 2); (0, 2)]).
Proof.
  pose proof (upto_draws 3) as D.
  assert (DP : forall x y, 0 <= x <= 3 -> 0 <= y <= 3 -> drawable_point (upto 3) None (Pt (Qc_of_Z x) (Qc_of_Z y))) by (intros x y Hx Hy; split; apply D; assumption).
  do 4 eexists. split; [reflexivity|]. split; [reflexivity|]. split; [|split].
  - eapply C81_multisegments with (mn := 2) (mx := None) (ctx := reference); [reflexivity|split; [cbn; lia|intros m E; discriminate]| |].
    + apply SequenceProofs.no_cross_apart. reflexivity.
    + intros t [<-|[<-|[]]]; (split; [discriminate|]); split; apply DP; lia.
  - eapply C81_convex_triangles with (mn := 3) (mx := Some 4) (ctx := reference); [reflexivity|lia|reflexivity|apply DP; cbn [fst snd]; lia..].
  - eapply C81_convex_rectangles with (mn := 3) (mx := Some 4) (ctx := reference); [reflexivity|split; [lia|intros m E; injection E as <-; lia]|reflexivity|reflexivity|apply D; cbn [fst snd]; lia..].
Qed.
