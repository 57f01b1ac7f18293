(** C100: what multisegments can generate, exactly. *)
From Coq Require Import Lia Permutation.
From Verif Require Import Base Prog Geometry Ctx Utils Spec SymmetrySpec Planar ProgProofs Reference ReferenceProofs SegmentSetProofs SymmetryProofs SegmentSymmetry PropertiesContours PropertiesGeometries PropertiesMixes.
Import List ListNotations.
Local Open Scope Z_scope.

(** ** The lists of an admitted size of drawable segments that neither cross nor overlap, and the lists of an admitted size of edges of a contour, in any order. *)
Theorem C100_multisegments : forall ctx xs ys mn mx w s l, (forall l, is_hull l (ctx_hull ctx l)) -> multisegments ctx xs ys mn mx = Ok (w, s) ->
  generates s l <-> size_ok (lenZ l) (Z.max mn 2) mx /\
    ((pairwise_apart l /\ forall t, In t l -> seg_start t <> seg_end t /\ drawable_point xs ys (seg_start t) /\ drawable_point xs ys (seg_end t)) \/
     exists w' s' vs rest, contours ctx xs ys (Z.max mn 3) mx = Ok (w', s') /\ generates s' vs /\ Permutation (contour_segments vs) (l ++ rest)).
Proof. exact multisegments_exactly. Qed.
Print Assumptions C100_multisegments.
(** ** Segments of a value in any order, all or some of them, are a value, unless they are too few. *)
Theorem C100_parts : forall ctx xs ys mn mx w s l l' rest, (forall l, is_hull l (ctx_hull ctx l)) -> multisegments ctx xs ys mn mx = Ok (w, s) ->
  generates s l -> Permutation l (l' ++ rest) -> Z.max mn 2 <= lenZ l' -> generates s l'.
Proof. exact multisegments_parts. Qed.
Print Assumptions C100_parts.
(** ** Two segments: no contours are involved. *)
Theorem C100_pairs : forall ctx xs ys mn w s l, (forall l, is_hull l (ctx_hull ctx l)) -> multisegments ctx xs ys mn (Some 2) = Ok (w, s) ->
  generates s l <-> exists a b c d, l = [Seg a b; Seg c d] /\ a <> b /\ c <> d /\ ~ interiors_meet (Seg a b) (Seg c d) /\
    drawable_point xs ys a /\ drawable_point xs ys b /\ drawable_point xs ys c /\ drawable_point xs ys d.
Proof. exact multisegments_pairs. Qed.
Print Assumptions C100_pairs.

(** ** So they have the symmetries of the square (C97). *)
Theorem C100_pairs_exchanged : forall ctx xs ys xs' ys' mn w s w' s', (forall l, is_hull l (ctx_hull ctx l)) -> exchanged xs ys xs' ys' ->
  multisegments ctx xs ys mn (Some 2) = Ok (w, s) -> multisegments ctx xs' ys' mn (Some 2) = Ok (w', s') ->
  forall a b c d, generates s [Seg a b; Seg c d] <-> generates s' [Seg (transpose a) (transpose b); Seg (transpose c) (transpose d)].
Proof.
  exact (fun ctx xs ys xs' ys' mn w s w' s' hull H => pairs_map transpose transpose_twice transpose_keeps ctx hull xs xs' ys ys' (exchanged_points xs ys xs' ys' H) mn w s w' s').
Qed.
Print Assumptions C100_pairs_exchanged.
Theorem C100_pairs_reversed : forall ctx xs ys xs' ys' mn w s w' s', (forall l, is_hull l (ctx_hull ctx l)) -> reversed xs ys xs' ys' ->
  multisegments ctx xs ys mn (Some 2) = Ok (w, s) -> multisegments ctx xs' ys' mn (Some 2) = Ok (w', s') ->
  forall a b c d, generates s [Seg a b; Seg c d] <-> generates s' [Seg (mirror a) (mirror b); Seg (mirror c) (mirror d)].
Proof.
  exact (fun ctx xs ys xs' ys' mn w s w' s' hull H => pairs_map mirror mirror_twice mirror_keeps ctx hull xs xs' ys ys' (reversed_points xs ys xs' ys' H) mn w s w' s').
Qed.
Print Assumptions C100_pairs_reversed.
Example C100_exchanged : exchanged (upto 3) (Some (upto 5)) (upto 5) (Some (upto 3)) /\ exists w s, multisegments reference (upto 3) (Some (upto 5)) 2 (Some 2) = Ok (w, s).
Proof. split; [split; intros q; reflexivity|do 2 eexists; reflexivity]. Qed.

(** The edges of a triangle, and two of them the other way round. *)
Example C100_occurs : (forall l, is_hull l (ctx_hull reference l)) /\
  let a := Pt (Qc_of_Z 0) (Qc_of_Z 0) in let b := Pt (Qc_of_Z 3) (Qc_of_Z 1) in let c := Pt (Qc_of_Z 2) (Qc_of_Z 2) in
  exists w s, multisegments reference (upto 3) None 2 None = Ok (w, s) /\ generates s [Seg a b; Seg b c; Seg c a] /\ generates s [Seg c a; Seg a b] /\
    contours reference (upto 3) None 3 (Some 2) = Raise ValueError /\ exists w' s', multisegments reference (upto 3) None 2 (Some 2) = Ok (w', s').
Proof.
  split; [exact reference_hull|]. intros a b c. do 2 eexists. split; [reflexivity|].
  assert (G : generates (Strategies.to_multisegment_strategy reference (upto 3) None 2 None) [Seg a b; Seg b c; Seg c a]).
  { apply (C100_multisegments reference (upto 3) None 2 None _ _ _ reference_hull eq_refl). split; [split; [vm_compute; discriminate|discriminate]|]. right.
    do 2 eexists. exists [a; b; c], []. split; [reflexivity|]. split; [|change (Permutation [Seg c a; Seg a b; Seg b c] [Seg a b; Seg b c; Seg c a]); apply (Permutation_app_comm [_] [_; _])].
    eapply (SizeApiProofs.contours_convex reference (upto 3) None 3 None); [reflexivity|reflexivity|]. eapply (SizeApiProofs.convex_triangle reference (upto 3) None 3 None); [reflexivity|lia|reflexivity|..];
      (split; apply gen_sampled_from; cbn; auto). }
  split; [exact G|]. split; [|split; [reflexivity|do 2 eexists; reflexivity]].
  apply (C100_parts reference (upto 3) None 2 None _ _ _ _ [Seg b c] reference_hull eq_refl G); [|vm_compute; discriminate].
  change (Permutation [Seg a b; Seg b c; Seg c a] [Seg c a; Seg a b; Seg b c]). apply (Permutation_app_comm [_; _] [_]).
Qed.
