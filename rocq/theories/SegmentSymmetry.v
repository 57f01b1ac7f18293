(** Pairs of segments have the symmetries of the square. *)
From Coq Require Import List Lia.
From Verif Require Import Base Prog Geometry Ctx Planar Spec SymmetrySpec QcTac ProgProofs SymmetryProofs SegmentSetProofs.
Import List ListNotations.
Local Open Scope Z_scope.

Section S.
Context (f : point -> point) (inv : forall p, f (f p) = p) (keeps : forall p a b, on_segment p a b -> on_segment (f p) (f a) (f b)).
Lemma inside_map p a b : inside p a b -> inside (f p) (f a) (f b).
Proof.
  intros (O & A & B). split; [apply keeps, O|]. split; intros E; [apply A|apply B]; rewrite <- (inv p), E; apply inv.
Qed.
Lemma meet_map a b c d : interiors_meet (Seg a b) (Seg c d) -> interiors_meet (Seg (f a) (f b)) (Seg (f c) (f d)).
Proof. intros (p & A & B). exists (f p). split; [apply (inside_map p a b), A|apply (inside_map p c d), B]. Qed.
Context (ctx : context) (Hull : forall l, is_hull l (ctx_hull ctx l)) (xs xs' : scalars) (ys ys' : option scalars).
Context (points : forall p, drawable_point xs ys p <-> drawable_point xs' ys' (f p)).
Lemma pairs_map mn w s w' s' : multisegments ctx xs ys mn (Some 2) = Ok (w, s) -> multisegments ctx xs' ys' mn (Some 2) = Ok (w', s') ->
  forall a b c d, generates s [Seg a b; Seg c d] <-> generates s' [Seg (f a) (f b); Seg (f c) (f d)].
Proof.
  intros H H' a b c d. rewrite (multisegments_pairs _ _ _ _ _ _ _ Hull H), (multisegments_pairs _ _ _ _ _ _ _ Hull H').
  assert (Inj : forall p q, f p = f q -> p = q) by (intros p q E; rewrite <- (inv p), E; apply inv).
  split; intros (a' & b' & c' & d' & E & N1 & N2 & Ap & D); injection E as <- <- <- <-; do 4 eexists; (split; [reflexivity|]).
  - split; [intros E; apply N1, Inj, E|]. split; [intros E; apply N2, Inj, E|]. split; [intros M; apply Ap; apply meet_map in M; rewrite !inv in M; exact M|]. rewrite <- !points. exact D.
  - rewrite <- !points in D. split; [intros ->; apply N1; reflexivity|]. split; [intros ->; apply N2; reflexivity|]. split; [intros M; apply Ap, meet_map, M|exact D].
Qed.
End S.
Lemma transpose_keeps p a b : on_segment p a b -> on_segment (transpose p) (transpose a) (transpose b).
Proof. intros (t & T0 & T1 & X & Y). exists t. cbn [transpose px py]. auto. Qed.
Lemma mirror_keeps p a b : on_segment p a b -> on_segment (mirror p) (mirror a) (mirror b).
Proof. intros (t & T0 & T1 & X & Y). exists t. cbn [mirror px py]. split; [exact T0|]. split; [exact T1|]. split; [rewrite X; ring|exact Y]. Qed.
