(** C89: what can be said of coordinates that are computed rather than drawn. *)
From Verif Require Import Base Prog Geometry Ctx Planar Spec MixSpec LatticeSpec Factories Strategies ProgProofs GeneralCoordinates LatticeProofs Reference ReferenceProofs
  PropertiesContours PropertiesBounds.
Import List ListNotations.
Local Open Scope Z_scope.

(** ** C89: if a set of numbers contains the differences of its members and all the abscissae that can
    be drawn, it contains the abscissae of all vertices; the same for the ordinates. *)
Theorem C89_convex_contours : forall ctx G H xs ys mn mx w s vs, (forall l, is_hull l (ctx_hull ctx l)) ->
  closed_by_differences G -> closed_by_differences H -> draws_from G xs -> draws_from H (ordinates xs ys) ->
  convex_contours ctx xs ys mn mx = Ok (w, s) -> generates s vs -> forall p, In p vs -> G (px p) /\ H (py p).
Proof. exact (fun ctx G H xs ys mn mx w s vs Hh HG HH Dx Dy => convex_contours_in G H HG HH ctx Hh xs ys Dx Dy mn mx w s vs). Qed.
Print Assumptions C89_convex_contours.
Theorem C89_contours : forall ctx G H xs ys mn mx w s vs, (forall l, is_hull l (ctx_hull ctx l)) ->
  closed_by_differences G -> closed_by_differences H -> draws_from G xs -> draws_from H (ordinates xs ys) ->
  contours ctx xs ys mn mx = Ok (w, s) -> generates s vs -> forall p, In p vs -> G (px p) /\ H (py p).
Proof. exact (fun ctx G H xs ys mn mx w s vs Hh HG HH Dx Dy => contours_in G H HG HH ctx Hh xs ys Dx Dy mn mx w s vs). Qed.
Print Assumptions C89_contours.
Theorem C89_multisegments : forall ctx G H xs ys mn mx w s l, (forall l, is_hull l (ctx_hull ctx l)) ->
  closed_by_differences G -> closed_by_differences H -> draws_from G xs -> draws_from H (ordinates xs ys) ->
  multisegments ctx xs ys mn mx = Ok (w, s) -> generates s l ->
  forall t p, In t l -> p = seg_start t \/ p = seg_end t -> G (px p) /\ H (py p).
Proof.
  intros ctx G H xs ys mn mx w s l Hh HG HH Dx Dy E Hg t p It Ip.
  destruct (multisegments_in G H HG HH ctx Hh xs ys Dx Dy mn mx w s l E Hg t It). destruct Ip as [-> | ->]; assumption.
Qed.
Print Assumptions C89_multisegments.
Theorem C89_mixes : forall ctx G H xs ys pmn pmx gmn gmx qmn qmx mn mx hmn hmx smn smx w s m, (forall l, is_hull l (ctx_hull ctx l)) ->
  closed_by_differences G -> closed_by_differences H -> draws_from G xs -> draws_from H (ordinates xs ys) ->
  mixes ctx xs ys pmn pmx gmn gmx qmn qmx mn mx hmn hmx smn smx = Ok (w, s) -> generates s m ->
  forall t p, In t (elements (linear m)) -> p = seg_start t \/ p = seg_end t -> G (px p) /\ H (py p).
Proof.
  intros ctx G H xs ys pmn pmx gmn gmx qmn qmx mn mx hmn hmx smn smx w s m Hh HG HH Dx Dy E Hg t p It Ip.
  destruct (mixes_in G H HG HH ctx Hh xs ys Dx Dy _ _ _ _ _ _ _ _ _ _ _ _ _ _ _ E Hg t It). destruct Ip as [-> | ->]; assumption.
Qed.
Print Assumptions C89_mixes.
(** In particular integer coordinates give integer vertices, also those that are not drawn: the
    abscissa 5 in the contour of C75 is not among the given ones. *)
Definition whole (q : Qc) : Prop := exists n, q = Qc_of_Z n.
Example C89_occurs : closed_by_differences whole /\ draws_from whole seven_xs /\ draws_from whole (ordinates seven_xs (Some seven_ys)) /\
  exists w s, convex_contours reference seven_xs (Some seven_ys) 5 None = Ok (w, s)
     /\ generates s (ints [(1, 6); (4, 2); (7, 0); (11, 0); (10, 2); (5, 8)]) /\ ~ drawable seven_xs (Qc_of_Z 5).
Proof.
  assert (Sm : forall l, draws_from whole (Sampled (map Qc_of_Z l))).
  { intros l q Hq. apply gen_sampled_from, in_map_iff in Hq. destruct Hq as (n & <- & _). exists n. reflexivity. }
  destruct C75_occurs as (_ & _ & _ & (w & s & E & Hg) & N).
  split; [|split; [apply Sm|split; [apply Sm|]]]; [|exists w, s; auto].
  intros a b (n & ->) (m & ->). exists (n - m). apply Qc_of_Z_sub.
Qed.
