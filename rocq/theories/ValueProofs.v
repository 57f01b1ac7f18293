(** Nothing but the set of drawable coordinates matters. *)
From Verif Require Import Base Prog Geometry Ctx Utils Spec RelaxSpec Planar ValueSpec ProgProofs PropertiesRelax.
Import List ListNotations.
Local Open Scope Z_scope.

(** What a call does before it returns its strategy. *)
Definition front {A} (c : call A) : res (list string) := match c with Ok (w, _) => Ok w | Raise e => Raise e end.
Lemma alike_both {A} (c c' : call A) : front c = front c' ->
  (forall w s w' s', c = Ok (w, s) -> c' = Ok (w', s') -> covered s s') ->
  (forall w s w' s', c' = Ok (w, s) -> c = Ok (w', s') -> covered s s') -> alike c c'.
Proof.
  intros F H1 H2. destruct c as [(w & s)|e], c' as [(w' & s')|e']; cbn [front] in F; try discriminate; cbn [alike]; [|congruence].
  injection F as <-. split; [reflexivity|]. intros v. split; intros G; [apply (H1 _ _ _ _ eq_refl eq_refl), G|apply (H2 _ _ _ _ eq_refl eq_refl), G].
Qed.
Lemma front_bind {A B} (r : res A) (f g : A -> call B) : (forall a, front (f a) = front (g a)) -> front (rbind r f) = front (rbind r g).
Proof. destruct r; cbn [rbind]; auto. Qed.
Ltac fronts := repeat (cbv zeta; apply front_bind; intros ?); reflexivity.

Section S.
Context (ctx : context) (xs xs' : scalars) (ys ys' : option scalars).
Context (Hx : same_values xs xs') (Hy : same_values (ordinates xs ys) (ordinates xs' ys')).
Let Rx : richer xs xs' := fun q => proj1 (Hx q).
Let Ry : richer (ordinates xs ys) (ordinates xs' ys') := fun q => proj1 (Hy q).
Let Rx' : richer xs' xs := fun q => proj2 (Hx q).
Let Ry' : richer (ordinates xs' ys') (ordinates xs ys) := fun q => proj2 (Hy q).
Ltac both T := apply alike_both; [fronts|intros w s w' s'; apply T; assumption|intros w s w' s'; apply T; assumption].
Lemma points_alike : alike (points xs ys) (points xs' ys').
Proof. both C78_points. Qed.
Lemma segments_alike : alike (segments xs ys) (segments xs' ys').
Proof. both C78_segments. Qed.
Lemma boxes_alike : alike (boxes xs ys) (boxes xs' ys').
Proof. both C78_boxes. Qed.
Lemma rectangular_alike : alike (rectangular_contours xs ys) (rectangular_contours xs' ys').
Proof. both C78_rectangular_contours. Qed.
Lemma triangular_alike : alike (triangular_contours xs ys) (triangular_contours xs' ys').
Proof. both C78_triangular_contours. Qed.
Lemma multipoints_alike mn mx : alike (multipoints xs ys mn mx) (multipoints xs' ys' mn mx).
Proof. both C78_multipoints. Qed.
Lemma contours_alike mn mx : alike (contours ctx xs ys mn mx) (contours ctx xs' ys' mn mx).
Proof. both (C78_contours ctx). Qed.
Lemma convex_alike mn mx : alike (convex_contours ctx xs ys mn mx) (convex_contours ctx xs' ys' mn mx).
Proof. both (C78_convex_contours ctx). Qed.
Lemma star_alike mn mx : alike (star_contours ctx xs ys mn mx) (star_contours ctx xs' ys' mn mx).
Proof. both (C78_star_contours ctx). Qed.
Lemma concave_alike mn mx : alike (concave_contours ctx xs ys mn mx) (concave_contours ctx xs' ys' mn mx).
Proof. both (C78_concave_contours ctx). Qed.
Lemma multisegments_alike mn mx : alike (multisegments ctx xs ys mn mx) (multisegments ctx xs' ys' mn mx).
Proof. both (C78_multisegments ctx). Qed.
Lemma multicontours_alike mn mx cmn cmx : alike (multicontours ctx xs ys mn mx cmn cmx) (multicontours ctx xs' ys' mn mx cmn cmx).
Proof. both (C78_multicontours ctx). Qed.
Lemma polygons_alike mn mx hmn hmx smn smx : alike (polygons ctx xs ys mn mx hmn hmx smn smx) (polygons ctx xs' ys' mn mx hmn hmx smn smx).
Proof. both (C78_polygons ctx). Qed.
Lemma multipolygons_alike gmn gmx mn mx hmn hmx smn smx : 0 <= hmn ->
  alike (multipolygons ctx xs ys gmn gmx mn mx hmn hmx smn smx) (multipolygons ctx xs' ys' gmn gmx mn mx hmn hmx smn smx).
Proof. intros H0. both (C78_multipolygons ctx). Qed.
Lemma mixes_alike pmn pmx tmn tmx gmn gmx mn mx hmn hmx smn smx :
  alike (mixes ctx xs ys pmn pmx tmn tmx gmn gmx mn mx hmn hmx smn smx) (mixes ctx xs' ys' pmn pmx tmn tmx gmn gmx mn mx hmn hmx smn smx).
Proof. both (C78_mixes ctx). Qed.
End S.
