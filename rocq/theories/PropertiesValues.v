(** C99: nothing but the set of drawable coordinates matters. *)
From Coq Require Import Lia.
From Verif Require Import Base Prog Geometry Ctx Utils Spec Planar ValueSpec ProgProofs Reference ReferenceProofs ValueProofs PropertiesContours PropertiesGeometries PropertiesMixes.
Import List ListNotations.
Local Open Scope Z_scope.

(** ** Shapes without a size. *)
Theorem C99_shapes : forall xs ys xs' ys', same_values xs xs' -> same_values (ordinates xs ys) (ordinates xs' ys') ->
  alike (points xs ys) (points xs' ys') /\ alike (segments xs ys) (segments xs' ys') /\ alike (boxes xs ys) (boxes xs' ys') /\
  alike (rectangular_contours xs ys) (rectangular_contours xs' ys') /\ alike (triangular_contours xs ys) (triangular_contours xs' ys') /\
  forall mn mx, alike (multipoints xs ys mn mx) (multipoints xs' ys' mn mx).
Proof.
  exact (fun xs ys xs' ys' Hx Hy => conj (points_alike xs xs' ys ys' Hx Hy) (conj (segments_alike xs xs' ys ys' Hx Hy) (conj (boxes_alike xs xs' ys ys' Hx Hy)
    (conj (rectangular_alike xs xs' ys ys' Hx Hy) (conj (triangular_alike xs xs' ys ys' Hx Hy) (multipoints_alike xs xs' ys ys' Hx Hy)))))).
Qed.
Print Assumptions C99_shapes.

(** ** Contours and multisegments. *)
Theorem C99_contours : forall ctx xs ys xs' ys' mn mx, same_values xs xs' -> same_values (ordinates xs ys) (ordinates xs' ys') ->
  alike (contours ctx xs ys mn mx) (contours ctx xs' ys' mn mx) /\ alike (convex_contours ctx xs ys mn mx) (convex_contours ctx xs' ys' mn mx) /\
  alike (star_contours ctx xs ys mn mx) (star_contours ctx xs' ys' mn mx) /\ alike (concave_contours ctx xs ys mn mx) (concave_contours ctx xs' ys' mn mx) /\
  alike (multisegments ctx xs ys mn mx) (multisegments ctx xs' ys' mn mx).
Proof.
  exact (fun ctx xs ys xs' ys' mn mx Hx Hy => conj (contours_alike ctx xs xs' ys ys' Hx Hy mn mx) (conj (convex_alike ctx xs xs' ys ys' Hx Hy mn mx)
    (conj (star_alike ctx xs xs' ys ys' Hx Hy mn mx) (conj (concave_alike ctx xs xs' ys ys' Hx Hy mn mx) (multisegments_alike ctx xs xs' ys ys' Hx Hy mn mx))))).
Qed.
Print Assumptions C99_contours.

(** ** Polygons and collections. *)
Theorem C99_collections : forall ctx xs ys xs' ys', same_values xs xs' -> same_values (ordinates xs ys) (ordinates xs' ys') ->
  (forall mn mx cmn cmx, alike (multicontours ctx xs ys mn mx cmn cmx) (multicontours ctx xs' ys' mn mx cmn cmx)) /\
  (forall mn mx hmn hmx smn smx, alike (polygons ctx xs ys mn mx hmn hmx smn smx) (polygons ctx xs' ys' mn mx hmn hmx smn smx)) /\
  (forall gmn gmx mn mx hmn hmx smn smx, 0 <= hmn ->
     alike (multipolygons ctx xs ys gmn gmx mn mx hmn hmx smn smx) (multipolygons ctx xs' ys' gmn gmx mn mx hmn hmx smn smx)) /\
  (forall pmn pmx tmn tmx gmn gmx mn mx hmn hmx smn smx,
     alike (mixes ctx xs ys pmn pmx tmn tmx gmn gmx mn mx hmn hmx smn smx) (mixes ctx xs' ys' pmn pmx tmn tmx gmn gmx mn mx hmn hmx smn smx)).
Proof.
  exact (fun ctx xs ys xs' ys' Hx Hy => conj (multicontours_alike ctx xs xs' ys ys' Hx Hy) (conj (polygons_alike ctx xs xs' ys ys' Hx Hy)
    (conj (multipolygons_alike ctx xs xs' ys ys' Hx Hy) (mixes_alike ctx xs xs' ys ys' Hx Hy)))).
Qed.
Print Assumptions C99_collections.

(** ** Sampled coordinates can be listed in any order and any number of times; leaving out the ordinates is passing the abscissas twice. *)
Theorem C99_sampled : forall l l', (forall q, In q l <-> In q l') -> same_values (Sampled l) (Sampled l').
Proof. exact (fun l l' H q => iff_trans (gen_sampled_from l q) (iff_trans (H q) (iff_sym (gen_sampled_from l' q)))). Qed.
Print Assumptions C99_sampled.
(** The coordinates 0 to 6, out of order and with repetitions; a pentagon. *)
Example C99_occurs : let l := map Qc_of_Z [3; 1; 6; 3; 0; 2; 5; 4; 0] in same_values (upto 6) (Sampled l) /\ same_values (ordinates (upto 6) None) (ordinates (Sampled l) (Some (upto 6))) /\
  exists w s w' s', convex_contours reference (upto 6) None 5 (Some 6) = Ok (w, s) /\ convex_contours reference (Sampled l) (Some (upto 6)) 5 (Some 6) = Ok (w', s') /\
    generates s (ints [(0, 1); (2, 0); (4, 0); (6, 1); (1, 5)]) /\ generates s' (ints [(0, 1); (2, 0); (4, 0); (6, 1); (1, 5)]).
Proof.
  intros l. assert (V : same_values (upto 6) (Sampled l)) by (apply C99_sampled; intros q; cbn; intuition).
  assert (V' : same_values (ordinates (upto 6) None) (ordinates (Sampled l) (Some (upto 6)))) by (intros q; split; exact (fun H => H)).
  split; [exact V|]. split; [exact V'|]. do 4 eexists. split; [reflexivity|]. split; [reflexivity|].
  assert (G : generates (Strategies.to_convex_vertex_sequence_strategy reference (upto 6) None 5 (Some 6)) (ints [(0, 1); (2, 0); (4, 0); (6, 1); (1, 5)])).
  { apply (run_sound _ [5; 2; 6; 1; 4; 0; 6; 5; 1; 3; 2; 0; 6; 0; 4; 24; 1; 0; 0; 1; 0; 1; 2; 1; 0; 1; 0]). vm_compute. reflexivity. }
  split; [exact G|]. destruct (C99_contours reference (upto 6) None (Sampled l) (Some (upto 6)) 5 (Some 6) V V') as (_ & (_ & C) & _). apply C, G.
Qed.
