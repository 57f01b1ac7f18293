(** C98: whatever the coordinates, the exceptions of drawing are failed assertions and divisions by zero. *)
From Verif Require Import Base Prog Geometry Ctx Utils Contracts Planar Spec RangeSpec WindSpec MixSpec GeneralSpec HullSpec QuadEdge Triangulation Factories Strategies
  ProgProofs QcTac GeomProofs FaultProofs BorderProofs GeneralCoordinates Reference ReferenceProofs EarProofs AnyFaultProofs
  PropertiesContours PropertiesGeometries PropertiesMixes PropertiesRanges PropertiesTriangulation PropertiesFaults PropertiesBorders PropertiesGeneral PropertiesStar
  PropertiesGeneralFaults PropertiesCarveFaults.
Import List ListNotations.
Local Open Scope Z_scope.

(** ** C98: carving a contour out of any distinct points, on a line or not, for any size. *)
Theorem C98_carving : forall ctx, (forall n, (2 <= n)%nat -> is_change n (ctx_coins ctx n)) ->
  forall points size e, NoDup points -> (2 <= length points)%nat ->
  to_vertex_sequence ctx points size = Raise e -> e = AssertionError \/ e = OutOfFuel.
Proof. exact (fun ctx coins points size e N L H => eq_ind (to_vertex_sequence ctx points size) (fun r => faulty r) (carve_always ctx coins points size N L) (Raise e) H). Qed.
Print Assumptions C98_carving.
(** The points of the witness of C87. *)
Definition hanging_points : list point := ints [(6, 1); (0, 0); (4, 2); (2, 5); (7, 7); (3, 3); (5, 4); (1, 6)].
Example C98_carving_occurs : NoDup hanging_points /\ (2 <= length hanging_points)%nat /\ exists vs, to_vertex_sequence reference hanging_points 8 = Ok vs /\ (8 <= length vs)%nat.
Proof.
  split; [|split; [vm_compute; lia|]].
  - unfold hanging_points, ints. cbn [map]. repeat constructor; cbn [In]; intuition discriminate.
  - eexists. split; [vm_compute; reflexivity|]. vm_compute. lia.
Qed.

(** ** Contours and multisegments. *)
Theorem C98_contours : forall ctx,
  (forall n, (2 <= n)%nat -> is_change n (ctx_coins ctx n)) -> (forall l s, l <> [] -> is_nearest l s (ctx_nearest ctx l s)) ->
  (forall l, is_hull l (ctx_hull ctx l)) -> (forall y x e, ctx_atan2 ctx y x <> Raise e) ->
  (forall xs ys mn mx w s e, harmless_both xs ys (2 * Z.max mn 3) ->
     contours ctx xs ys mn mx = Ok (w, s) -> can_raise s e -> e = ZeroDivisionError \/ e = AssertionError \/ e = OutOfFuel) /\
  (forall xs ys mn mx w s e, harmless_both xs ys (2 * Z.max mn 4) ->
     concave_contours ctx xs ys mn mx = Ok (w, s) -> can_raise s e -> e = ZeroDivisionError \/ e = AssertionError \/ e = OutOfFuel) /\
  (forall xs ys mn mx w s e, harmless_both xs ys (2 * Z.max mn 3) ->
     multisegments ctx xs ys mn mx = Ok (w, s) -> can_raise s e -> e = ZeroDivisionError \/ e = AssertionError \/ e = OutOfFuel).
Proof.
  exact (fun ctx coins near hull angle => conj (contours_raise ctx (conj coins near) angle)
    (conj (concave_raise ctx (conj coins near) angle) (multisegments_raise ctx (conj coins near) hull angle))).
Qed.
Print Assumptions C98_contours.
(** Both exceptions are met, with samples that satisfy the hypotheses. *)
Example C98_contours_occur : harmless_both hanging_xs (Some hanging_ys) (2 * Z.max 3 4) /\
  (exists w s, contours reference hanging_xs (Some hanging_ys) 3 None = Ok (w, s) /\ can_raise s AssertionError) /\
  (exists w s, concave_contours reference hanging_xs (Some hanging_ys) 3 None = Ok (w, s) /\ can_raise s AssertionError) /\
  (exists w s, multisegments reference hanging_xs (Some hanging_ys) 3 None = Ok (w, s) /\ can_raise s AssertionError) /\
  let xs := zs [0; 10; 16; 17; 18; 20; 26] in let ys := Some (zs [0; 12; 22; 43; 114; 118; 534]) in
  harmless_both xs ys (2 * Z.max 3 3) /\ exists w s, contours reference xs ys 3 None = Ok (w, s) /\ can_raise s ZeroDivisionError.
Proof.
  split; [split; [|intros t E; injection E as <-]; vm_compute; discriminate|].
  destruct C87_contours_assertion_refuted as (_ & _ & _ & _ & A & B & C). destruct C73_division as (_ & H & _ & D & _). auto.
Qed.

(** ** Multicontours, polygons, multipolygons: no division at all. *)
Theorem C98_polygons : forall ctx,
  (forall n, (2 <= n)%nat -> is_change n (ctx_coins ctx n)) -> (forall l s, l <> [] -> is_nearest l s (ctx_nearest ctx l s)) ->
  (forall l, is_hull l (ctx_hull ctx l)) ->
  (forall xs ys mn mx cmn cmx w s e, harmless_both xs ys (2 * (Z.max mn 2 * Z.max cmn 3)) ->
     multicontours ctx xs ys mn mx cmn cmx = Ok (w, s) -> can_raise s e -> e = AssertionError \/ e = OutOfFuel) /\
  (forall xs ys mn mx hmn hmx smn smx w s e, harmless_both xs ys (2 * (Z.max mn 3 + Z.max smn 3 * Z.max hmn 0)) ->
     polygons ctx xs ys mn mx hmn hmx smn smx = Ok (w, s) -> can_raise s e -> e = AssertionError \/ e = OutOfFuel) /\
  (forall xs ys mn mx bmn bmx hmn hmx smn smx w s e, 0 <= hmn -> harmless_both xs ys (Z.max mn 2 * (2 * (Z.max bmn 3 + hmn * Z.max smn 3))) ->
     multipolygons ctx xs ys mn mx bmn bmx hmn hmx smn smx = Ok (w, s) -> can_raise s e -> e = AssertionError \/ e = OutOfFuel).
Proof.
  exact (fun ctx coins near hull => conj (multicontours_raise ctx (conj coins near))
    (conj (polygons_raise ctx (conj coins near) hull) (multipolygons_raise ctx (conj coins near) hull))).
Qed.
Print Assumptions C98_polygons.
Example C98_polygons_occur : harmless_both split_xs (Some split_ys) (2 * (2 * (3 + 0 * 3))) /\
  (exists w s, multicontours reference split_xs (Some split_ys) 2 None 3 None = Ok (w, s) /\ can_raise s AssertionError) /\
  (exists w s, multipolygons reference split_xs (Some split_ys) 2 None 3 None 0 None 3 None = Ok (w, s) /\ can_raise s AssertionError) /\
  exists w s, polygons reference split_xs (Some split_ys) 3 None 0 None 3 None = Ok (w, s).
Proof.
  split; [split; [|intros t E; injection E as <-]; vm_compute; discriminate|].
  destruct C87_multicontours_assertion_refuted as (_ & _ & _ & A & B). split; [exact A|]. split; [exact B|]. do 2 eexists. reflexivity.
Qed.

(** ** Mixes. *)
Theorem C98_mixes : forall ctx,
  (forall n, (2 <= n)%nat -> is_change n (ctx_coins ctx n)) -> (forall l s, l <> [] -> is_nearest l s (ctx_nearest ctx l s)) ->
  (forall l, is_hull l (ctx_hull ctx l)) -> (forall y x e, ctx_atan2 ctx y x <> Raise e) ->
  forall xs ys pmn pmx smn smx gmn gmx bmn bmx hmn hmx zmn zmx w s e,
  evenly_fed xs ys (Z.max pmn 1 + 2 * Z.max smn 1 + Z.max gmn 1 * (2 * (Z.max bmn 3 + Z.max hmn 0 * Z.max zmn 3))) ->
  mixes ctx xs ys pmn pmx smn smx gmn gmx bmn bmx hmn hmx zmn zmx = Ok (w, s) -> can_raise s e -> e = ZeroDivisionError \/ e = AssertionError \/ e = OutOfFuel.
Proof. exact (fun ctx coins near => mixes_raise ctx (conj coins near)). Qed.
Print Assumptions C98_mixes.
(** Integers, which are not in general position. *)
Example C98_mixes_occur : ~ general_coordinates (upto 15) (Some (upto 15)) /\
  evenly_fed (upto 15) (Some (upto 15)) (Z.max 1 1 + 2 * Z.max 2 1 + Z.max 0 1 * (2 * (Z.max 3 3 + Z.max 0 0 * Z.max 3 3))) /\
  exists w s m, mixes reference (upto 15) (Some (upto 15)) 1 None 2 (Some 9) 0 None 3 (Some 9) 0 (Some 3) 3 (Some 5) = Ok (w, s) /\ generates s m.
Proof.
  split.
  { intros G. assert (D : forall z, 0 <= z < 3 -> drawable (upto 15) (Qc_of_Z z)).
    { intros z Hz. apply gen_sampled_from. assert (K : z = 0 \/ z = 1 \/ z = 2) by lia. destruct K as [->|[->| ->]]; cbn; auto. }
    destruct (G (Pt (Qc_of_Z 0) (Qc_of_Z 0)) (Pt (Qc_of_Z 1) (Qc_of_Z 1)) (Pt (Qc_of_Z 2) (Qc_of_Z 2))) as [[E _]|[E _]]; try discriminate;
      try (split; apply D; lia); vm_compute; reflexivity. }
  split.
  { right. eexists. eexists. split; [reflexivity|]. split; [reflexivity|]. split; [reflexivity|]. vm_compute. discriminate. }
  do 3 eexists. split; [reflexivity|].
  apply (run_sound _ [0; 0; 1; 9; 13; 3; 5; 2; 4; 0; 6; 14; 9; 0; 2; 1; 1; 3; 0; 0; 0; 1; 10; 0; 0; 0; 9; 0; 1; 3; 9; 2; 7; 2; 7; 2; 1; 0; 0; 1; 2; 3]).
  vm_compute. reflexivity.
Qed.
