(** C73, C74: exceptions of contours, multisegments and mixes with coordinates in general position. *)
From Verif Require Import Base Prog Geometry Ctx Utils Contracts Planar Spec RangeSpec WindSpec MixSpec GeneralSpec QuadEdge Triangulation Factories Strategies
  ProgProofs HullSpec QcTac GeomProofs FaultProofs BorderProofs GeneralProofs GeneralPolyProofs GeneralApiProofs GeneralFaultProofs GeneralCoordinates Reference ReferenceProofs
  PropertiesContours PropertiesGeometries PropertiesMixes PropertiesRanges PropertiesTriangulation PropertiesFaults PropertiesBorders PropertiesGeneral PropertiesStar.
Import List ListNotations.
Local Open Scope Z_scope.

(** ** C73: contours, concave contours and multisegments: the division of C52 is all that can fail,
    besides the bound on the number of iterations of the model ... *)
Theorem C73_raises : forall ctx,
  (forall n, (2 <= n)%nat -> is_change n (ctx_coins ctx n)) -> (forall l s, l <> [] -> is_nearest l s (ctx_nearest ctx l s)) ->
  (forall l, is_hull l (ctx_hull ctx l)) -> (forall y x e, ctx_atan2 ctx y x <> Raise e) ->
  (forall xs ys mn mx w s e, general_coordinates xs ys -> harmless_both xs ys (2 * Z.max mn 3) ->
     contours ctx xs ys mn mx = Ok (w, s) -> can_raise s e -> e = ZeroDivisionError \/ e = OutOfFuel) /\
  (forall xs ys mn mx w s e, general_coordinates xs ys -> harmless_both xs ys (2 * Z.max mn 4) ->
     concave_contours ctx xs ys mn mx = Ok (w, s) -> can_raise s e -> e = ZeroDivisionError \/ e = OutOfFuel) /\
  (forall xs ys mn mx w s e, general_coordinates xs ys -> harmless_both xs ys (2 * Z.max mn 3) ->
     multisegments ctx xs ys mn mx = Ok (w, s) -> can_raise s e -> e = ZeroDivisionError \/ e = OutOfFuel).
Proof.
  exact (fun ctx coins near hull angle => conj (general_contours_raise ctx (conj coins near) angle)
    (conj (general_concave_raise ctx (conj coins near) angle) (general_multisegments_raise ctx (conj coins near) hull angle))).
Qed.
Print Assumptions C73_raises.
(** ... which is not met from [n * n + 4 * n] on when the number of points [n] is bounded. *)
Theorem C73_bounded : forall ctx,
  (forall n, (2 <= n)%nat -> is_change n (ctx_coins ctx n)) -> (forall l s, l <> [] -> is_nearest l s (ctx_nearest ctx l s)) ->
  (forall l, is_hull l (ctx_hull ctx l)) -> (forall y x e, ctx_atan2 ctx y x <> Raise e) ->
  (forall xs ys mn m w s e, general_coordinates xs ys -> harmless_both xs ys (2 * Z.max mn 3) ->
     (let n := Z.to_nat (Z.max m (2 * Z.max mn 3)) in n * n + 4 * n < Pos.to_nat (ctx_fuel ctx))%nat ->
     contours ctx xs ys mn (Some m) = Ok (w, s) -> can_raise s e -> e = ZeroDivisionError) /\
  (forall xs ys mn m w s e, general_coordinates xs ys -> harmless_both xs ys (2 * Z.max mn 4) ->
     (let n := Z.to_nat (Z.max m (2 * Z.max mn 4)) in n * n + 4 * n < Pos.to_nat (ctx_fuel ctx))%nat ->
     concave_contours ctx xs ys mn (Some m) = Ok (w, s) -> can_raise s e -> e = ZeroDivisionError) /\
  (forall xs ys mn m w s e, general_coordinates xs ys -> harmless_both xs ys (2 * Z.max mn 3) ->
     (let n := Z.to_nat (Z.max m (2 * Z.max mn 3)) in n * n + 4 * n < Pos.to_nat (ctx_fuel ctx))%nat ->
     multisegments ctx xs ys mn (Some m) = Ok (w, s) -> can_raise s e -> e = ZeroDivisionError).
Proof.
  exact (fun ctx coins near hull angle => conj (general_contours_bounded ctx (conj coins near) angle)
    (conj (general_concave_bounded ctx (conj coins near) angle) (general_multisegments_bounded ctx (conj coins near) hull angle))).
Qed.
Print Assumptions C73_bounded.
(** Unbounded ordinates; at most forty vertices; a contour is generated. *)
Example C73_occur : general_coordinates (between 50) (Some (powers 50)) /\ harmless_both (between 50) (Some (powers 50)) (2 * Z.max 4 4) /\
  (let n := Z.to_nat (Z.max 40 (2 * Z.max 4 4)) in n * n + 4 * n < Pos.to_nat (ctx_fuel reference))%nat /\
  (forall y x e, ctx_atan2 reference y x <> Raise e) /\
  exists w s vs, concave_contours reference (between 50) (Some (powers 50)) 4 (Some 40) = Ok (w, s) /\ generates s vs.
Proof.
  split; [apply between_powers; lia|]. split; [split; [apply between_harmless; lia|intros t E; injection E as <-; apply powers_harmless]|].
  split; [change (ctx_fuel reference) with 65536%positive; change (Z.to_nat (Z.max 40 (2 * Z.max 4 4))) with 40%nat; lia|].
  split; [discriminate|].
  do 3 eexists. split; [reflexivity|].
  apply (run_sound _ [1; 11; 2; 6; 10; 0; 1; 8; 9; 13; 4; 11; 7; 11; 0; 1; 6; 11; 12; 3; 9; 4; 8; 13; 10; 0; 9; 106; 7]). vm_compute. reflexivity.
Qed.

(** The division does fail, also for coordinates in general position, in each of the three. *)
Theorem C73_division : let xs := zs [0; 10; 16; 17; 18; 20; 26] in let ys := Some (zs [0; 12; 22; 43; 114; 118; 534]) in
  general_coordinates xs ys /\ harmless_both xs ys (2 * Z.max 3 3) /\ (forall y x e, ctx_atan2 reference y x <> Raise e) /\
  (exists w s, contours reference xs ys 3 None = Ok (w, s) /\ can_raise s ZeroDivisionError) /\
  (exists w s, concave_contours reference xs ys 3 None = Ok (w, s) /\ can_raise s ZeroDivisionError) /\
  (exists w s, multisegments reference xs ys 3 None = Ok (w, s) /\ can_raise s ZeroDivisionError).
Proof.
  split.
  { apply (sample_general _ _ [0; 10; 16; 17; 18; 20; 26] [0; 12; 22; 43; 114; 118; 534]); [| |vm_compute; reflexivity];
      intros x D; apply gen_sampled_from, in_map_iff in D; destruct D as (z & <- & D); exists z; auto. }
  split; [split; [|intros t E; injection E as <-]; vm_compute; discriminate|]. split; [discriminate|].
  split; [|split]; do 2 eexists; (split; [reflexivity|]).
  - apply (run_sound _ [1; 0; 7; 0; 1; 2; 3; 4; 5; 6; 7; 0; 1; 2; 3; 4; 5; 6; 1; 0; 6]). vm_compute. reflexivity.
  - apply (run_sound _ [0; 7; 0; 1; 2; 3; 4; 5; 6; 7; 0; 1; 2; 3; 4; 5; 6; 1; 0; 6]). vm_compute. reflexivity.
  - apply (run_sound _ [0; 1; 1; 0; 7; 0; 1; 2; 3; 4; 5; 6; 7; 0; 1; 2; 3; 4; 5; 6; 1; 0; 6]). vm_compute. reflexivity.
Qed.
Print Assumptions C73_division.

(** ** C74: mixes. *)
Theorem C74_raises : forall ctx,
  (forall n, (2 <= n)%nat -> is_change n (ctx_coins ctx n)) -> (forall l s, l <> [] -> is_nearest l s (ctx_nearest ctx l s)) ->
  (forall l, is_hull l (ctx_hull ctx l)) -> (forall y x e, ctx_atan2 ctx y x <> Raise e) ->
  forall xs ys pmn pmx smn smx gmn gmx bmn bmx hmn hmx zmn zmx w s e, general_coordinates xs ys ->
  evenly_fed xs ys (Z.max pmn 1 + 2 * Z.max smn 1 + Z.max gmn 1 * (2 * (Z.max bmn 3 + Z.max hmn 0 * Z.max zmn 3))) ->
  mixes ctx xs ys pmn pmx smn smx gmn gmx bmn bmx hmn hmx zmn zmx = Ok (w, s) -> can_raise s e -> e = ZeroDivisionError \/ e = OutOfFuel.
Proof. exact (fun ctx coins near => general_mixes_raise ctx (conj coins near)). Qed.
Print Assumptions C74_raises.
Theorem C74_bounded : forall ctx,
  (forall n, (2 <= n)%nat -> is_change n (ctx_coins ctx n)) -> (forall l s, l <> [] -> is_nearest l s (ctx_nearest ctx l s)) ->
  (forall l, is_hull l (ctx_hull ctx l)) -> (forall y x e, ctx_atan2 ctx y x <> Raise e) ->
  forall xs ys pmn pmx smn m gmn gmx bmn b hmn h zmn z w s e, general_coordinates xs ys ->
  evenly_fed xs ys (Z.max pmn 1 + 2 * Z.max smn 1 + Z.max gmn 1 * (2 * (Z.max bmn 3 + Z.max hmn 0 * Z.max zmn 3))) ->
  (let n := Z.to_nat (Z.max (2 * m) (Z.max (b + z * h) (2 * (Z.max bmn 3 + Z.max zmn 3 * Z.max hmn 0)))) in n * n + 4 * n < Pos.to_nat (ctx_fuel ctx))%nat ->
  mixes ctx xs ys pmn pmx smn (Some m) gmn gmx bmn (Some b) hmn (Some h) zmn (Some z) = Ok (w, s) -> can_raise s e -> e = ZeroDivisionError.
Proof. exact (fun ctx coins near => general_mixes_bounded ctx (conj coins near)). Qed.
Print Assumptions C74_bounded.
Example C74_occurs : general_coordinates (upto 15) (Some (steep 15)) /\
  evenly_fed (upto 15) (Some (steep 15)) (Z.max 1 1 + 2 * Z.max 2 1 + Z.max 0 1 * (2 * (Z.max 3 3 + Z.max 0 0 * Z.max 3 3))) /\
  (let n := Z.to_nat (Z.max (2 * 9) (Z.max (9 + 5 * 3) (2 * (Z.max 3 3 + Z.max 3 3 * Z.max 0 0)))) in n * n + 4 * n < Pos.to_nat (ctx_fuel reference))%nat /\
  exists w s, mixes reference (upto 15) (Some (steep 15)) 1 None 2 (Some 9) 0 None 3 (Some 9) 0 (Some 3) 3 (Some 5) = Ok (w, s) /\
    generates s (Mix (MultiPart (ints [(10, 1)])) (MultiPart [sgm 0 289 9 289; sgm 9 24137569 7 24137569; sgm 7 24137569 1 83521; sgm 0 1419857 2 118587876497]) EmptyPart).
Proof.
  split; [apply steep_general|]. split.
  { right. eexists. eexists. split; [reflexivity|]. split; [reflexivity|]. split; [reflexivity|]. vm_compute. discriminate. }
  split.
  { change (ctx_fuel reference) with 65536%positive.
    change (Z.to_nat (Z.max (2 * 9) (Z.max (9 + 5 * 3) (2 * (Z.max 3 3 + Z.max 3 3 * Z.max 0 0))))) with 24%nat. lia. }
  do 2 eexists. split; [reflexivity|].
  apply (run_sound _ [0; 0; 1; 9; 13; 3; 5; 2; 4; 0; 6; 14; 9; 0; 2; 1; 1; 3; 0; 0; 0; 1; 10; 0; 0; 0; 9; 0; 1; 3; 9; 2; 7; 2; 7; 2; 1; 0; 0; 1; 2; 3]).
  vm_compute. reflexivity.
Qed.
Example C74_drawn : evenly_fed (between 50) (Some (powers 50)) 1000.
Proof. left. intros m. split; [apply between_harmless; lia|apply powers_harmless]. Qed.
