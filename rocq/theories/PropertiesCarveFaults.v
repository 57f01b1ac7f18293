(** C87, C88: what carving does with coordinates that are not in general position: a failing
    assertion, a clockwise contour. *)
From Verif Require Import Base Prog Geometry Ctx Utils Contracts Planar Spec RangeSpec WindSpec GeneralSpec HullSpec StarSpec Factories Strategies
  ProgProofs FaultProofs GeneralCoordinates GeneralFaultProofs StarOrder StarApi StarGeneral Reference ReferenceProofs
  PropertiesContours PropertiesMixes PropertiesRanges PropertiesTriangulation PropertiesFaults PropertiesBorders PropertiesGeneral PropertiesStar PropertiesGeneralFaults.
Import List ListNotations.
Local Open Scope Z_scope.

(** ** C87: drawing a contour can end with [AssertionError]: the deletion of the edge kept as the
    left side asserts that another edge leaves its start (triangular.py:81-83), and there is none.
    The services of the context meet every requirement; nineteen values for each coordinate. *)
Definition hanging_xs : scalars := zs [0; 6; 7; 8; 12; 14; 16; 20; 21; 22; 23; 24; 25; 26; 27; 28; 32; 33; 34].
Definition hanging_ys : scalars := zs [0; 1; 2; 6; 10; 17; 23; 24; 31; 32; 34; 35; 36; 39; 40; 43; 44; 45; 46].
Definition nineteen : list Z := [0; 1; 2; 3; 4; 5; 6; 7; 8; 9; 10; 11; 12; 13; 14; 15; 16; 17; 18].
Theorem C87_contours_assertion_refuted :
  (forall n, (2 <= n)%nat -> is_change n (ctx_coins reference n)) /\
  (forall l s, l <> [] -> is_nearest l s (ctx_nearest reference l s)) /\
  (forall l, is_hull l (ctx_hull reference l)) /\ orders_directions reference /\
  (exists w s, contours reference hanging_xs (Some hanging_ys) 3 None = Ok (w, s) /\ can_raise s AssertionError) /\
  (exists w s, concave_contours reference hanging_xs (Some hanging_ys) 3 None = Ok (w, s) /\ can_raise s AssertionError) /\
  (exists w s, multisegments reference hanging_xs (Some hanging_ys) 3 None = Ok (w, s) /\ can_raise s AssertionError).
Proof.
  split; [exact reference_coins|]. split; [exact reference_nearest|]. split; [exact reference_hull|]. split; [exact reference_directions|].
  repeat split; do 2 eexists; (split; [reflexivity|]).
  - apply (run_sound _ ([1; 1; 19] ++ nineteen ++ [19] ++ nineteen ++ [1; 0; 1; 19])). vm_compute. reflexivity.
  - apply (run_sound _ ([1; 19] ++ nineteen ++ [19] ++ nineteen ++ [1; 0; 1; 19])). vm_compute. reflexivity.
  - apply (run_sound _ ([0; 1; 1; 1; 19] ++ nineteen ++ [19] ++ nineteen ++ [1; 0; 1; 19])). vm_compute. reflexivity.
Qed.
Print Assumptions C87_contours_assertion_refuted.
(** Full statement: no assertion fails, whatever the coordinates; it is refuted above.  Proved for
    coordinates in general position. *)
Theorem C87_no_assertion_partial : forall ctx,
  (forall n, (2 <= n)%nat -> is_change n (ctx_coins ctx n)) -> (forall l s, l <> [] -> is_nearest l s (ctx_nearest ctx l s)) ->
  (forall l, is_hull l (ctx_hull ctx l)) -> (forall y x e, ctx_atan2 ctx y x <> Raise e) ->
  forall xs ys, general_coordinates xs ys ->
  (forall mn mx w s, harmless_both xs ys (2 * Z.max mn 3) -> contours ctx xs ys mn mx = Ok (w, s) -> ~ can_raise s AssertionError) /\
  (forall mn mx w s, harmless_both xs ys (2 * Z.max mn 4) -> concave_contours ctx xs ys mn mx = Ok (w, s) -> ~ can_raise s AssertionError) /\
  (forall mn mx w s, harmless_both xs ys (2 * Z.max mn 3) -> multisegments ctx xs ys mn mx = Ok (w, s) -> ~ can_raise s AssertionError).
Proof.
  intros ctx coins near hull angle xs ys G.
  destruct (C73_raises ctx coins near hull angle) as (A & B & C).
  repeat split; intros mn mx w s Hh E H;
    [destruct (A _ _ _ _ _ _ _ G Hh E H)|destruct (B _ _ _ _ _ _ _ G Hh E H)|destruct (C _ _ _ _ _ _ _ G Hh E H)]; discriminate.
Qed.
Print Assumptions C87_no_assertion_partial.
Example C87_occur : general_coordinates (between 50) (Some (powers 50)) /\ harmless_both (between 50) (Some (powers 50)) (2 * Z.max 4 4) /\
  exists w s vs, concave_contours reference (between 50) (Some (powers 50)) 4 (Some 40) = Ok (w, s) /\ generates s vs.
Proof. destruct C73_occur as (A & B & _ & _ & C). exact (conj A (conj B C)). Qed.

(** Carving the slices of a multicontour, or of a multipolygon, can fail the assertion too:
    twenty-three values for each coordinate, ten points for the first contour, twelve for the
    second. *)
Definition split_xs : scalars := zs [0; 1; 3; 5; 7; 11; 15; 16; 19; 24; 28; 29; 36; 38; 40; 43; 44; 46; 52; 53; 57; 58; 61].
Definition split_ys : scalars := zs [0; 3; 9; 12; 14; 16; 21; 22; 24; 30; 32; 38; 39; 41; 44; 49; 50; 52; 53; 56; 58; 60; 64].
Definition twenty_three : list Z := [0; 1; 2; 3; 4; 5; 6; 7; 8; 9; 10; 11; 12; 13; 14; 15; 16; 17; 18; 19; 20; 21; 22].
Definition split_draws : list Z := [23] ++ twenty_three ++ [23] ++ twenty_three ++ [1; 0; 17; 2; 12; 10; 1; 0; 0; 0].
Theorem C87_multicontours_assertion_refuted :
  (forall n, (2 <= n)%nat -> is_change n (ctx_coins reference n)) /\
  (forall l s, l <> [] -> is_nearest l s (ctx_nearest reference l s)) /\
  (forall l, is_hull l (ctx_hull reference l)) /\
  (exists w s, multicontours reference split_xs (Some split_ys) 2 None 3 None = Ok (w, s) /\ can_raise s AssertionError) /\
  (exists w s, multipolygons reference split_xs (Some split_ys) 2 None 3 None 0 None 3 None = Ok (w, s) /\ can_raise s AssertionError).
Proof.
  split; [exact reference_coins|]. split; [exact reference_nearest|]. split; [exact reference_hull|].
  split; do 2 eexists; (split; [reflexivity|]).
  - apply (run_sound _ split_draws). vm_compute. reflexivity.
  - apply (run_sound _ (0 :: split_draws)). vm_compute. reflexivity.
Qed.
Print Assumptions C87_multicontours_assertion_refuted.
(** Full statement: no assertion fails, whatever the coordinates; it is refuted above.  Proved for
    coordinates in general position; [C66_occur] and [C68_occur] meet the hypotheses. *)
Theorem C87_multicontours_no_assertion_partial : forall ctx,
  (forall n, (2 <= n)%nat -> is_change n (ctx_coins ctx n)) -> (forall l s, l <> [] -> is_nearest l s (ctx_nearest ctx l s)) ->
  (forall l, is_hull l (ctx_hull ctx l)) ->
  forall xs ys, general_coordinates xs ys ->
  (forall mn mx cmn cmx w s, harmless_both xs ys (2 * (Z.max mn 2 * Z.max cmn 3)) ->
   multicontours ctx xs ys mn mx cmn cmx = Ok (w, s) -> ~ can_raise s AssertionError) /\
  (forall mn mx bmn bmx hmn hmx smn smx w s, 0 <= hmn -> harmless_both xs ys (Z.max mn 2 * (2 * (Z.max bmn 3 + hmn * Z.max smn 3))) ->
   multipolygons ctx xs ys mn mx bmn bmx hmn hmx smn smx = Ok (w, s) -> ~ can_raise s AssertionError).
Proof.
  intros ctx coins near hull xs ys G. split.
  - intros mn mx cmn cmx w s Hh E H. pose proof (C66_multicontours_fuel ctx coins near _ _ _ _ _ _ _ _ _ G Hh E H). discriminate.
  - intros mn mx bmn bmx hmn hmx smn smx w s Hm Hh E H.
    pose proof (C68_multipolygons_fuel ctx coins near hull _ _ _ _ _ _ _ _ _ _ _ _ _ G Hm Hh E H). discriminate.
Qed.
Print Assumptions C87_multicontours_no_assertion_partial.
Example C87_multicontours_occur : general_coordinates (between 50) (Some (powers 50)) /\ harmless_both (between 50) (Some (powers 50)) (2 * (Z.max 2 2 * Z.max 3 3)) /\ exists w s mc, multicontours reference (between 50) (Some (powers 50)) 2 (Some 5) 3 (Some 8) = Ok (w, s) /\ generates s mc.
Proof. destruct C66_occur as (A & B & _ & C). exact (conj A (conj B C)). Qed.

(** ** C88: a contour with turns of both directions can have a negative area. *)
Definition clockwise_one : contour :=
  ints [(30, 10); (37, 4); (29, 30); (28, 15); (13, 15); (17, 8); (5, 4); (8, 10); (9, 30); (24, 8)].
Definition folded_xs : scalars := zs [0; 5; 8; 9; 13; 17; 24; 28; 29; 30; 37].
Definition folded_ys : scalars := zs [0; 4; 5; 8; 10; 15; 16; 17; 18; 30; 31].
Definition eleven : list Z := [0; 1; 2; 3; 4; 5; 6; 7; 8; 9; 10].
Theorem C88_contours_counterclockwise_refuted :
  (forall n, (2 <= n)%nat -> is_change n (ctx_coins reference n)) /\
  (forall l s, l <> [] -> is_nearest l s (ctx_nearest reference l s)) /\
  (forall l, is_hull l (ctx_hull reference l)) /\ orders_directions reference /\
  Qclt (signed_area clockwise_one) 0%Qc /\
  (exists a b c, contour_turn clockwise_one a b c /\ left_turn a b c) /\
  (exists w s, contours reference folded_xs (Some folded_ys) 3 None = Ok (w, s) /\ generates s clockwise_one) /\
  (exists w s, concave_contours reference folded_xs (Some folded_ys) 3 None = Ok (w, s) /\ generates s clockwise_one).
Proof.
  split; [exact reference_coins|]. split; [exact reference_nearest|]. split; [exact reference_hull|]. split; [exact reference_directions|].
  split; [reflexivity|]. split; [|split].
  - exists (Pt (Qc_of_Z 30) (Qc_of_Z 10)), (Pt (Qc_of_Z 37) (Qc_of_Z 4)), (Pt (Qc_of_Z 29) (Qc_of_Z 30)). split; [|reflexivity].
    exists 0%nat. repeat split; reflexivity.
  - do 2 eexists. split; [reflexivity|].
    apply (run_sound _ ([1; 1; 11] ++ eleven ++ [11] ++ eleven ++ [0; 0; 1; 11])). vm_compute. reflexivity.
  - do 2 eexists. split; [reflexivity|].
    apply (run_sound _ ([1; 11] ++ eleven ++ [11] ++ eleven ++ [0; 0; 1; 11])). vm_compute. reflexivity.
Qed.
Print Assumptions C88_contours_counterclockwise_refuted.
Lemma left_not_right a b c : left_turn a b c -> right_turn a b c -> False.
Proof. unfold left_turn, right_turn. intros A B. exact (Qclt_not_le _ _ A (Qclt_le_weak _ _ B)). Qed.
(** Full statement: contours with turns of both directions are counterclockwise, whatever the
    coordinates; refuted above.  Proved for coordinates in general position. *)
Theorem C88_contours_counterclockwise_partial : forall ctx,
  (forall n, (2 <= n)%nat -> is_change n (ctx_coins ctx n)) -> (forall l s, l <> [] -> is_nearest l s (ctx_nearest ctx l s)) ->
  orders_directions ctx -> (forall l, is_hull l (ctx_hull ctx l)) ->
  forall xs ys mn mx w s vs a b c, general_coordinates xs ys ->
  contours ctx xs ys mn mx = Ok (w, s) -> generates s vs ->
  contour_turn vs a b c -> left_turn a b c -> counterclockwise vs.
Proof.
  intros ctx coins near dirs hull xs ys mn mx w s vs a b c G E H T L.
  destruct (C71_contours_general ctx coins near dirs hull _ _ _ _ _ _ _ G E H) as [O|[_ O]]; [exact O|].
  destruct (left_not_right a b c L (reversed_turns vs O a b c T)).
Qed.
Print Assumptions C88_contours_counterclockwise_partial.
(** A contour with turns of both directions of coordinates in general position: [C70_occurs], [C71_occurs]. *)
Example C88_occurs : general_coordinates (upto 13) (Some (steep 13)) /\
  (exists w s, contours reference (upto 13) (Some (steep 13)) 5 None = Ok (w, s) /\ generates s dented) /\
  exists a b c, contour_turn dented a b c /\ left_turn a b c.
Proof.
  destruct C71_occurs as [G O]. split; [exact G|]. split; [exact O|].
  exists (Pt (Qc_of_Z 0) (Qc_of_Z 1)), (Pt (Qc_of_Z 9) (Qc_of_Z 3375)), (Pt (Qc_of_Z 11) (Qc_of_Z 38443359375)). split; [|reflexivity].
  exists 0%nat. repeat split; reflexivity.
Qed.
(** A contour of a multicontour, and so the border of a polygon of a multipolygon, can have a
    negative area too. *)
Definition bent_xs : scalars := zs [0; 1; 2; 3; 11; 12; 15; 22; 30; 31; 34; 36; 43; 46; 52; 59; 60; 64; 66; 68; 71; 72; 78].
Definition bent_ys : scalars := zs [0; 6; 7; 9; 11; 12; 13; 19; 21; 22; 24; 31; 37; 38; 41; 44; 45; 51; 53; 54; 57; 59; 60].
Definition bent : contour := ints [(0, 0); (3, 53); (2, 57); (1, 54); (3, 12); (2, 9); (1, 11)].
Definition bent_draws : list Z :=
  [23; 0; 1; 2; 3; 4; 5; 6; 7; 8; 9; 10; 11; 12; 13; 14; 15; 16; 17; 18; 19; 20; 21; 22;
   23; 0; 1; 2; 3; 4; 5; 6; 7; 8; 9; 10; 11; 12; 13; 14; 15; 16; 17; 18; 19; 20; 21; 22; 1; 0; 13; 2; 8; 3; 0; 0; 0; 0].
Theorem C88_multicontours_counterclockwise_refuted :
  (forall n, (2 <= n)%nat -> is_change n (ctx_coins reference n)) /\
  (forall l s, l <> [] -> is_nearest l s (ctx_nearest reference l s)) /\
  (forall l, is_hull l (ctx_hull reference l)) /\
  Qclt (signed_area bent) 0%Qc /\
  (exists w s vs, multicontours reference bent_xs (Some bent_ys) 2 None 3 None = Ok (w, s) /\ generates s [bent; vs]) /\
  (exists w s vs, multipolygons reference bent_xs (Some bent_ys) 2 None 3 None 0 None 3 None = Ok (w, s) /\ generates s [Poly bent []; Poly vs []]).
Proof.
  split; [exact reference_coins|]. split; [exact reference_nearest|]. split; [exact reference_hull|].
  split; [reflexivity|]. split; do 2 eexists; exists (ints [(11, 44); (15, 7); (15, 59)]).
  - split; [reflexivity|]. apply (run_sound _ bent_draws). vm_compute. reflexivity.
  - split; [reflexivity|]. apply (run_sound _ (0 :: bent_draws)). vm_compute. reflexivity.
Qed.
Print Assumptions C88_multicontours_counterclockwise_refuted.
