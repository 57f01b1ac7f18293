(** C82: which numbers of contours can be generated; C83: which numbers of holes can be generated. *)
From Coq Require Import Znumtheory.
From Verif Require Import Base Prog Geometry Ctx Utils Contracts Planar Spec RangeSpec WindSpec GeneralSpec RelaxSpec SizeSpec CountSpec
  Factories Strategies ProgProofs PrimeProofs PlanarProofs PolyFaultProofs GeneralProofs CountProofs Reference ReferenceProofs StarOrder.
Import List ListNotations.
Local Open Scope Z_scope.

(** ** C82: a multicontour of [k] contours needs a prime number of points to be drawn, enough of them for
    [k] contours of the least size. *)
Theorem C82_contours : forall ctx xs ys mn mx cmn cmx w s mc,
  multicontours ctx xs ys mn mx cmn cmx = Ok (w, s) -> generates s mc ->
  enough_points (Z.max mn 2 * Z.max cmn 3) (max_product mx cmx) (lenZ mc * Z.max cmn 3).
Proof. exact multicontours_number. Qed.
Print Assumptions C82_contours.
(** If triangles are allowed this is the only condition: given enough coordinates (and iterations) [k] contours can be
    generated exactly if it holds, and then [k] triangles can be. *)
Theorem C82_contours_reached : forall ctx xs ys mn mx cmn cmx w s k,
  (forall n, (2 <= n)%nat -> is_change n (ctx_coins ctx n)) ->
  multicontours ctx xs ys mn mx cmn cmx = Ok (w, s) -> cmn <= 3 -> size_ok k (Z.max mn 2) mx -> draws_upto xs ys ((6 * k + 1) ^ (6 * k)) ->
  (let n := Z.to_nat (6 * k) in n * n + 4 * n < Pos.to_nat (ctx_fuel ctx))%nat ->
  ((exists mc, generates s mc /\ lenZ mc = k) <-> enough_points (Z.max mn 2 * 3) (max_product mx cmx) (k * 3)) /\
  ((exists mc, generates s mc /\ lenZ mc = k) -> exists mc, generates s mc /\ lenZ mc = k /\ forall vs, In vs mc -> lenZ vs = 3).
Proof. exact multicontours_reached. Qed.
Print Assumptions C82_contours_reached.
(** Of triangles only, the greatest number asked for is never generated, if a prime number lies between the least and
    the greatest number of vertices: their number is never prime itself. *)
Theorem C82_contours_missed : forall ctx xs ys mn m cmn w s mc,
  multicontours ctx xs ys mn (Some m) cmn (Some 3) = Ok (w, s) ->
  prime_between (3 * Z.max mn 2) (Some (3 * m)) -> generates s mc -> lenZ mc < m.
Proof. exact multicontours_missed. Qed.
Print Assumptions C82_contours_missed.

(** ** C83: a polygon with [k] holes needs a prime number of points to be drawn, enough of them for a border of 3 vertices and
    [k] holes of the least size. *)
Theorem C83_holes : forall ctx xs ys mn mx hmn hmx smn smx w s p,
  (forall n, (2 <= n)%nat -> is_change n (ctx_coins ctx n)) -> (forall l s, l <> [] -> is_nearest l s (ctx_nearest ctx l s)) ->
  polygons ctx xs ys mn mx hmn hmx smn smx = Ok (w, s) -> generates s p ->
  enough_points (Z.max mn 3 + Z.max smn 3 * Z.max hmn 0) (max_vertices mx hmx smx) (3 + Z.max smn 3 * lenZ (holes p)).
Proof. exact (fun ctx xs ys mn mx hmn hmx smn smx w s p C1 C2 => polygons_number ctx xs ys mn mx hmn hmx smn smx w s p (conj C1 C2)). Qed.
Print Assumptions C83_holes.
Theorem C83_holes_reached : forall ctx xs ys mn mx hmn hmx smn smx w s k,
  (forall n, (2 <= n)%nat -> is_change n (ctx_coins ctx n)) -> (forall l s, l <> [] -> is_nearest l s (ctx_nearest ctx l s)) ->
  (forall l, is_hull l (ctx_hull ctx l)) ->
  polygons ctx xs ys mn mx hmn hmx smn smx = Ok (w, s) -> mn <= 3 -> smn <= 3 -> size_ok k (Z.max hmn 0) hmx ->
  draws_upto xs ys ((6 * k + 7) ^ (6 * k + 6)) ->
  (let n := Z.to_nat (6 * k + 6) in n * n + 4 * n < Pos.to_nat (ctx_fuel ctx))%nat ->
  ((exists p, generates s p /\ lenZ (holes p) = k) <-> enough_points (3 + 3 * Z.max hmn 0) (max_vertices mx hmx smx) (3 + 3 * k)) /\
  ((exists p, generates s p /\ lenZ (holes p) = k) ->
   exists p, generates s p /\ lenZ (border p) = 3 /\ lenZ (holes p) = k /\ forall vs, In vs (holes p) -> lenZ vs = 3).
Proof. exact (fun ctx xs ys mn mx hmn hmx smn smx w s k C1 C2 => polygons_reached ctx xs ys mn mx hmn hmx smn smx w s k (conj C1 C2)). Qed.
Print Assumptions C83_holes_reached.
Theorem C83_holes_missed : forall ctx xs ys mn hmn m smn w s p,
  (forall n, (2 <= n)%nat -> is_change n (ctx_coins ctx n)) -> (forall l s, l <> [] -> is_nearest l s (ctx_nearest ctx l s)) ->
  polygons ctx xs ys mn (Some 3) hmn (Some m) smn (Some 3) = Ok (w, s) -> 1 <= m ->
  prime_between (3 + 3 * Z.max hmn 0) (Some (3 + 3 * m)) -> generates s p -> lenZ (holes p) < m.
Proof. exact (fun ctx xs ys mn hmn m smn w s p C1 C2 => polygons_missed ctx xs ys mn hmn m smn w s p (conj C1 C2)). Qed.
Print Assumptions C83_holes_missed.

(** Whole numbers as coordinates. *)
Definition naturals : scalars := Drawn (pmap Qc_of_Z (integers 0 None)).
Lemma naturals_drawn k : draws_upto naturals None k.
Proof.
  intros z Hz. assert (G : drawable naturals (Qc_of_Z z)); [|split; exact G]. unfold drawable, naturals. cbn [draw_scalar]. apply gen_pmap. exists z.
  split; [|reflexivity]. apply gen_integers. split; [lia|exact I].
Qed.
Lemma prime_five : prime 5.
Proof. apply PrimeProofs.to_next_prime_ge with (v := 3). vm_compute. reflexivity. Qed.
Lemma prime_seven : prime 7.
Proof. apply PrimeProofs.to_next_prime_ge with (v := 6). vm_compute. reflexivity. Qed.
Lemma fuel_enough n : (n <= 200)%nat -> (n * n + 4 * n < Pos.to_nat (ctx_fuel reference))%nat.
Proof. intros H. apply Nat.le_lt_trans with (200 * 200 + 4 * 200)%nat; [nia|]. apply Nat2Z.inj_lt. rewrite positive_nat_Z. rewrite Nat2Z.inj_add, !Nat2Z.inj_mul. reflexivity. Qed.
(** Two triangles, or three, were asked for, and there are always two; with one vertex more for each, there may be three. *)
Example C82_two_of_three : exists w s w' s', multicontours reference naturals None 2 (Some 3) 3 (Some 3) = Ok (w, s) /\
  multicontours reference naturals None 2 (Some 3) 3 (Some 4) = Ok (w', s') /\
  (exists mc, generates s mc /\ lenZ mc = 2) /\ (forall mc, generates s mc -> lenZ mc < 3) /\ (exists mc, generates s' mc /\ lenZ mc = 3).
Proof.
  do 4 eexists. split; [reflexivity|]. split; [reflexivity|]. split; [|split].
  - eapply (proj1 (C82_contours_reached reference naturals None 2 (Some 3) 3 (Some 3) _ _ 2 reference_coins eq_refl ltac:(lia)
      ltac:(split; [lia|intros m E; injection E as <-; lia]) (naturals_drawn _) (fuel_enough 12 ltac:(lia)))).
    exists 7. split; [exact prime_seven|]. split; [lia|]. split; [lia|]. intros m E. injection E as <-. left. lia.
  - intros mc. eapply (C82_contours_missed reference naturals None 2 3 3); [reflexivity|]. intros m E. injection E as <-. exists 7. split; [exact prime_seven|lia].
  - eapply (proj1 (C82_contours_reached reference naturals None 2 (Some 3) 3 (Some 4) _ _ 3 reference_coins eq_refl ltac:(lia)
      ltac:(split; [lia|intros m E; injection E as <-; lia]) (naturals_drawn _) (fuel_enough 18 ltac:(lia)))).
    exists 11. split; [apply PrimeProofs.to_next_prime_ge with (v := 8); vm_compute; reflexivity|]. split; [lia|]. split; [lia|]. intros m E. injection E as <-. left. lia.
Qed.
(** Triangles with at most one triangular hole never have it; with at most one hole of at most 4 vertices they may. *)
Example C83_none_of_one : exists w s w' s', polygons reference naturals None 3 (Some 3) 0 (Some 1) 3 (Some 3) = Ok (w, s) /\
  polygons reference naturals None 3 (Some 3) 0 (Some 1) 3 (Some 4) = Ok (w', s') /\
  (forall p, generates s p -> lenZ (holes p) < 1) /\ (exists p, generates s' p /\ lenZ (border p) = 3 /\ lenZ (holes p) = 1 /\ forall vs, In vs (holes p) -> lenZ vs = 3).
Proof.
  do 4 eexists. split; [reflexivity|]. split; [reflexivity|]. split.
  - intros p. eapply (C83_holes_missed reference naturals None 3 0 1 3); [exact reference_coins|exact reference_nearest|reflexivity|lia|].
    intros m E. injection E as <-. exists 5. split; [exact prime_five|lia].
  - pose proof (C83_holes_reached reference naturals None 3 (Some 3) 0 (Some 1) 3 (Some 4) _ _ 1 reference_coins reference_nearest reference_hull eq_refl ltac:(lia) ltac:(lia)
      ltac:(split; [lia|intros m E; injection E as <-; lia]) (naturals_drawn _) (fuel_enough 12 ltac:(lia))) as (K1 & K2).
    apply K2, K1. exists 7. split; [exact prime_seven|]. split; [lia|]. split; [lia|]. intros m E. injection E as <-. left. lia.
Qed.
