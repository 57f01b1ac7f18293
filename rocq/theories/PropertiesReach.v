(** C92: which numbers of polygons of a multipolygon, and of points, segments and polygons of a mix, can be generated. *)
From Coq Require Import Znumtheory.
From Verif Require Import Base Prog Geometry Ctx Utils Contracts Planar Spec RangeSpec WindSpec HullSpec GeneralSpec MixSpec RelaxSpec SizeSpec CountSpec
  Strategies ProgProofs PrimeProofs CountProofs ReachProofs Reference ReferenceProofs HullChain PropertiesCounts.
Import List ListNotations.
Local Open Scope Z_scope.

(** ** C92: the polygons of a multipolygon with holes each need a prime number [r] of coordinates, and if all sizes have maxima,
    there are only as many coordinates as the greatest number of vertices. *)
Theorem C92_multipolygons : forall ctx xs ys mn kmx bmn bmx hmn hmx smn smx w s ps r m v,
  multipolygons ctx xs ys mn kmx bmn bmx hmn hmx smn smx = Ok (w, s) -> 0 < hmn ->
  smallest_prime_above (Z.max bmn 3 + hmn * Z.max smn 3) r -> kmx = Some m -> max_vertices bmx hmx smx = Some v -> generates s ps ->
  lenZ ps = Z.max mn 2 \/ lenZ ps * r <= m * v.
Proof. exact multipolygons_number. Qed.
Print Assumptions C92_multipolygons.
(** If triangular borders and holes are allowed this is the only condition: given enough coordinates (and iterations), polygons with the numbers [ks] of holes
    can be generated.  [r] is a prime number of coordinates that is enough for each of them; [r = r0] is always possible if each has the least number of holes. *)
Theorem C92_multipolygons_reached : forall ctx xs ys mn kmx bmn bmx hmn hmx smn smx w s ks r0 r,
  (forall n, (2 <= n)%nat -> is_change n (ctx_coins ctx n)) -> (forall l s, l <> [] -> is_nearest l s (ctx_nearest ctx l s)) ->
  (forall l, is_hull l (ctx_hull ctx l)) ->
  multipolygons ctx xs ys mn kmx bmn bmx hmn hmx smn smx = Ok (w, s) -> bmn <= 3 -> 0 <= hmn -> smn <= 3 -> size_ok (lenZ ks) (Z.max mn 2) kmx ->
  smallest_prime_above (3 + 3 * hmn) r0 -> prime r -> 5 <= r -> (forall k, In k ks -> size_ok k hmn hmx /\ 3 + 3 * k <= r) ->
  (forall v, max_vertices bmx hmx smx = Some v -> r <= v \/ r = r0) ->
  (forall m v, kmx = Some m -> max_vertices bmx hmx smx = Some v -> lenZ ks * r <= Z.max (m * v) (Z.max mn 2 * r0)) ->
  draws_upto xs ys ((r + 1) ^ r + lenZ ks * r) -> (let n := Z.to_nat r in n * n + 4 * n < Pos.to_nat (ctx_fuel ctx))%nat ->
  exists ps, generates s ps /\
    Forall2 (fun k p => lenZ (border p) = 3 /\ lenZ (holes p) = k /\ forall vs, In vs (holes p) -> lenZ vs = 3) ks ps.
Proof. exact (fun ctx xs ys mn kmx bmn bmx hmn hmx smn smx w s ks r0 r C1 C2 => multipolygons_reached ctx xs ys mn kmx bmn bmx hmn hmx smn smx w s ks r0 r (conj C1 C2)). Qed.
Print Assumptions C92_multipolygons_reached.
(** Every number of points and segments within the bounds and polygons with every numbers [ks] of holes within the bounds, at least two of the three kinds,
    can be generated, if a prime number of coordinates that is enough for each polygon is below the maximum (or is the smallest possible). *)
Theorem C92_mixes_reached : forall ctx xs ys pmn pmx gmn gmx qmn qmx mn mx hmn hmx smn smx w s p g ks r,
  (forall n, (2 <= n)%nat -> is_change n (ctx_coins ctx n)) -> (forall l s, l <> [] -> is_nearest l s (ctx_nearest ctx l s)) ->
  (forall l, is_hull l (ctx_hull ctx l)) ->
  mixes ctx xs ys pmn pmx gmn gmx qmn qmx mn mx hmn hmx smn smx = Ok (w, s) -> mn <= 3 -> smn <= 3 ->
  size_ok p (Z.max pmn 0) pmx -> size_ok g (Z.max gmn 0) gmx -> size_ok (lenZ ks) (Z.max qmn 0) qmx ->
  (1 <= p /\ 1 <= g \/ 1 <= p /\ 1 <= lenZ ks \/ 1 <= g /\ 1 <= lenZ ks) ->
  prime r -> 5 <= r -> (forall k, In k ks -> size_ok k (Z.max hmn 0) hmx /\ 3 + 3 * k <= r) ->
  (forall v, max_vertices mx hmx smx = Some v -> r <= v \/ smallest_prime_above (3 + 3 * Z.max hmn 0) r) ->
  draws_upto xs ys ((r + 1) ^ r + p + 2 * g + lenZ ks * r) -> (let n := Z.to_nat r in n * n + 4 * n < Pos.to_nat (ctx_fuel ctx))%nat ->
  exists m, generates s m /\ lenZ (elements (discrete m)) = p /\ lenZ (elements (linear m)) = g /\
    Forall2 (fun k x => lenZ (border x) = 3 /\ lenZ (holes x) = k /\ forall vs, In vs (holes x) -> lenZ vs = 3) ks (elements (shaped m)).
Proof. exact (fun ctx xs ys pmn pmx gmn gmx qmn qmx mn mx hmn hmx smn smx w s p g ks r C1 C2 =>
  mixes_reached ctx xs ys pmn pmx gmn gmx qmn qmx mn mx hmn hmx smn smx w s p g ks r (conj C1 C2)). Qed.
Print Assumptions C92_mixes_reached.

Lemma above_six : smallest_prime_above 6 7.
Proof.
  split; [exact prime_seven|]. split; [lia|]. split; [lia|]. intros q Pq H3 H6. destruct (Z.eq_dec q 6) as [->|]; [|lia].
  exfalso. destruct (prime_divisors _ Pq 2) as [E|[E|[E|E]]]; [exists 3; ring|lia..].
Qed.
(** Two or three triangles with one triangular hole each were asked for, and there are always two; with one vertex more allowed in each hole, there
    may be three. *)
Example C92_two_of_three : exists w s w' s', multipolygons reference naturals None 2 (Some 3) 3 (Some 3) 1 (Some 1) 3 (Some 3) = Ok (w, s) /\
  multipolygons reference naturals None 2 (Some 3) 3 (Some 3) 1 (Some 1) 3 (Some 4) = Ok (w', s') /\
  (exists ps, generates s ps /\ lenZ ps = 2) /\ (forall ps, generates s ps -> lenZ ps < 3) /\ (exists ps, generates s' ps /\ lenZ ps = 3).
Proof.
  assert (Ones : forall ks, (forall k, In k ks -> k = 1) -> forall k : Z, In k ks -> size_ok k 1 (Some 1) /\ 3 + 3 * k <= 7).
  { intros ks H k Hk. rewrite (H k Hk). split; [split; [lia|intros m E; injection E as <-; lia]|lia]. }
  do 4 eexists. split; [reflexivity|]. split; [reflexivity|]. split; [|split].
  - destruct (C92_multipolygons_reached reference naturals None 2 (Some 3) 3 (Some 3) 1 (Some 1) 3 (Some 3) _ _ [1; 1] 7 7 reference_coins reference_nearest reference_hull
      eq_refl ltac:(lia) ltac:(lia) ltac:(lia) ltac:(split; [unfold lenZ; cbn [length]; lia|intros m E; injection E as <-; unfold lenZ; cbn [length]; lia]) above_six prime_seven ltac:(lia)) as (ps & G & F).
    + apply Ones. intros k [<-|[<-|[]]]; reflexivity.
    + auto.
    + intros m v E E'. injection E as <-. injection E' as <-. unfold lenZ. cbn [length]. lia.
    + apply naturals_drawn.
    + exact (fuel_enough 7 ltac:(lia)).
    + exists ps. split; [exact G|]. apply Forall2_length in F. unfold lenZ. rewrite <- F. reflexivity.
  - intros ps G. destruct (C92_multipolygons reference naturals None 2 (Some 3) 3 (Some 3) 1 (Some 1) 3 (Some 3) _ _ ps 7 3 6 eq_refl ltac:(lia) above_six eq_refl eq_refl G) as [E|E]; lia.
  - destruct (C92_multipolygons_reached reference naturals None 2 (Some 3) 3 (Some 3) 1 (Some 1) 3 (Some 4) _ _ [1; 1; 1] 7 7 reference_coins reference_nearest reference_hull
      eq_refl ltac:(lia) ltac:(lia) ltac:(lia) ltac:(split; [unfold lenZ; cbn [length]; lia|intros m E; injection E as <-; unfold lenZ; cbn [length]; lia]) above_six prime_seven ltac:(lia)) as (ps & G & F).
    + apply Ones. intros k [<-|[<-|[<-|[]]]]; reflexivity.
    + auto.
    + intros m v E E'. injection E as <-. injection E' as <-. unfold lenZ. cbn [length]. lia.
    + apply naturals_drawn.
    + exact (fuel_enough 7 ltac:(lia)).
    + exists ps. split; [exact G|]. apply Forall2_length in F. unfold lenZ. rewrite <- F. reflexivity.
Qed.
(** A mix of three points, four segments, a triangle and a triangle with a hole. *)
Example C92_mix : exists w s m, mixes reference naturals None 0 None 0 (Some 4) 0 None 3 None 0 None 3 None = Ok (w, s) /\ generates s m /\
  lenZ (elements (discrete m)) = 3 /\ lenZ (elements (linear m)) = 4 /\ map (fun p => lenZ (holes p)) (elements (shaped m)) = [0; 1].
Proof.
  destruct (C92_mixes_reached reference naturals None 0 None 0 (Some 4) 0 None 3 None 0 None 3 None _ _ 3 4 [0; 1] 7 reference_coins reference_nearest reference_hull
    eq_refl ltac:(lia) ltac:(lia)) as (m & G & L1 & L2 & F).
  - split; [lia|discriminate].
  - split; [lia|intros m E; injection E as <-; lia].
  - split; [unfold lenZ; cbn [length]; lia|discriminate].
  - left. lia.
  - exact prime_seven.
  - lia.
  - intros k [<-|[<-|[]]]; (split; [split; [lia|discriminate]|lia]).
  - discriminate.
  - apply naturals_drawn.
  - exact (fuel_enough 7 ltac:(lia)).
  - do 3 eexists. split; [reflexivity|]. split; [exact G|]. split; [exact L1|]. split; [exact L2|].
    inversion F as [|a x l l' (_ & H1 & _) F1 E1 E2]; subst. inversion F1 as [|a' x' l2 l2' (_ & H2 & _) F2 E3 E4]; subst. inversion F2. subst. cbn [map]. rewrite H1, H2. reflexivity.
Qed.
