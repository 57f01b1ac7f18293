(** The API: no draw asks for an empty range, an empty sample or an impossible list size. *)
From Coq Require Import Znumtheory.
From Verif Require Import Base Prog Geometry Ctx Utils Contracts Spec RangeSpec Factories Strategies Planar QcTac ProgProofs
  PrimeProofs PlanarProofs ContourProofs NoInvalid RangeProofs.
From Verif Require Bertrand.
Open Scope Z_scope.

Lemma next_prime_twice n : 3 <= n -> exists q, to_next_prime n = Ok q /\ q <= 2 * n.
Proof.
  intros H. destruct (to_next_prime_spec n H) as (q & E & _ & _ & _ & Hl). exists q. split; [exact E|].
  destruct (Bertrand.bertrand_Z n ltac:(lia)) as (p & Hp & H1 & H2). specialize (Hl p Hp ltac:(lia) ltac:(lia)). lia.
Qed.
Lemma supplies_enough xs ys n m : m <= n -> supplies_both xs ys n -> enough xs m /\ enough (ordinates xs ys) m.
Proof.
  intros Hm (H1 & H2). split; [eapply enough_le; [exact Hm|exact H1]|]. destruct ys as [s|]; cbn [ordinates].
  - eapply enough_le; [exact Hm|apply H2; reflexivity].
  - eapply enough_le; [exact Hm|exact H1].
Qed.
Lemma supplies_grid xs ys n m : 3 <= n -> 2 * n <= m -> supplies_both xs ys m -> grid_enough xs ys n.
Proof.
  intros H1 H2 H lower E. destruct (next_prime_twice n H1) as (q & Eq & Hq). rewrite E in Eq. injection Eq as ->.
  eapply supplies_enough; [|exact H]. lia.
Qed.

Section Api.
  Context (ctx : context) (xs : scalars) (ys : option scalars)
    (Ha : forall y x, ctx_atan2 ctx y x <> Raise InvalidArgument) (Hh : forall l, is_hull l (ctx_hull ctx l)).
  Lemma no_invalid_points w s : supplies_both xs ys 1 -> points xs ys = Ok (w, s) -> ~ can_raise s InvalidArgument.
  Proof. intros Hs H. injection H as _ <-. destruct (supplies_enough _ _ _ _ (Z.le_refl 1) Hs). apply pni_point; assumption. Qed.
  Lemma no_invalid_multipoints mn mx w s : supplies_both xs ys 1 -> multipoints xs ys mn mx = Ok (w, s) -> ~ can_raise s InvalidArgument.
  Proof.
    intros Hs H. unfold multipoints in H. validate; try discriminate. injection H as _ <-.
    destruct (supplies_enough _ _ _ _ (Z.le_refl 1) Hs). unfold to_multipoint_strategy. apply pni_points; try assumption; [unfold MIN_MULTIPOINT_SIZE; lia|].
    apply clamped_range. assumption.
  Qed.
  Lemma no_invalid_segments w s : supplies_both xs ys 1 -> segments xs ys = Ok (w, s) -> ~ can_raise s InvalidArgument.
  Proof. intros Hs H. injection H as _ <-. destruct (supplies_enough _ _ _ _ (Z.le_refl 1) Hs). apply pni_segment; assumption. Qed.
  Lemma no_invalid_boxes w s : supplies_both xs ys 2 -> boxes xs ys = Ok (w, s) -> ~ can_raise s InvalidArgument.
  Proof. intros Hs H. injection H as _ <-. destruct (supplies_enough _ _ _ _ (Z.le_refl 2) Hs). apply pni_box; assumption. Qed.
  Lemma no_invalid_rectangular w s : supplies_both xs ys 2 -> rectangular_contours xs ys = Ok (w, s) -> ~ can_raise s InvalidArgument.
  Proof.
    intros Hs H. injection H as _ <-. destruct (supplies_enough _ _ _ _ (Z.le_refl 2) Hs).
    unfold to_rectangular_vertex_sequence_strategy. apply pni_pmap, pni_box; assumption.
  Qed.
  Lemma no_invalid_triangular w s : supplies_both xs ys 1 -> triangular_contours xs ys = Ok (w, s) -> ~ can_raise s InvalidArgument.
  Proof. intros Hs H. injection H as _ <-. destruct (supplies_enough _ _ _ _ (Z.le_refl 1) Hs). apply pni_triangle; assumption. Qed.
  Lemma no_invalid_multisegments mn mx w s : supplies_both xs ys (2 * Z.max mn 3) -> multisegments ctx xs ys mn mx = Ok (w, s) ->
    ~ can_raise s InvalidArgument.
  Proof.
    intros Hs H. unfold multisegments in H. validate; try discriminate. injection H as _ <-.
    assert (Hs1 : MIN_MULTISEGMENT_SIZE = 2) by reflexivity.
    destruct (supplies_enough _ _ (2 * Z.max mn 3) (Z.max mn MIN_MULTISEGMENT_SIZE + 1) ltac:(lia) Hs).
    unfold to_multisegment_strategy. apply pni_segments_strategy; try assumption; [lia|apply clamped_range; assumption|].
    intros _. eapply supplies_grid; [lia| |exact Hs]. lia.
  Qed.
  Lemma no_invalid_contours mn mx w s : supplies_both xs ys (2 * Z.max mn 3) -> contours ctx xs ys mn mx = Ok (w, s) ->
    ~ can_raise s InvalidArgument.
  Proof.
    intros Hs H. unfold contours in H. validate; try discriminate. injection H as _ <-. change MIN_CONTOUR_SIZE with 3 in *.
    apply pni_contour_strategy; try assumption; [lia|apply clamped_range; assumption|]. eapply supplies_grid; [lia| |exact Hs]. lia.
  Qed.
  Lemma no_invalid_convex mn mx w s : supplies_both xs ys (2 * Z.max mn 3) -> convex_contours ctx xs ys mn mx = Ok (w, s) ->
    ~ can_raise s InvalidArgument.
  Proof.
    intros Hs H. unfold convex_contours in H. validate; try discriminate. injection H as _ <-. change CONVEX with 3 in *.
    apply pni_convex_strategy; try assumption; [lia|]. eapply supplies_grid; [lia| |exact Hs]. lia.
  Qed.
  Lemma no_invalid_concave mn mx w s : supplies_both xs ys (2 * Z.max mn 4) -> concave_contours ctx xs ys mn mx = Ok (w, s) ->
    ~ can_raise s InvalidArgument.
  Proof.
    intros Hs H. unfold concave_contours in H. validate; try discriminate. injection H as _ <-. change CONCAVE with 4 in *.
    apply pni_concave_strategy; try assumption; [lia|apply clamped_range; assumption|]. eapply supplies_grid; [lia| |exact Hs]. lia.
  Qed.
  Lemma no_invalid_star mn mx w s : supplies_both xs ys (2 * Z.max mn 3) -> star_contours ctx xs ys mn mx = Ok (w, s) ->
    ~ can_raise s InvalidArgument.
  Proof.
    intros Hs H. unfold star_contours in H. validate; try discriminate. injection H as _ <-. change MIN_CONTOUR_SIZE with 3 in *.
    apply pni_star_strategy; try assumption; [lia|]. eapply supplies_grid; [lia| |exact Hs]. lia.
  Qed.
  Lemma no_invalid_multicontours mn mx cmn cmx w s : supplies_both xs ys (2 * (Z.max mn 2 * Z.max cmn 3)) ->
    multicontours ctx xs ys mn mx cmn cmx = Ok (w, s) -> ~ can_raise s InvalidArgument.
  Proof.
    intros Hs H. unfold multicontours in H. validate; try discriminate. injection H as _ <-. change MIN_CONTOUR_SIZE with 3 in *.
    change MIN_MULTICONTOUR_SIZE with 2 in *.
    apply pni_multicontour_strategy; try assumption; [lia|apply clamped_range; assumption|lia|]. eapply supplies_grid; [nia| |exact Hs]. lia.
  Qed.
  Lemma no_invalid_polygons mn mx hmn hmx smn smx w s : supplies_both xs ys (2 * (Z.max mn 3 + Z.max hmn 0 * Z.max smn 3)) ->
    polygons ctx xs ys mn mx hmn hmx smn smx = Ok (w, s) -> ~ can_raise s InvalidArgument.
  Proof.
    intros Hs H. unfold polygons in H. validate; try discriminate. injection H as _ <-. change MIN_CONTOUR_SIZE with 3 in *.
    apply pni_polygon_strategy; try assumption; [lia|apply clamped_range; assumption|lia|apply clamped_range; assumption|lia|].
    eapply supplies_grid; [nia| |exact Hs]. lia.
  Qed.

  (** Multipolygons and mixes cut samples out of the coordinates themselves, however many. *)
  Context (Hx : forall n, supplies xs n) (Hy : forall s n, ys = Some s -> supplies s n).
  Lemma always_both n : supplies_both xs (Some (ordinates xs ys)) n.
  Proof. split; [apply Hx|]. intros s E. injection E as <-. destruct ys as [s|]; [apply Hy; reflexivity|apply Hx]. Qed.
  Lemma always_ordinates n : enough (ordinates xs ys) n.
  Proof. apply always_both. reflexivity. Qed.
  Lemma no_invalid_multipolygons mn mx bmn bmx hmn hmx smn smx w s : 0 <= hmn ->
    multipolygons ctx xs ys mn mx bmn bmx hmn hmx smn smx = Ok (w, s) -> ~ can_raise s InvalidArgument.
  Proof.
    intros H0 H. unfold multipolygons in H. validate; try discriminate. injection H as _ <-. change MIN_CONTOUR_SIZE with 3 in *.
    change MIN_MULTIPOLYGON_SIZE with 2 in *. unfold to_multipolygon_strategy. change (or_else ys xs) with (ordinates xs ys). cbv zeta.
    apply pni_bind; [apply pni_lift; auto with ni|]. intros mpc Hmpc. apply gen_lift in Hmpc.
    assert (H5 : 5 <= mpc) by (pose proof (to_next_prime_ge _ _ Hmpc); lia).
    match goal with |- context [alt ?p ?q] => match p with bind _ _ => set (r := alt p q); assert (Hr : pni r) end end.
    { unfold r.
      assert (K : forall a, pni (let! l := unique_scalars (match a with AxisX => xs | AxisY => ordinates xs ys end) (Z.max mn 2 * mpc)
          match mx, bmx, hmx, smx with Some m, Some b, Some c, Some s => Some (Z.max (m * (b + s * c)) (Z.max mn 2 * mpc)) | _, _, _, _ => None end in
        coordinates_to_polygons ctx a xs (ordinates xs ys) (Z.max bmn 3) bmx hmn hmx (Z.max smn 3) smx mpc (Z.max mn 2) mx l)).
      { intros a. apply pni_bind.
        - apply pni_unique_scalars; [nia| |destruct a; [apply Hx|apply always_ordinates]].
          intros m Em. destruct mx as [m1|], bmx as [m2|], hmx as [m3|], smx as [m4|]; try discriminate. injection Em as <-. lia.
        - intros l Hl. apply gen_unique_scalars in Hl. destruct Hl as (_ & _ & (Hl & _) & _).
          apply pni_multipolygons_along; try assumption; try lia; try (apply clamped_range; assumption); try apply Hx; try apply always_ordinates.
          intros m Em. pose proof (clamped_range hmn hmx 0 ltac:(assumption) m Em). lia. }
      apply pni_alt; [apply (K AxisX)|apply (K AxisY)]. }
    clearbody r. destruct (hmn =? 0); [|exact Hr]. apply pni_alt; [|exact Hr]. apply pni_pmap.
    apply pni_multicontour_strategy; try assumption; [lia|apply clamped_range; assumption|lia|].
    eapply (supplies_grid _ _ _ (2 * (Z.max mn 2 * Z.max bmn 3))); [nia|lia|]. apply always_both.
  Qed.
  Lemma no_invalid_mixes pmn pmx smn smx gmn gmx bmn bmx hmn hmx zmn zmx w s :
    mixes ctx xs ys pmn pmx smn smx gmn gmx bmn bmx hmn hmx zmn zmx = Ok (w, s) -> ~ can_raise s InvalidArgument.
  Proof.
    intros H. unfold mixes in H. validate; try discriminate. cbv zeta in H.
    match type of H with rbind ?c _ = _ => destruct c as [u|e] eqn:Ec; [|discriminate] end. cbn [rbind] in H. injection H as _ <-.
    change MIN_CONTOUR_SIZE with 3 in *.
    assert (Fp : forall m, pmx = Some m -> Z.max pmn 0 <= m) by (apply clamped_range; assumption).
    assert (Fs : forall m, smx = Some m -> Z.max smn 0 <= m) by (apply clamped_range; assumption).
    assert (Fg : forall m, gmx = Some m -> Z.max gmn 0 <= m) by (apply clamped_range; assumption).
    assert (K : forall i j k, Z.max pmn 0 <= i -> (forall m, pmx = Some m -> i <= m) -> Z.max smn 0 <= j -> (forall m, smx = Some m -> j <= m) ->
      Z.max gmn 0 <= k -> (forall m, gmx = Some m -> k <= m) -> 1 <= i + j + k ->
      pni (to_mix_strategy ctx xs ys i pmx j smx k gmx (Z.max bmn 3) bmx (Z.max hmn 0) hmx (Z.max zmn 3) zmx)).
    { intros i j k I1 I2 J1 J2 K1 K2 Hs. unfold to_mix_strategy. change (or_else ys xs) with (ordinates xs ys). cbv zeta.
      apply pni_bind; [apply pni_lift; auto with ni|]. intros mpc Hmpc. apply gen_lift in Hmpc.
      assert (H5 : 5 <= mpc) by (pose proof (to_next_prime_ge _ _ Hmpc); lia).
      assert (L : forall a, pni (let! l := unique_scalars (match a with AxisX => xs | AxisY => ordinates xs ys end) (i + 2 * j + k * mpc) None in
        coordinates_to_mix ctx xs (ordinates xs ys) i pmx j smx k gmx (Z.max bmn 3) bmx (Z.max hmn 0) hmx (Z.max zmn 3) zmx mpc a l)).
      { intros a. apply pni_bind.
        - apply pni_unique_scalars; [nia|discriminate|destruct a; [apply Hx|apply always_ordinates]].
        - intros l Hl. apply gen_unique_scalars in Hl. destruct Hl as (_ & _ & (Hl & _) & _).
          apply pni_mix_along; try assumption; try lia; try (apply clamped_range; assumption); try apply Hx; try apply always_ordinates.
          apply next_prime_twice. }
      apply pni_alt; [apply (L AxisX)|apply (L AxisY)]. }
    assert (may : forall mx, may_have mx = true -> forall m, (forall m, mx = Some m -> Z.max m 0 = m) -> mx = Some m -> 1 <= m).
    { intros mx Hm m Hp ->. cbn in Hm. apply negb_true_iff, Z.eqb_neq in Hm. specialize (Hp m eq_refl). lia. }
    assert (Gp : may_have pmx = true -> forall m, pmx = Some m -> Z.max (Z.max pmn 0) 1 <= m).
    { intros M m E. pose proof (may _ M m ltac:(intros m' E'; specialize (Fp m' E'); lia) E). specialize (Fp m E). lia. }
    assert (Gs : may_have smx = true -> forall m, smx = Some m -> Z.max (Z.max smn 0) 1 <= m).
    { intros M m E. pose proof (may _ M m ltac:(intros m' E'; specialize (Fs m' E'); lia) E). specialize (Fs m E). lia. }
    assert (Gg : may_have gmx = true -> forall m, gmx = Some m -> Z.max (Z.max gmn 0) 1 <= m).
    { intros M m E. pose proof (may _ M m ltac:(intros m' E'; specialize (Fg m' E'); lia) E). specialize (Fg m E). lia. }
    destruct (may_have pmx), (may_have smx), (may_have gmx); try discriminate; repeat apply pni_alt; apply K; try assumption; try lia;
      try (apply Gp; reflexivity); try (apply Gs; reflexivity); try (apply Gg; reflexivity).
  Qed.
End Api.
