(** Parts of drawn values that can be drawn alone. *)
From Verif Require Import Base Prog Geometry Ctx Utils Contracts Factories Strategies Planar Spec RelaxSpec PartSpec ProgProofs
  GeomProofs ListProofs LoopProofs TriProofs ConvexProofs MixSpec SimpleProofs ApiProofs HelperProofs PrimeProofs PlanarProofs RelaxProofs RelaxApiProofs SequenceProofs SliceProofs SeparationProofs MultipolygonProofs MixProofs MixApiProofs SizeApiProofs ContourProofs StarGeneral WindSpec QuadEdge Triangulation PolyFaultProofs RangeProofs EndProofs.
Import List ListNotations.
Local Open Scope Z_scope.

Lemma py_slice_in {A} (l : list A) i j x : In x (py_slice l i j) -> In x l.
Proof.
  unfold py_slice. intros H. set (b := py_bound l i) in *. rewrite <- (firstn_skipn b l). apply in_or_app. right.
  rewrite <- (firstn_skipn (py_bound l j - b) (skipn b l)). apply in_or_app. left. exact H.
Qed.
(** ** Polygons of slices of the coordinates. *)
Section Slices.
  Context (ctx : context) (a : axis) (xs ys : scalars) (mn : Z) (mx : option Z) (hmn : Z) (hmx : option Z) (smn : Z) (smx : option Z)
    (F1 : fits mn mx) (H1 : 3 <= mn) (F2 : fits hmn hmx) (H2 : 0 <= hmn) (F3 : fits smn smx) (H3 : 3 <= smn).
  Notation whole := (to_polygon_strategy ctx xs (Some ys) mn mx hmn hmx smn smx).
  Lemma slice_alone l p : (forall x, In x l -> drawable (scalars_of a xs ys) x) ->
    generates (slice_polygon ctx a xs ys mn mx hmn hmx smn smx l) p -> generates whole p.
  Proof.
    intros Hl H. unfold slice_polygon in H. destruct (sliced a l xs ys) as (sx & sy) eqn:E.
    assert (richer sx xs /\ richer sy ys) as (Rx & Ry).
    { destruct a; cbn [sliced scalars_of] in *; injection E as <- <-; split; try (intros q Hq; exact Hq); intros q Hq; apply drawable_sampled in Hq; auto. }
    revert H. apply cov_polygon; try apply wider_refl; try assumption. left. repeat split.
  Qed.
  Lemma loop_alone mpc left : forall l start ps, (forall x, In x l -> drawable (scalars_of a xs ys) x) ->
    generates (multipolygon_loop ctx a xs ys mn mx hmn hmx smn smx mpc left l start) ps -> forall p, In p ps -> generates whole p.
  Proof.
    induction left as [|left IH]; intros l start ps Hd H p Hp.
    - cbn [multipolygon_loop] in H. apply gen_bind in H. destruct H as (r & Hr & H). apply gen_ret in H. subst ps.
      destruct Hp as [<- |[]]. eapply slice_alone; [|exact Hr]. intros x Hx. eapply Hd, py_drop_in, Hx.
    - destruct left as [|left].
      { cbn [multipolygon_loop] in H. apply gen_bind in H. destruct H as (r & Hr & H). apply gen_ret in H. subst ps.
        destruct Hp as [<- |[]]. eapply slice_alone; [|exact Hr]. intros x Hx. eapply Hd, py_drop_in, Hx. }
      remember (S left) as left1 eqn:El. unfold multipolygon_loop in H; fold multipolygon_loop in H. subst left1.
      apply gen_bind in H. destruct H as (count & Hc & H). apply gen_bind in H. destruct H as (prior & _ & H).
      apply gen_bind in H. destruct H as (r & Hr & H). apply gen_bind in H. destruct H as (blocked & Hb & H).
      apply gen_bind in H. destruct H as (rest & Hrest & H). apply gen_ret in H. subst ps.
      destruct Hp as [<- |Hp]; [|exact (IH _ _ _ Hd Hrest p Hp)].
      eapply slice_alone; [|exact Hr]. intros x Hx. apply Hd. eapply py_slice_in, Hx.
  Qed.
  Lemma mix_alone drawers : forall l P S Q P' S' Q', (forall x, In x l -> drawable (scalars_of a xs ys) x) ->
    generates (mix_loop ctx xs ys mn mx hmn hmx smn smx a drawers l P S Q) (P', S', Q') ->
    forall p, In p Q' -> In p Q \/ generates whole p.
  Proof.
    induction drawers as [|(d, count) drawers IH]; intros l P S Q P' S' Q' Hd H p Hp.
    { cbn [mix_loop] in H. apply gen_ret in H. injection H as -> -> ->. auto. }
    cbn [mix_loop] in H. apply gen_bind in H. destruct H as (((P1 & S1) & Q1) & Hdraw & H).
    apply gen_bind in H. destruct H as (touch & _ & H).
    destruct (IH _ _ _ _ _ _ _ (fun x Hx => Hd x (py_drop_in _ _ _ Hx)) H p Hp) as [K|K]; [|auto].
    destruct d; apply gen_bind in Hdraw; destruct Hdraw as (r & Hr & Hdraw); apply gen_ret in Hdraw; injection Hdraw as -> -> ->; auto.
    apply in_app_or in K. destruct K as [K|[<- |[]]]; [auto|]. right. unfold draw_polygon in Hr. apply gen_bind in Hr. destruct Hr as (n & _ & Hr).
    change (generates (slice_polygon ctx a xs ys mn mx hmn hmx smn smx (py_take l n)) r) in Hr.
    eapply slice_alone; [|exact Hr]. intros x Hx. eapply Hd, py_take_in, Hx.
  Qed.
End Slices.

Lemma multipolygon_alone ctx xs ys mn mx bmn bmx hmn hmx smn smx ps :
  fits bmn bmx -> 3 <= bmn -> fits hmn hmx -> 0 <= hmn -> fits smn smx -> 3 <= smn ->
  generates (to_multipolygon_strategy ctx xs ys mn mx bmn bmx hmn hmx smn smx) ps ->
  (forall p, In p ps -> generates (to_polygon_strategy ctx xs (Some (ordinates xs ys)) bmn bmx hmn hmx smn smx) p) \/
  hmn = 0 /\ exists mc, ps = map (fun c => Poly c []) mc /\ generates (to_multicontour_strategy ctx xs (Some (ordinates xs ys)) mn mx bmn bmx) mc.
Proof.
  intros F1 H1 F2 H2 F3 H3 H. unfold to_multipolygon_strategy in H. cbv zeta in H. change (or_else ys xs) with (ordinates xs ys) in H.
  set (zs := ordinates xs ys) in *. clearbody zs. clear ys. apply gen_bind in H. destruct H as (mpc & _ & H).
  assert (Along : forall a mt mxt, generates (let! l := unique_scalars (scalars_of a xs zs) mt mxt in
     coordinates_to_polygons ctx a xs zs bmn bmx hmn hmx smn smx mpc mn mx l) ps ->
     forall p, In p ps -> generates (to_polygon_strategy ctx xs (Some zs) bmn bmx hmn hmx smn smx) p).
  { clear H. intros a mt mxt H. apply gen_bind in H. destruct H as (l & Hl & H). apply gen_unique_scalars in Hl. destruct Hl as (_ & _ & _ & Hd).
    unfold coordinates_to_polygons in H. apply gen_bind in H. destruct H as (size & _ & H).
    eapply loop_alone; [assumption..| |exact H]. intros x Hx. apply Hd. eapply Permutation_in; [symmetry; apply isort_perm|exact Hx]. }
  pose proof (Along AxisX) as AX. pose proof (Along AxisY) as AY. cbn [scalars_of] in AX, AY.
  destruct (Z.eqb_spec hmn 0) as [E|E].
  - apply gen_alt in H. destruct H as [H|H].
    + right. split; [exact E|]. apply gen_pmap in H. destruct H as (mc & H & ->). exists mc. auto.
    + left. apply gen_alt in H. destruct H as [H|H]; [eapply AX, H|eapply AY, H].
  - left. apply gen_alt in H. destruct H as [H|H]; [eapply AX, H|eapply AY, H].
Qed.
Lemma mix_polygons_alone ctx xs ys pmn pmx gmn gmx qmn qmx bmn bmx hmn hmx smn smx m :
  fits bmn bmx -> 3 <= bmn -> fits hmn hmx -> 0 <= hmn -> fits smn smx -> 3 <= smn ->
  generates (to_mix_strategy ctx xs ys pmn pmx gmn gmx qmn qmx bmn bmx hmn hmx smn smx) m ->
  forall p, In p (elements (shaped m)) -> generates (to_polygon_strategy ctx xs (Some (ordinates xs ys)) bmn bmx hmn hmx smn smx) p.
Proof.
  intros F1 H1 F2 H2 F3 H3 H p Hp. unfold to_mix_strategy in H. cbv zeta in H. change (or_else ys xs) with (ordinates xs ys) in H.
  set (zs := ordinates xs ys) in *. clearbody zs. clear ys. apply gen_bind in H. destruct H as (mpc & _ & H).
  assert (Along : forall a mt mxt, generates (let! l := unique_scalars (scalars_of a xs zs) mt mxt in
     coordinates_to_mix ctx xs zs pmn pmx gmn gmx qmn qmx bmn bmx hmn hmx smn smx mpc a l) m ->
     generates (to_polygon_strategy ctx xs (Some zs) bmn bmx hmn hmx smn smx) p).
  { clear H. intros a mt mxt H. apply gen_bind in H. destruct H as (l & Hl & H). apply gen_unique_scalars in Hl. destruct Hl as (_ & _ & _ & Hd).
    unfold coordinates_to_mix in H. apply gen_bind in H. destruct H as (((pc & sc) & qc) & _ & H). apply gen_bind in H. destruct H as (drawers & _ & H).
    apply gen_bind in H. destruct H as (((P & S) & Q) & H & Hm). apply gen_ret in Hm. subst m. cbn [shaped] in Hp. rewrite elements_unpack in Hp.
    apply (mix_alone ctx a xs zs bmn bmx hmn hmx smn smx) with (p := p) in H; try assumption.
    - destruct H as [[]|H]. exact H.
    - intros x Hx. apply Hd. eapply Permutation_in; [symmetry; apply isort_perm|exact Hx]. }
  pose proof (Along AxisX) as AX. pose proof (Along AxisY) as AY. cbn [scalars_of] in AX, AY.
  apply gen_alt in H. destruct H as [H|H]; [eapply AX, H|eapply AY, H].
Qed.
Lemma polygon_given ctx xs ys bmn bmx hmn hmx smn smx :
  to_polygon_strategy ctx xs ys bmn bmx hmn hmx smn smx = to_polygon_strategy ctx xs (Some (ordinates xs ys)) bmn bmx hmn hmx smn smx.
Proof. destruct ys; reflexivity. Qed.
Lemma multicontour_given ctx xs ys mn mx cmn cmx :
  to_multicontour_strategy ctx xs ys mn mx cmn cmx = to_multicontour_strategy ctx xs (Some (ordinates xs ys)) mn mx cmn cmx.
Proof. destruct ys; reflexivity. Qed.

(** ** The public API. *)
Lemma fits_zero mn mx : ~ bad_sizes mn mx 0 -> 0 <= mn -> fits mn mx.
Proof. intros H H0. apply not_bad_fits in H. replace (Z.max mn 0) with mn in H by lia. exact H. Qed.
Lemma multipolygons_parts ctx xs ys mn mx bmn bmx hmn hmx smn smx w s ps : 0 <= hmn ->
  multipolygons ctx xs ys mn mx bmn bmx hmn hmx smn smx = Ok (w, s) -> generates s ps ->
  (exists w' s', polygons ctx xs ys bmn bmx hmn hmx smn smx = Ok (w', s') /\ forall p, In p ps -> generates s' p) \/
  hmn = 0 /\ exists w' s' mc, multicontours ctx xs ys mn mx bmn bmx = Ok (w', s') /\ generates s' mc /\ ps = map (fun c => Poly c []) mc.
Proof.
  intros H0 H Hg. unfold multipolygons, polygons, multicontours in *. change MIN_MULTIPOLYGON_SIZE with 2 in *. change MIN_MULTICONTOUR_SIZE with 2 in *.
  change MIN_CONTOUR_SIZE with 3 in *. validate; try discriminate; try contradiction. injection H as _ <-.
  apply multipolygon_alone in Hg; try lia; try (apply not_bad_fits; assumption); try (apply fits_zero; assumption).
  destruct Hg as [K|(K0 & mc & -> & K)].
  - left. do 2 eexists. split; [reflexivity|]. intros p Hp. rewrite polygon_given. replace (Z.max hmn 0) with hmn by lia. exact (K p Hp).
  - right. split; [exact K0|]. do 3 eexists. split; [reflexivity|]. split; [rewrite multicontour_given; exact K|reflexivity].
Qed.
Lemma multicontours_multipolygons ctx xs ys mn mx bmn bmx hmx smn smx w s w' s' mc :
  multipolygons ctx xs ys mn mx bmn bmx 0 hmx smn smx = Ok (w, s) -> multicontours ctx xs ys mn mx bmn bmx = Ok (w', s') ->
  generates s' mc -> generates s (map (fun c => Poly c []) mc).
Proof.
  unfold multipolygons, multicontours. change MIN_MULTIPOLYGON_SIZE with 2. change MIN_MULTICONTOUR_SIZE with 2. change MIN_CONTOUR_SIZE with 3.
  intros H H' G. validate_hyp; try discriminate. injection H as _ <-. injection H' as _ <-. unfold to_multipolygon_strategy. cbv zeta.
  destruct (to_next_prime_spec (Z.max bmn 3 + 0 * Z.max smn 3) ltac:(lia)) as (q & Eq & _). apply gen_bind. exists q. split; [apply gen_lift; exact Eq|].
  cbn [Z.eqb]. apply gen_alt. left. apply gen_pmap. exists mc. split; [|reflexivity]. change (or_else ys xs) with (ordinates xs ys). rewrite <- multicontour_given. exact G.
Qed.
Lemma mixes_polygons_alone ctx xs ys pmn pmx gmn gmx qmn qmx mn mx hmn hmx smn smx w s m :
  mixes ctx xs ys pmn pmx gmn gmx qmn qmx mn mx hmn hmx smn smx = Ok (w, s) -> generates s m ->
  exists w' s', polygons ctx xs ys mn mx hmn hmx smn smx = Ok (w', s') /\ forall p, In p (elements (shaped m)) -> generates s' p.
Proof.
  intros H Hg. unfold mixes, polygons in *. change MIN_CONTOUR_SIZE with 3 in *. validate; try discriminate; try contradiction.
  match type of H with (let* _ := if ?c then _ else _ in _) = _ => destruct c eqn:Ec; [discriminate|] end. cbn [rbind] in H. injection H as _ <-.
  do 2 eexists. split; [reflexivity|]. intros p Hp. rewrite polygon_given.
  assert (exists p' g' q', generates (to_mix_strategy ctx xs ys p' pmx g' gmx q' qmx (Z.max mn 3) mx (Z.max hmn 0) hmx (Z.max smn 3) smx) m) as (p' & g' & q' & K).
  { destruct (may_have pmx) eqn:Ep, (may_have gmx) eqn:Eg, (may_have qmx) eqn:Eq;
      try (vm_compute in Ec; discriminate); repeat (apply gen_alt in Hg; destruct Hg as [Hg|Hg]);
      do 3 eexists; exact Hg. }
  eapply mix_polygons_alone; [..|exact K|exact Hp]; try lia; apply not_bad_fits; assumption.
Qed.
Lemma mixes_points_alone ctx xs ys pmn pmx gmn gmx qmn qmx mn mx hmn hmx smn smx w s m :
  (forall l, is_hull l (ctx_hull ctx l)) ->
  mixes ctx xs ys pmn pmx gmn gmx qmn qmx mn mx hmn hmx smn smx = Ok (w, s) -> generates s m -> discrete m <> EmptyPart ->
  exists w' s', multipoints xs ys pmn pmx = Ok (w', s') /\ generates s' (elements (discrete m)).
Proof.
  intros Hh H Hg Ne. pose proof (mixes_sizes _ _ _ _ _ _ _ _ _ _ _ _ _ _ _ _ _ _ Hh H Hg) as ((L1 & L2) & _).
  pose proof (mixes_coordinates _ _ _ _ _ _ _ _ _ _ _ _ _ _ _ _ _ _ Hh H Hg) as (D & _).
  pose proof (mixes_points_aside _ _ _ _ _ _ _ _ _ _ _ _ _ _ _ _ _ _ Hh H Hg) as (N & _).
  pose proof (mixes_parts _ _ _ _ _ _ _ _ _ _ _ _ _ _ _ _ _ _ Hh H Hg) as (T & _).
  assert (L0 : 1 <= lenZ (elements (discrete m))) by (destruct (discrete m); [congruence|contradiction|exact T]).
  assert (exists w' s', multipoints xs ys pmn pmx = Ok (w', s')) as (w' & s' & E).
  { unfold mixes, multipoints in *. change MIN_MULTIPOINT_SIZE with 1. validate; try discriminate; try (do 2 eexists; reflexivity).
    exfalso. match goal with B : bad_sizes pmn pmx 1, B' : ~ bad_sizes pmn pmx 0 |- _ => destruct B as (k & Ek & B); apply B'; exists k; split; [exact Ek|]; specialize (L2 k Ek); lia end. }
  exists w', s'. split; [exact E|]. apply (proj2 (multipoints_exact xs ys pmn pmx w' s' E _)).
  split; [exact N|]. split; [split; [lia|exact L2]|exact D].
Qed.

(** ** Contours. *)
Lemma next_3 : to_next_prime 3 = Ok 5. Proof. vm_compute. reflexivity. Qed.
Lemma next_4 : to_next_prime 4 = Ok 5. Proof. vm_compute. reflexivity. Qed.
Lemma grid_4 xs ys mx : to_point_sequence_in_general_position_strategy xs ys 4 mx = to_point_sequence_in_general_position_strategy xs ys 3 mx.
Proof. unfold to_point_sequence_in_general_position_strategy. rewrite next_3, next_4. reflexivity. Qed.
Lemma valid_4 {A} (vs : list A) mx : has_valid_size vs 4 mx = true -> has_valid_size vs 3 mx = true.
Proof. apply wider_valid. split; [lia|]. intros m E. exists m. split; [exact E|lia]. Qed.
Lemma sequences_4 ctx xs ys mx : covered (to_vertex_sequences_ ctx xs ys 4 mx) (to_vertex_sequences_ ctx xs ys 3 mx).
Proof.
  unfold to_vertex_sequences_. apply cov_alt.
  - unfold to_star_vertex_sequence_strategy. rewrite grid_4. apply cov_pfilter; [apply cov_refl|]. intros vs _. apply valid_4.
  - unfold to_carved_vertex_sequence_strategy. rewrite grid_4. apply cov_pfilter; [|intros vs _; apply valid_4].
    apply cov_bind; [apply cov_refl|]. intros l _. apply cov_bind; [|intros; apply cov_refl]. apply cov_integers, wider_lower; lia.
Qed.
Lemma sequences_concave ctx xs ys mn mx :
  covered (to_vertex_sequences_ ctx xs ys (Z.max mn 4) mx) (to_vertex_sequences_ ctx xs ys (Z.max mn 3) mx).
Proof.
  destruct (Z_lt_le_dec mn 4) as [L|L].
  - replace (Z.max mn 4) with 4 by lia. replace (Z.max mn 3) with 3 by lia. apply sequences_4.
  - replace (Z.max mn 4) with mn by lia. replace (Z.max mn 3) with mn by lia. apply cov_refl.
Qed.
Lemma non_convex_iff vs : vs <> [] -> are_vertices_non_convex vs = Ok true <-> ~ turns_agree vs.
Proof.
  intros Ne. split.
  - intros H [K|[K|K]]; apply non_convex_spec in H; destruct H as (a & b & c & a' & b' & c' & T & T' & D); apply D;
      specialize (K _ _ _ T) as K1; specialize (K _ _ _ T') as K2; apply turn_orientation in K1, K2; congruence.
  - intros H. unfold are_vertices_non_convex. pose proof (orientations_in vs) as K. destruct (to_contour_orientations vs) as [|o rest] eqn:E.
    { destruct vs as [|v [|w vs]]; [congruence|discriminate|discriminate]. }
    f_equal. destruct (existsb _ rest) eqn:X; [reflexivity|]. exfalso. apply H.
    assert (A : forall o', In o' (o :: rest) -> o' = o).
    { intros o' [<-|Ho]; [reflexivity|]. destruct (orientation_eqb o' o) eqn:Y; [apply orientation_eqb_eq; exact Y|].
      assert (existsb (fun o' => negb (orientation_eqb o' o)) rest = true); [|congruence]. apply existsb_exists. exists o'. rewrite Y. auto. }
    assert (B : forall a b c, contour_turn vs a b c -> angle_orientation b a c = o).
    { intros a b c T. apply A, K. exists a, b, c. auto. }
    unfold turns_agree. destruct o eqn:Eo; [left|right; right|right; left]; intros a b c T; apply turn_orientation, B, T.
Qed.
(** Asked for a triangle, the carving yields the convex hull. *)
Lemma triangle_asked ctx points size vs : NoDup points -> DelPoly.spread points -> is_change (length points) (ctx_coins ctx (length points)) ->
  to_vertex_sequence ctx points size = Ok vs -> size <= 3 -> convex_ccw vs.
Proof.
  intros N NC Coins H Hs. unfold to_vertex_sequence in H. apply rbind_ok in H. destruct H as ((t & h) & H1 & H).
  apply rbind_ok in H. destruct H as (es & H2 & H).
  destruct (boundary_hull ctx points N NC Coins t h es H1 H2) as (_ & Ck). unfold to_vertex_sequence_ in H. set (L := List.map (start h) es) in *.
  pose proof (proj1 Ck) as L3. destruct (Z.ltb_spec (lenZ (compress_contour L)) MIN_CONTOUR_SIZE) as [X|X]; [injection H as <-; exact Ck|].
  change MIN_CONTOUR_SIZE with 3 in X. apply rbind_ok in H. destruct H as (sets & _ & H). apply rbind_ok in H. destruct H as (st & H3 & H).
  set (st0 := VState h t (points_set L) sets es _) in H3.
  assert (Hg : (vs_left st0 >? 0) = false) by (rewrite Z.gtb_ltb; apply Z.ltb_ge; unfold st0; cbn [vs_left]; lia).
  assert (E0 : st = st0).
  { apply (LoopProofs.while_ok (fun s => s = st0) (fun s => s = st0) _ _ st0 st) in H3; [exact H3| |reflexivity]. intros s ->. unfold mouth_step. rewrite Hg. reflexivity. }
  subst st. rewrite Hg in H. cbn [rbind to_ears_increments fold_increments] in H. apply rbind_ok in H. destruct H as (st' & H4 & H).
  match type of H4 with while_ _ _ ?s = _ => set (st1 := s) in H4 end.
  assert (E1 : st' = st1).
  { apply (LoopProofs.while_ok (fun s => s = st1) (fun s => s = st1) _ _ st1 st') in H4; [exact H4| |reflexivity]. intros s ->. unfold ear_step.
    assert (X1 : (vs_left st1 >? 0) = false) by exact Hg. rewrite X1. reflexivity. }
  subst st'. unfold triangulation_to_border_vertices in H. cbn [st1 st0 vs_heap vs_tri] in H. rewrite H2 in H. cbn [rbind] in H. injection H as <-. exact Ck.
Qed.
Lemma triangle_agrees vs : (length vs <= 3)%nat -> (3 <= length vs)%nat -> turns_agree vs.
Proof.
  intros A B. destruct vs as [|p [|q [|r [|? ?]]]]; cbn in A, B; try lia.
  assert (K : forall a b c, contour_turn [p; q; r] a b c -> cross a b c = cross p q r).
  { intros a b c (i & H1 & H2 & H3). destruct i as [|[|[|i]]]; cbn in H1, H2, H3; try discriminate; try (destruct i; discriminate);
      injection H1 as <-; injection H2 as <-; injection H3 as <-; unfold cross; ring. }
  unfold turns_agree, left_turn, right_turn, collinear. destruct (Qc_dec (cross p q r) 0) as [[X|X]|X];
    [right; left|left|right; right]; intros a b c T; rewrite (K a b c T); exact X.
Qed.
Lemma convex_agrees vs : convex_ccw vs -> turns_agree vs.
Proof. intros H. left. intros a b c T. exact (convex_turns _ H _ _ _ T). Qed.
Lemma has_size_nonempty {A} (vs : list A) mn mx : 3 <= mn -> has_valid_size vs mn mx = true -> vs <> [].
Proof. intros H K ->. unfold has_valid_size in K. cbn in K. apply andb_true_iff in K. destruct K as (K & _). apply Z.leb_le in K. lia. Qed.
Lemma sequences_back ctx xs ys mn mx vs : (forall n, (2 <= n)%nat -> is_change n (ctx_coins ctx n)) ->
  generates (to_vertex_sequences_ ctx xs ys (Z.max mn 3) mx) vs -> ~ turns_agree vs -> generates (to_vertex_sequences_ ctx xs ys (Z.max mn 4) mx) vs.
Proof.
  intros coins G NA. destruct (Z_lt_le_dec mn 4) as [L|L].
  2:{ replace (Z.max mn 4) with (Z.max mn 3) by lia. exact G. }
  replace (Z.max mn 3) with 3 in G by lia. replace (Z.max mn 4) with 4 by lia.
  assert (V : has_valid_size vs 3 mx = true -> has_valid_size vs 4 mx = true).
  { intros V. apply size_valid in V. apply size_valid. destruct V as (V1 & V2). split; [|exact V2].
    destruct (Z.eq_dec (lenZ vs) 3) as [E|E]; [|lia]. exfalso. apply NA, triangle_agrees; unfold lenZ in E; lia. }
  unfold to_vertex_sequences_ in *. apply gen_alt in G. apply gen_alt. destruct G as [G|G].
  - left. unfold to_star_vertex_sequence_strategy in *. rewrite grid_4. apply gen_pfilter in G. apply gen_pfilter. destruct G as (G & K). auto.
  - right. unfold to_carved_vertex_sequence_strategy in *. rewrite grid_4. apply gen_pfilter in G. apply gen_pfilter. destruct G as (G & K). split; [|auto].
    apply gen_bind in G. destruct G as (l & Hl & G). apply gen_bind. exists l. split; [exact Hl|].
    apply gen_bind in G. destruct G as (size & Hz & G). apply gen_bind. exists size. split; [|exact G].
    apply gen_integers in Hz. apply gen_integers. destruct Hz as (Z1 & Z2). split; [|exact Z2].
    destruct (Z.eq_dec size 3) as [E|E]; [|lia]. exfalso. apply NA, convex_agrees. apply gen_lift in G.
    pose proof (grid_at_least _ _ _ _ _ Hl) as (_ & L5 & N). unfold lenZ in L5.
    eapply triangle_asked; [exact N|exact (grid_spread _ _ _ _ _ Hl)|apply coins; lia|exact G|lia].
Qed.
Lemma star_contours_contours ctx xs ys mn mx w s w' s' : star_contours ctx xs ys mn mx = Ok (w', s') -> contours ctx xs ys mn mx = Ok (w, s) -> covered s' s.
Proof.
  unfold star_contours, contours. intros H' H vs G. validate_hyp; try discriminate. injection H as _ <-. injection H' as _ <-.
  unfold to_vertex_sequence_strategy, to_vertex_sequences_. apply gen_alt. right. apply gen_alt. left. exact G.
Qed.
Lemma concave_contours_contours ctx xs ys mn mx w s w' s' :
  (forall l, is_hull l (ctx_hull ctx l)) -> (forall n, (2 <= n)%nat -> is_change n (ctx_coins ctx n)) ->
  concave_contours ctx xs ys mn mx = Ok (w', s') -> contours ctx xs ys mn mx = Ok (w, s) ->
  forall vs, generates s' vs <-> generates s vs /\ ~ turns_agree vs.
Proof.
  unfold concave_contours, contours. intros Hh coins H' H vs. validate_hyp; try discriminate. injection H as _ <-. injection H' as _ <-.
  change CONCAVE with 4 in *. change MIN_CONTOUR_SIZE with 3 in *.
  assert (Ne : forall m, 3 <= m -> generates (to_vertex_sequences_ ctx xs ys m mx) vs -> vs <> []).
  { intros m Hm G. apply gen_alt in G. destruct G as [G|G]; apply gen_pfilter in G; destruct G as (_ & G); exact (has_size_nonempty _ _ _ Hm G). }
  unfold to_concave_vertex_sequence_strategy, to_vertex_sequence_strategy. split.
  - intros G. apply gen_pfilter_res in G. destruct G as (G & T). split.
    + apply gen_alt. right. apply sequences_concave, G.
    + apply non_convex_iff; [|exact T]. apply (Ne (Z.max mn 4)); [lia|exact G].
  - intros (G & NA). apply gen_alt in G. destruct G as [G|G].
    + exfalso. apply NA, convex_agrees. apply convex_strategy_spec in G; [apply G|exact Hh|lia|]. apply not_bad_fits. assumption.
    + apply gen_pfilter_res. split; [apply sequences_back; assumption|]. apply non_convex_iff; [|exact NA]. apply (Ne (Z.max mn 3)); [lia|exact G].
Qed.
