(** The public API with coordinates in general position. *)
From Coq Require Import List Lia Znumtheory Permutation Sorted.
From Verif Require Import Base Prog Geometry Ctx Utils Contracts Spec RangeSpec WindSpec MixSpec GeneralSpec HullSpec Factories Triangulation Strategies Planar ProgProofs
  LoopProofs ListProofs PrimeProofs GridProofs PlanarProofs QcTac GeomProofs HullProofs RangeProofs RangeApiProofs ContourProofs FaultProofs FuelProofs
  SegmentProofs EdgeProofs SeparationProofs MultiProofs MixProofs BorderProofs Jordan DelContour PolyFaultProofs GeneralProofs GeneralPolyProofs.
Import List ListNotations.
Open Scope Z_scope.

(** ** Slices of the coordinates. *)
Lemma general_ordinates xs ys : general_coordinates xs ys -> general_coordinates xs (Some (or_else ys xs)).
Proof. intros G a b c Ha Hb Hc. apply G; assumption. Qed.
Definition along (a : axis) (xs ys : scalars) : scalars := match a with AxisX => xs | AxisY => ys end.
Lemma drawable_sampled l x : drawable (Sampled l) x -> In x l.
Proof. unfold drawable. cbn [draw_scalar]. intros H. apply gen_sampled_from in H. exact H. Qed.
Lemma sliced_general a l xs ys sx sy : general_coordinates xs (Some ys) -> (forall x, In x l -> drawable (along a xs ys) x) ->
  sliced a l xs ys = (sx, sy) -> general_coordinates sx (Some sy).
Proof.
  intros G Hl E.
  assert (K : forall p, drawable_point sx (Some sy) p -> drawable_point xs (Some ys) p).
  { intros p (H1 & H2). destruct a; cbn [sliced along] in *; injection E as <- <-; split; try assumption; apply Hl, drawable_sampled; assumption. }
  intros p q r Hp Hq Hr. apply G; apply K; assumption.
Qed.

(** ** What is generated. *)
Section Values.
Context (ctx : context) (C : contracts ctx).
Lemma multicontour_strategy_general xs ys mn mx cmn cmx mc : 0 <= mn -> 3 <= cmn -> general_coordinates xs ys ->
  generates (to_multicontour_strategy ctx xs ys mn mx cmn cmx) mc -> Forall counterclockwise mc.
Proof.
  intros Hm Hc G H. unfold to_multicontour_strategy in H. cbv zeta in H. apply gen_pfilter in H. destruct H as (H & _).
  apply gen_bind in H. destruct H as (pts & Hp & H). apply gen_bind in H. destruct H as (size & Hz & H).
  apply gen_bind in H. destruct H as (sizes & Hs & H). apply gen_bind in H. destruct H as (choices & _ & H). apply gen_lift in H.
  pose proof (grid_general _ _ _ _ _ G Hp) as Gp. apply grid_at_least in Hp. destruct Hp as (_ & H5 & N).
  apply gen_integers in Hz. destruct Hz as (Hz1 & Hz2).
  pose proof (multicontour_always ctx C pts sizes choices N Gp) as K. rewrite H in K. apply K.
  - intros s Is. pose proof (to_sizes_ge _ _ _ _ Hs s Is). lia.
  - apply (sizes_total size cmn); [lia| |exact Hs]. assert (size <= lenZ pts / cmn) by (unfold min_opt in Hz2; destruct mx; lia).
    pose proof (Z.mul_div_le (lenZ pts) cmn ltac:(lia)). nia.
Qed.
Lemma polygon_strategy_general xs ys mn mx hmn hmx smn smx p : 3 <= smn -> general_coordinates xs ys ->
  generates (to_polygon_strategy ctx xs ys mn mx hmn hmx smn smx) p -> Forall clockwise (holes p).
Proof.
  intros Hs G H. unfold to_polygon_strategy in H. cbv zeta in H. apply gen_pfilter in H. destruct H as (H & _).
  apply gen_bind in H. destruct H as (pts & Hp & H). apply gen_pfilter in Hp. destruct Hp as (Hp & _). apply gen_bind in H. destruct H as (size & _ & H).
  apply gen_bind in H. destruct H as (sizes & Hz & H). apply gen_bind in H. destruct H as (choices & _ & H). apply gen_lift in H.
  pose proof (grid_general _ _ _ _ _ G Hp) as Gp. apply grid_at_least in Hp. destruct Hp as (_ & H5 & N).
  pose proof (polygon_always ctx C pts size sizes choices N ltac:(unfold lenZ in H5; lia) Gp) as K. rewrite H in K. apply K.
  - intros s Is. pose proof (to_hole_sizes_ge _ _ _ _ _ Hz s Is). lia.
  - eapply hole_sizes_total; [|exact Hz]. lia.
Qed.
Lemma strategy_valid xs ys mn mx hmn hmx smn smx p : 3 <= smn -> general_coordinates xs ys ->
  generates (to_polygon_strategy ctx xs ys mn mx hmn hmx smn smx) p -> proper p.
Proof.
  intros Hs G H. pose proof (polygon_strategy_general _ _ _ _ _ _ _ _ _ Hs G H) as K. rewrite Forall_forall in K.
  assert (B : well_bordered p) by (eapply source_border; [exact C|]; exists xs, ys, mn, mx, hmn, hmx, smn, smx; split; [lia|exact H]).
  destruct B as (J & T & A & I). split; [split; [exact J|split; [exact T|exact A]]|]. split; [exact K|exact I].
Qed.
Lemma slice_valid a xs ys mn mx hmn hmx smn smx l p : 3 <= smn -> general_coordinates xs (Some ys) -> (forall x, In x l -> drawable (along a xs ys) x) ->
  generates (slice_polygon ctx a xs ys mn mx hmn hmx smn smx l) p -> proper p.
Proof.
  intros Hs G Hl H. unfold slice_polygon in H. destruct (sliced a l xs ys) as (sx & sy) eqn:E. eapply strategy_valid; [exact Hs| |exact H].
  eapply sliced_general; eassumption.
Qed.
Lemma loop_valid a xs ys mn mx hmn hmx smn smx mpc left : 3 <= smn -> general_coordinates xs (Some ys) -> forall coordinates start ps,
  (forall x, In x coordinates -> drawable (along a xs ys) x) ->
  generates (multipolygon_loop ctx a xs ys mn mx hmn hmx smn smx mpc left coordinates start) ps ->
  forall p, In p ps -> proper p.
Proof.
  intros Hs G.
  assert (Last : forall l start ps, (forall x, In x l -> drawable (along a xs ys) x) ->
    generates (bind (slice_polygon ctx a xs ys mn mx hmn hmx smn smx (py_drop l start)) (fun p => Ret [p])) ps -> forall p, In p ps -> proper p).
  { intros l start ps Hl H p Hp. apply gen_bind in H. destruct H as (r & Hr & H). apply gen_ret in H. subst ps.
    destruct Hp as [<- |[]]. eapply slice_valid; [exact Hs|exact G| |exact Hr]. intros x Hx. apply Hl, (py_drop_in _ _ _ Hx). }
  induction left as [|left IH]; intros l start ps Hl H p Hp; [exact (Last _ _ _ Hl H p Hp)|].
  destruct left as [|left]; [exact (Last _ _ _ Hl H p Hp)|].
  remember (S left) as left1 eqn:El. unfold multipolygon_loop in H; fold multipolygon_loop in H. subst left1.
  apply gen_bind in H. destruct H as (count & Hc & H). apply gen_bind in H. destruct H as (prior & _ & H).
  apply gen_bind in H. destruct H as (r & Hr & H). apply gen_bind in H. destruct H as (blocked & Hb & H).
  apply gen_bind in H. destruct H as (rest & Hrest & H). apply gen_ret in H. subst ps.
  destruct Hp as [<- |Hp]; [|exact (IH _ _ _ Hl Hrest p Hp)]. eapply slice_valid; [exact Hs|exact G| |exact Hr].
  intros x Hx. apply Hl. unfold py_slice in Hx. apply firstn_in, skipn_in in Hx. exact Hx.
Qed.
Lemma multipolygon_valid xs ys mn mx bmn bmx hmn hmx smn smx ps : 0 <= mn -> 3 <= bmn -> 3 <= smn -> general_coordinates xs ys ->
  generates (to_multipolygon_strategy ctx xs ys mn mx bmn bmx hmn hmx smn smx) ps -> forall p, In p ps -> proper p.
Proof.
  intros Hm Hb Hs G H p Hp. pose proof (general_ordinates _ _ G) as G'. unfold to_multipolygon_strategy in H. cbv zeta in H. apply gen_bind in H. destruct H as (mpc & _ & H).
  assert (Along : forall a mt mxt, generates (let! l := unique_scalars (along a xs (or_else ys xs)) mt mxt in
     coordinates_to_polygons ctx a xs (or_else ys xs) bmn bmx hmn hmx smn smx mpc mn mx l) ps -> proper p).
  { clear H. intros a mt mxt H. apply gen_bind in H. destruct H as (l & Hl & H). unfold coordinates_to_polygons in H.
    apply gen_unique_scalars in Hl. destruct Hl as (_ & _ & _ & Hl).
    apply gen_bind in H. destruct H as (size & _ & H). refine (loop_valid _ _ _ _ _ _ _ _ _ _ _ Hs G' _ _ _ _ H p Hp).
    intros x Hx. apply isort_in in Hx. apply Hl, Hx. }
  assert (Both : forall s1 s2, (generates s1 ps -> proper p) -> (generates s2 ps -> proper p) ->
    generates (alt s1 s2) ps -> proper p).
  { intros s1 s2 K1 K2 K. apply gen_alt in K. destruct K as [K|K]; auto. }
  destruct (Z.eqb_spec hmn 0) as [E|E]; [|eapply Both; [| |exact H]; [apply (Along AxisX)|apply (Along AxisY)]].
  apply gen_alt in H. destruct H as [H|H]; [|eapply Both; [| |exact H]; [apply (Along AxisX)|apply (Along AxisY)]].
  apply gen_pmap in H. destruct H as (mc & H & ->). apply in_map_iff in Hp. destruct Hp as (vs & <- & Hp).
  apply multicontour_strategy_general in H; [|exact Hm|exact Hb|exact G']. rewrite Forall_forall in H. destruct (H vs Hp) as (J & T & A).
  split; [split; [exact J|split; [exact T|exact A]]|]. split; [intros ws []|intros ws q []].
Qed.
Lemma mix_loop_valid a xs ys mn mx hmn hmx smn smx drawers : 3 <= smn -> general_coordinates xs (Some ys) -> forall l P S Q P' S' Q',
  (forall x, In x l -> drawable (along a xs ys) x) ->
  generates (mix_loop ctx xs ys mn mx hmn hmx smn smx a drawers l P S Q) (P', S', Q') ->
  forall p, In p Q' -> In p Q \/ proper p.
Proof.
  intros Hs G. induction drawers as [|(d, count) drawers IH]; intros l P S Q P' S' Q' Hl H p Hp.
  { cbn [mix_loop] in H. apply gen_ret in H. injection H as -> -> ->. auto. }
  cbn [mix_loop] in H. apply gen_bind in H. destruct H as (((P1 & S1) & Q1) & Hdraw & H).
  apply gen_bind in H. destruct H as (touch & _ & H).
  apply IH with (p := p) in H; [|intros x Hx; apply Hl, (py_drop_in _ _ _ Hx)|exact Hp]. destruct H as [K|K]; [|auto].
  destruct d; apply gen_bind in Hdraw; destruct Hdraw as (r & Hr & Hdraw); apply gen_ret in Hdraw; injection Hdraw as -> -> ->; auto.
  apply in_app_or in K. destruct K as [K|[<- |[]]]; [auto|]. right. unfold draw_polygon in Hr. apply gen_bind in Hr. destruct Hr as (n & _ & Hr).
  change (generates (slice_polygon ctx a xs ys mn mx hmn hmx smn smx (py_take l n)) r) in Hr. eapply slice_valid; [exact Hs|exact G| |exact Hr].
  intros x Hx. apply Hl, (py_take_in _ _ _ Hx).
Qed.
Lemma mix_valid xs ys pmn pmx gmn gmx qmn qmx mn mx hmn hmx smn smx m : 3 <= smn -> general_coordinates xs ys ->
  generates (to_mix_strategy ctx xs ys pmn pmx gmn gmx qmn qmx mn mx hmn hmx smn smx) m ->
  forall p, In p (elements (shaped m)) -> proper p.
Proof.
  intros L G H p Hp. pose proof (general_ordinates _ _ G) as G'. unfold to_mix_strategy in H. cbv zeta in H. apply gen_bind in H. destruct H as (mpc & _ & H).
  assert (Along : forall a mt mxt, generates (let! l := unique_scalars (along a xs (or_else ys xs)) mt mxt in
     coordinates_to_mix ctx xs (or_else ys xs) pmn pmx gmn gmx qmn qmx mn mx hmn hmx smn smx mpc a l) m -> proper p).
  { clear H. intros a mt mxt H. apply gen_bind in H. destruct H as (l & Hl & H). unfold coordinates_to_mix in H.
    apply gen_unique_scalars in Hl. destruct Hl as (_ & _ & _ & Hl).
    apply gen_bind in H. destruct H as (((pc & sc) & qc) & _ & H). apply gen_bind in H. destruct H as (drawers & _ & H).
    apply gen_bind in H. destruct H as (((P & S) & Q) & H & Hm). apply gen_ret in Hm. subst m. cbn [shaped] in Hp. rewrite elements_unpack in Hp.
    apply mix_loop_valid with (p := p) in H; [destruct H as [[]|K]; exact K|exact L|exact G'| |exact Hp].
    intros x Hx. apply isort_in in Hx. apply Hl, Hx. }
  apply gen_alt in H. destruct H as [H|H]; [apply (Along AxisX _ _ H)|apply (Along AxisY _ _ H)].
Qed.

Lemma multicontours_general xs ys mn mx cmn cmx w s mc : general_coordinates xs ys ->
  multicontours ctx xs ys mn mx cmn cmx = Ok (w, s) -> generates s mc -> forall vs, In vs mc -> counterclockwise vs.
Proof.
  intros G H Hg vs Hv. unfold multicontours in H. validate; try discriminate. injection H as _ <-. change MIN_CONTOUR_SIZE with 3 in *.
  apply multicontour_strategy_general in Hg; [|change MIN_MULTICONTOUR_SIZE with 2; lia|lia|exact G]. rewrite Forall_forall in Hg. apply Hg, Hv.
Qed.
Lemma polygons_general xs ys mn mx hmn hmx smn smx w s p : general_coordinates xs ys ->
  polygons ctx xs ys mn mx hmn hmx smn smx = Ok (w, s) -> generates s p -> proper p.
Proof.
  intros G H Hg. unfold polygons in H. validate; try discriminate. injection H as _ <-. change MIN_CONTOUR_SIZE with 3 in *.
  eapply strategy_valid; [|exact G|exact Hg]. lia.
Qed.
Lemma multipolygons_general xs ys mn mx bmn bmx hmn hmx smn smx w s ps p : general_coordinates xs ys ->
  multipolygons ctx xs ys mn mx bmn bmx hmn hmx smn smx = Ok (w, s) -> generates s ps -> In p ps -> proper p.
Proof.
  intros G H Hg Hp. unfold multipolygons in H. validate; try discriminate. injection H as _ <-. change MIN_CONTOUR_SIZE with 3 in *.
  eapply multipolygon_valid; [| | |exact G|exact Hg|exact Hp]; [change MIN_MULTIPOLYGON_SIZE with 2; lia|lia|lia].
Qed.
Lemma mixes_general xs ys pmn pmx gmn gmx qmn qmx mn mx hmn hmx smn smx w s m p : general_coordinates xs ys ->
  mixes ctx xs ys pmn pmx gmn gmx qmn qmx mn mx hmn hmx smn smx = Ok (w, s) -> generates s m -> In p (elements (shaped m)) -> proper p.
Proof.
  intros G H Hg Hp. unfold mixes in H. validate; try discriminate.
  match type of H with (let* _ := if ?c then _ else _ in _) = _ => destruct c eqn:Ec; [discriminate|] end. cbn [rbind] in H.
  change MIN_CONTOUR_SIZE with 3%Z in H. injection H as _ <-.
  assert (exists p' g' q', generates (to_mix_strategy ctx xs ys p' pmx g' gmx q' qmx (Z.max mn 3) mx (Z.max hmn 0) hmx (Z.max smn 3) smx) m) as (p' & g' & q' & K).
  { destruct (may_have pmx) eqn:Ep, (may_have gmx) eqn:Eg, (may_have qmx) eqn:Eq;
      try (vm_compute in Ec; discriminate); repeat (apply gen_alt in Hg; destruct Hg as [Hg|Hg]);
      do 3 eexists; exact Hg. }
  eapply mix_valid; [|exact G|exact K|exact Hp]. lia.
Qed.
End Values.

(** ** What is raised. *)
Section Faults.
Context (ctx : context) (C : contracts ctx) (hull : forall l, is_hull l (ctx_hull ctx l)) (E : exn -> Prop).
(** Lists of points of the given sizes are short enough for the bound on iterations, or exceeding it is allowed. *)
Definition fits (mn : Z) (mx : option Z) : Prop :=
  forall xs ys pts, generates (to_point_sequence_in_general_position_strategy xs ys mn mx) pts -> E OutOfFuel \/ enough_fuel ctx (length pts).
Lemma fits_any mn mx : E OutOfFuel -> fits mn mx.
Proof. intros H xs ys pts _. left. exact H. Qed.
Lemma fits_bounded mn m : 3 <= mn -> enough_fuel ctx (Z.to_nat (Z.max m (2 * mn))) -> fits mn (Some m).
Proof.
  intros Hm Fu xs ys pts Hp. right. pose proof (grid_sound _ _ _ _ _ Hp) as G.
  destruct (next_prime_twice mn Hm) as (q & Eq & Hq). pose proof (grid_upper _ _ _ _ _ G m q eq_refl Eq) as Up.
  apply (enough_mono ctx (Z.to_nat (Z.max m (2 * mn)))); [|exact Fu]. unfold lenZ in Up. lia.
Qed.
Lemma only_general_multicontour xs ys mn mx cmn cmx : 1 <= mn -> (forall m, mx = Some m -> mn <= m) -> 3 <= cmn -> grid_harmless xs ys (mn * cmn) ->
  general_coordinates xs ys -> fits (mn * cmn) (match mx, cmx with Some m, Some c => Some (m * c) | _, _ => None end) ->
  only E (to_multicontour_strategy ctx xs ys mn mx cmn cmx).
Proof.
  intros Hm Hx Hc Hg G Hf. unfold to_multicontour_strategy. cbv zeta. apply only_pfilter. apply only_bind; [apply only_grid; [nia|exact Hg]|].
  intros pts Hp. pose proof (Hf _ _ _ Hp) as Fu. pose proof (grid_general _ _ _ _ _ G Hp) as Gp. apply grid_at_least in Hp. destruct Hp as (Hp & H5 & N).
  assert (Hdiv : cmn * (lenZ pts / cmn) <= lenZ pts) by (apply Z.mul_div_le; lia).
  apply only_bind.
  - apply only_upto. assert (mn <= lenZ pts / cmn) by (apply Z.div_le_lower_bound; lia).
    unfold min_opt. destruct mx as [m|]; [specialize (Hx m eq_refl); lia|assumption].
  - intros n Hn. apply gen_integers in Hn. destruct Hn as (Hn1 & Hn2). assert (n <= lenZ pts / cmn) by (unfold min_opt in Hn2; destruct mx; lia).
    apply only_bind; [apply only_sizes; lia|]. intros sizes Hz. apply only_bind; [apply only_bits|]. intros ch _. apply only_lift.
    assert (Z3 : forall s, In s sizes -> 3 <= s) by (intros s Is; pose proof (to_sizes_ge _ _ _ _ Hz s Is); lia).
    apply sizes_total in Hz; [|lia|nia]. intros e He. destruct Fu as [Fu|Fu].
    + pose proof (multicontour_always ctx C pts sizes ch N Gp Z3 Hz) as K. rewrite He in K. subst e. exact Fu.
    + exfalso. destruct (multicontour_loop_ok ctx (proj1 C) sizes ch None pts [] Z3 Hz N Gp Fu) as (new & K & _). unfold to_multicontour in He. congruence.
Qed.
Lemma only_general_polygon xs ys mn mx hmn hmx smn smx : 3 <= mn -> (forall m, mx = Some m -> mn <= m) ->
  0 <= hmn -> (forall m, hmx = Some m -> hmn <= m) -> 3 <= smn -> grid_harmless xs ys (mn + smn * hmn) -> general_coordinates xs ys ->
  fits (mn + smn * hmn) (match mx, hmx, smx with Some m, Some c, Some s => Some (m + s * c) | _, _, _ => None end) ->
  only E (to_polygon_strategy ctx xs ys mn mx hmn hmx smn smx).
Proof.
  intros Hm Hx Hhm Hhx Hs Hg G Hfit. unfold to_polygon_strategy. cbv zeta. apply only_pfilter.
  apply only_bind; [apply only_pfilter, only_grid; [nia|exact Hg]|]. intros pts Hp. apply gen_pfilter in Hp. destruct Hp as (Hp & Hf).
  pose proof (Hfit _ _ _ Hp) as Fu. pose proof (grid_general _ _ _ _ _ G Hp) as Gp. apply grid_at_least in Hp. destruct Hp as (Hp & H5 & N).
  apply andb_true_iff in Hf. destruct Hf as (Hf1 & Hf2). apply Z.leb_le in Hf2. assert (L3 : (3 <= length pts)%nat) by (unfold lenZ in H5; lia).
  assert (Hhull : lenZ (ctx_hull ctx pts) <= lenZ (to_max_convex_hull pts)).
  { unfold lenZ in *. apply inj_le, hull_at_most_max; [exact N|lia|apply hull]. }
  apply only_bind.
  - apply only_upto. destruct mx as [m|]; [|lia]. apply Z.leb_le in Hf1. specialize (Hx m eq_refl). lia.
  - intros n _. apply only_bind; [apply only_hole_sizes; try assumption; lia|]. intros sizes Hz. apply only_bind; [apply only_bits|]. intros ch _.
    apply only_lift. intros e He.
    assert (Z3 : forall s, In s sizes -> 3 <= s) by (intros s Is; pose proof (to_hole_sizes_ge _ _ _ _ _ Hz s Is); lia).
    apply hole_sizes_total in Hz; [|lia]. destruct Fu as [Fu|Fu].
    + pose proof (polygon_always ctx C pts n sizes ch N L3 Gp Z3 Hz) as K. rewrite He in K. subst e. exact Fu.
    + exfalso. destruct (to_polygon_ok ctx C pts n sizes ch N L3 Gp Fu Z3 Hz) as (p & K & _). congruence.
Qed.

(** Slices. *)
Section Slices.
Context (a : axis) (xs ys : scalars) (mn : Z) (mx : option Z) (hmn : Z) (hmx : option Z) (smn : Z) (smx : option Z) (mpc : Z)
  (Hm : 3 <= mn) (Hx : forall m, mx = Some m -> mn <= m) (Hhm : 0 <= hmn) (Hhx : forall m, hmx = Some m -> hmn <= m) (Hs : 3 <= smn)
  (Hmpc : to_next_prime (mn + hmn * smn) = Ok mpc) (Exs : harmless xs mpc) (Eys : harmless ys mpc) (G : general_coordinates xs (Some ys))
  (Hfit : fits (mn + smn * hmn) (match mx, hmx, smx with Some m, Some c, Some s => Some (m + s * c) | _, _, _ => None end)).
Lemma only_slice_polygon l : mpc <= lenZ l -> (forall x, In x l -> drawable (along a xs ys) x) -> only E (slice_polygon ctx a xs ys mn mx hmn hmx smn smx l).
Proof.
  intros H Hl. unfold slice_polygon. destruct (sliced a l xs ys) as (sx & sy) eqn:Es. apply only_general_polygon; try assumption; [|eapply sliced_general; eassumption].
  intros lower El. replace (mn + smn * hmn) with (mn + hmn * smn) in El by lia. rewrite Hmpc in El. injection El as <-.
  cbn [ordinates]. destruct a; cbn [sliced] in Es; injection Es as <- <-; cbn [harmless]; auto.
Qed.
Lemma only_multipolygon_loop left : forall l start, 0 <= start -> Z.max 1 (Z.of_nat left) * mpc <= lenZ l - start -> (forall x, In x l -> drawable (along a xs ys) x) ->
  only E (multipolygon_loop ctx a xs ys mn mx hmn hmx smn smx mpc left l start).
Proof.
  destruct (mpc_prime mn hmn smn mpc Hm Hhm ltac:(lia) Hmpc) as (H5 & Hp).
  assert (Last : forall l start, 0 <= start -> mpc <= lenZ l - start -> (forall x, In x l -> drawable (along a xs ys) x) ->
    only E (bind (slice_polygon ctx a xs ys mn mx hmn hmx smn smx (py_drop l start)) (fun p => Ret [p]))).
  { intros l start H0 H Hl. apply only_bind; [apply only_slice_polygon; [rewrite drop_length; lia|]|].
    - intros x Ix. apply Hl, (py_drop_in _ _ _ Ix).
    - intros p _. apply only_ret. }
  induction left as [|left IH]; intros l start H0 H Hl; [apply Last; [exact H0|change (Z.max 1 (Z.of_nat 0)) with 1 in H; lia|exact Hl]|].
  destruct left as [|left]; [apply Last; [exact H0|change (Z.max 1 (Z.of_nat 1)) with 1 in H; lia|exact Hl]|].
  remember (S left) as left1 eqn:El. unfold multipolygon_loop; fold multipolygon_loop. subst left1.
  set (k := Z.of_nat (S (S left))) in *. assert (Hk : 2 <= k) by (unfold k; lia). rewrite Z.max_r in H by lia.
  assert (Hdiv : mpc <= (lenZ l - start) / k) by (apply Z.div_le_lower_bound; lia).
  assert (Hdiv' : k * ((lenZ l - start) / k) <= lenZ l - start) by (apply Z.mul_div_le; lia).
  apply only_bind; [apply only_upto; exact Hdiv|].
  intros count Hc. apply gen_integers in Hc. destruct Hc as (Hc1 & Hc2).
  destruct (prior_keeps mn hmn smn mpc Hm Hhm ltac:(lia) Hmpc count Hc1) as (q & Eq & Hq). rewrite Eq. apply only_bind; [apply only_ret|]. intros q' Eq'. apply gen_lift in Eq'.
  injection Eq' as <-.
  apply only_bind; [apply only_slice_polygon; [rewrite slice_length; nia|]|].
  { intros x Ix. apply Hl. unfold py_slice in Ix. apply firstn_in, skipn_in in Ix. exact Ix. }
  intros p Hgp. apply only_bind.
  - apply only_lift. intros e He. exfalso.
    assert (Lb : 3 <= lenZ (border p)).
    { unfold slice_polygon in Hgp. destruct (sliced _ _ _ _) as (sx & sy). apply polygon_strategy_spec in Hgp; [|lia]. destruct Hgp as ((Hb & _) & _). lia. }
    destruct (touch_some (match a with AxisX => true | AxisY => false end) (border p)) as (b & Hb); [intros K; rewrite K in Lb; cbn in Lb; lia|].
    unfold blocks_touch in He. destruct a; unfold touch_predicate in Hb; congruence.
  - intros blocked _. apply only_bind; [|intros r _; apply only_ret]. pose proof (b2z_range (negb blocked)).
    apply IH; [lia| |exact Hl]. rewrite Z.max_r by lia. unfold k in *. nia.
Qed.
Lemma only_multipolygons_along l sn sx : 1 <= sn -> (forall m, sx = Some m -> sn <= m) -> sn * mpc <= lenZ l -> (forall x, In x l -> drawable (along a xs ys) x) ->
  only E (coordinates_to_polygons ctx a xs ys mn mx hmn hmx smn smx mpc sn sx l).
Proof.
  intros Hn Hsx Hl Dl. destruct (mpc_prime mn hmn smn mpc Hm Hhm ltac:(lia) Hmpc) as (H5 & _). unfold coordinates_to_polygons. apply only_bind.
  - apply only_upto. assert (sn <= lenZ l / mpc) by (apply Z.div_le_lower_bound; lia).
    unfold min_opt. destruct sx as [m|]; [specialize (Hsx m eq_refl); lia|assumption].
  - intros n Hg. apply gen_integers in Hg. destruct Hg as (Hg1 & Hg2).
    assert (lenZ (isort qleb l) = lenZ l) as El by (unfold lenZ; rewrite isort_length; reflexivity).
    assert (n <= lenZ l / mpc) by (unfold min_opt in Hg2; destruct sx; lia).
    assert (mpc * (lenZ l / mpc) <= lenZ l) by (apply Z.mul_div_le; lia).
    apply only_multipolygon_loop; [lia| |intros x Ix; apply isort_in in Ix; apply Dl, Ix]. rewrite Z.max_r by lia. rewrite Z2Nat.id by lia. nia.
Qed.
End Slices.

Lemma only_general_multipolygon xs ys mn mx bmn bmx hmn hmx smn smx : 1 <= mn -> (forall m, mx = Some m -> mn <= m) ->
  3 <= bmn -> (forall m, bmx = Some m -> bmn <= m) -> 0 <= hmn -> (forall m, hmx = Some m -> hmn <= m) -> 3 <= smn ->
  harmless_both xs ys (mn * (2 * (bmn + hmn * smn))) -> general_coordinates xs ys ->
  fits (bmn + smn * hmn) (match bmx, hmx, smx with Some m, Some c, Some s => Some (m + s * c) | _, _, _ => None end) ->
  (hmn = 0 -> fits (mn * bmn) (match mx, bmx with Some m, Some c => Some (m * c) | _, _ => None end)) ->
  only E (to_multipolygon_strategy ctx xs ys mn mx bmn bmx hmn hmx smn smx).
Proof.
  intros Hm Hx Hb Hbx Hhm Hhx Hs Hh G F1 F2. pose proof (general_ordinates _ _ G) as G'.
  unfold to_multipolygon_strategy. change (or_else ys xs) with (ordinates xs ys) in *. cbv zeta.
  destruct (next_prime_twice (bmn + hmn * smn) ltac:(nia)) as (mpc & Hmpc & Hle). rewrite Hmpc. apply only_bind; [apply only_ret|].
  intros q Eq. apply gen_lift in Eq. injection Eq as <-.
  assert (H5 : 3 <= mpc) by (pose proof (to_next_prime_ge _ _ Hmpc); nia).
  destruct (harmless_both_le xs ys (mn * (2 * (bmn + hmn * smn))) mpc ltac:(nia) Hh) as (X1 & Y1). destruct (harmless_both_le xs ys (mn * (2 * (bmn + hmn * smn))) (mn * mpc) ltac:(nia) Hh) as (X2 & Y2).
  match goal with |- context [alt ?p ?q] => match p with bind _ _ => set (r := alt p q); assert (Hr : only E r) end end.
  { unfold r.
    assert (K : forall a, only E (let! l := unique_scalars (along a xs (ordinates xs ys)) (mn * mpc)
        match mx, bmx, hmx, smx with Some m, Some b, Some c, Some s => Some (Z.max (m * (b + s * c)) (mn * mpc)) | _, _, _, _ => None end in
      coordinates_to_polygons ctx a xs (ordinates xs ys) bmn bmx hmn hmx smn smx mpc mn mx l)).
    { intros a. apply only_bind.
      - apply only_unique_scalars; [nia| |destruct a; [exact X2|exact Y2]].
        intros m Em. destruct mx as [m1|], bmx as [m2|], hmx as [m3|], smx as [m4|]; try discriminate. injection Em as <-. lia.
      - intros l Hl. apply gen_unique_scalars in Hl. destruct Hl as (_ & _ & (Hl & _) & Dl).
        apply only_multipolygons_along; assumption. }
    apply only_alt; [apply (K AxisX)|apply (K AxisY)]. }
  clearbody r. destruct (Z.eqb_spec hmn 0) as [E0|E0]; [|exact Hr]. apply only_alt; [|exact Hr]. apply only_pmap.
  apply only_general_multicontour; try assumption; [|apply F2, E0].
  eapply (harmless_grid _ _ _ (mn * (2 * (bmn + hmn * smn)))); [nia|subst hmn; nia|]. destruct Hh as (Hh1 & Hh2). split; [exact Hh1|].
  intros s Es. injection Es as <-. destruct ys as [s|]; cbn [ordinates] in *; [apply Hh2; reflexivity|exact Hh1].
Qed.
End Faults.

Lemma to_nat_mono a b : a <= b -> (Z.to_nat a <= Z.to_nat b)%nat.
Proof. lia. Qed.
Section Silence.
Context (ctx : context) (C : contracts ctx) (hull : forall l, is_hull l (ctx_hull ctx l)).
Lemma general_multicontours_fuel xs ys mn mx cmn cmx w s e : general_coordinates xs ys -> harmless_both xs ys (2 * (Z.max mn 2 * Z.max cmn 3)) ->
  multicontours ctx xs ys mn mx cmn cmx = Ok (w, s) -> can_raise s e -> e = OutOfFuel.
Proof.
  intros G Hh H. unfold multicontours in H. validate; try discriminate. injection H as _ <-. change MIN_CONTOUR_SIZE with 3 in *. change MIN_MULTICONTOUR_SIZE with 2 in *.
  apply (only_general_multicontour ctx C (fun e => e = OutOfFuel)); [lia|apply clamped_range; assumption|lia| |exact G|apply fits_any; reflexivity].
  eapply harmless_grid; [nia| |exact Hh]. lia.
Qed.
Lemma general_multicontours_silent xs ys mn m cmn c w s e : general_coordinates xs ys -> harmless_both xs ys (2 * (Z.max mn 2 * Z.max cmn 3)) ->
  (let n := Z.to_nat (Z.max (m * c) (2 * (Z.max mn 2 * Z.max cmn 3))) in n * n + 4 * n < Pos.to_nat (ctx_fuel ctx))%nat ->
  multicontours ctx xs ys mn (Some m) cmn (Some c) = Ok (w, s) -> ~ can_raise s e.
Proof.
  intros G Hh Hf H. unfold multicontours in H. validate; try discriminate. injection H as _ <-. change MIN_CONTOUR_SIZE with 3 in *. change MIN_MULTICONTOUR_SIZE with 2 in *.
  refine (only_general_multicontour ctx C (fun _ => False) _ _ _ _ _ _ _ _ _ _ _ _ e); [lia|apply clamped_range; assumption|lia| |exact G|apply fits_bounded; [nia|exact Hf]].
  eapply harmless_grid; [nia| |exact Hh]. lia.
Qed.
Lemma general_polygons_fuel xs ys mn mx hmn hmx smn smx w s e : general_coordinates xs ys ->
  harmless_both xs ys (2 * (Z.max mn 3 + Z.max smn 3 * Z.max hmn 0)) ->
  polygons ctx xs ys mn mx hmn hmx smn smx = Ok (w, s) -> can_raise s e -> e = OutOfFuel.
Proof.
  intros G Hh H. unfold polygons in H. validate; try discriminate. injection H as _ <-. change MIN_CONTOUR_SIZE with 3 in *.
  apply (only_general_polygon ctx C hull (fun e => e = OutOfFuel)); [lia|apply clamped_range; assumption|lia|apply clamped_range; assumption|lia| |exact G|apply fits_any; reflexivity].
  eapply harmless_grid; [nia| |exact Hh]. lia.
Qed.
Lemma general_polygons_silent xs ys mn m hmn h smn k w s e : general_coordinates xs ys ->
  harmless_both xs ys (2 * (Z.max mn 3 + Z.max smn 3 * Z.max hmn 0)) ->
  (let n := Z.to_nat (Z.max (m + k * h) (2 * (Z.max mn 3 + Z.max smn 3 * Z.max hmn 0))) in n * n + 4 * n < Pos.to_nat (ctx_fuel ctx))%nat ->
  polygons ctx xs ys mn (Some m) hmn (Some h) smn (Some k) = Ok (w, s) -> ~ can_raise s e.
Proof.
  intros G Hh Hf H. unfold polygons in H. validate; try discriminate. injection H as _ <-. change MIN_CONTOUR_SIZE with 3 in *.
  refine (only_general_polygon ctx C hull (fun _ => False) _ _ _ _ _ _ _ _ _ _ _ _ _ _ _ _ e); [lia|apply clamped_range; assumption|lia|apply clamped_range; assumption|lia| |exact G|apply fits_bounded; [nia|exact Hf]].
  eapply harmless_grid; [nia| |exact Hh]. lia.
Qed.
Lemma general_multipolygons_fuel xs ys mn mx bmn bmx hmn hmx smn smx w s e : general_coordinates xs ys -> 0 <= hmn ->
  harmless_both xs ys (Z.max mn 2 * (2 * (Z.max bmn 3 + hmn * Z.max smn 3))) ->
  multipolygons ctx xs ys mn mx bmn bmx hmn hmx smn smx = Ok (w, s) -> can_raise s e -> e = OutOfFuel.
Proof.
  intros G H0 Hh H. unfold multipolygons in H. validate; try discriminate. injection H as _ <-. change MIN_CONTOUR_SIZE with 3 in *. change MIN_MULTIPOLYGON_SIZE with 2 in *.
  apply (only_general_multipolygon ctx C hull (fun e => e = OutOfFuel)); try exact Hh; try exact G; try lia;
    [apply clamped_range; assumption|apply clamped_range; assumption| |apply fits_any; reflexivity|intros _; apply fits_any; reflexivity].
  intros m Em. pose proof (clamped_range hmn hmx 0 ltac:(assumption) m Em). lia.
Qed.
Lemma general_multipolygons_silent xs ys mn m bmn b hmn h smn k w s e : general_coordinates xs ys -> 0 <= hmn ->
  harmless_both xs ys (Z.max mn 2 * (2 * (Z.max bmn 3 + hmn * Z.max smn 3))) ->
  (let n := Z.to_nat (Z.max (Z.max (b + k * h) (m * b)) (Z.max mn 2 * (2 * (Z.max bmn 3 + hmn * Z.max smn 3)))) in n * n + 4 * n < Pos.to_nat (ctx_fuel ctx))%nat ->
  multipolygons ctx xs ys mn (Some m) bmn (Some b) hmn (Some h) smn (Some k) = Ok (w, s) -> ~ can_raise s e.
Proof.
  intros G H0 Hh Hf H. unfold multipolygons in H. validate; try discriminate. injection H as _ <-. change MIN_CONTOUR_SIZE with 3 in *. change MIN_MULTIPOLYGON_SIZE with 2 in *.
  refine (only_general_multipolygon ctx C hull (fun _ => False) _ _ _ _ _ _ _ _ _ _ _ _ _ _ _ _ _ _ _ _ _ e); try exact Hh; try exact G; try lia;
    [apply clamped_range; assumption|apply clamped_range; assumption| |apply fits_bounded; [nia|]|intros E0; apply fits_bounded; [nia|]];
    try (cbv zeta in Hf; eapply enough_mono; [|exact Hf]; apply to_nat_mono; assert (2 <= Z.max mn 2) by lia; assert (3 <= Z.max bmn 3) by lia;
      assert (3 <= Z.max smn 3) by lia; assert (2 * (2 * (Z.max bmn 3 + hmn * Z.max smn 3)) <= Z.max mn 2 * (2 * (Z.max bmn 3 + hmn * Z.max smn 3))) by nia; subst; nia).
  intros h' Em. pose proof (clamped_range hmn (Some h) 0 ltac:(assumption) h' Em). lia.
Qed.
End Silence.
