(** Exceptions of contours, concave contours, multisegments and mixes with coordinates in general
    position. *)
From Coq Require Import List Lia Znumtheory Permutation.
From Verif Require Import Base Prog Geometry Ctx Utils Contracts Spec RangeSpec WindSpec MixSpec GeneralSpec HullSpec Factories Triangulation Strategies Planar ProgProofs
  SequenceProofs LoopProofs ListProofs PrimeProofs GridProofs PlanarProofs QcTac GeomProofs HullProofs RangeProofs RangeApiProofs ContourProofs StarProofs FaultProofs FuelProofs
  SegmentProofs EdgeProofs SeparationProofs MultiProofs MixProofs BorderProofs DelContour PolyFaultProofs GeneralProofs GeneralPolyProofs GeneralApiProofs.
Import List ListNotations.
Open Scope Z_scope.

Section F.
Context (ctx : context) (C : contracts ctx) (hull : forall l, is_hull l (ctx_hull ctx l)) (E : exn -> Prop)
  (Ha : forall y x e, ctx_atan2 ctx y x <> Raise e) (Ez : E ZeroDivisionError).

(** ** Contours. *)
Lemma only_star_general xs ys mn mx : 3 <= mn -> grid_harmless xs ys mn -> only E (to_star_vertex_sequence_strategy ctx xs ys mn mx).
Proof.
  intros Hm Hg e He.
  assert (K : e = ZeroDivisionError); [|subst; exact Ez]. revert e He.
  apply (only_star_strategy (fun e => e = ZeroDivisionError)); [|reflexivity|discriminate|exact Hm|exact Hg].
  intros y x e K. exfalso. exact (Ha _ _ _ K).
Qed.
Lemma only_carved_general xs ys mn mx : 3 <= mn -> (forall m, mx = Some m -> mn <= m) -> grid_harmless xs ys mn -> general_coordinates xs ys ->
  fits ctx E mn mx -> only E (to_carved_vertex_sequence_strategy ctx xs ys mn mx).
Proof.
  intros Hm Hx Hg G Hf. unfold to_carved_vertex_sequence_strategy. apply only_pfilter. apply only_bind; [apply only_grid; assumption|].
  intros pts Hp. pose proof (Hf _ _ _ Hp) as Fu. pose proof (grid_general _ _ _ _ _ G Hp) as Gp. apply grid_at_least in Hp. destruct Hp as (Hp & H5 & N).
  assert (L3 : (3 <= length pts)%nat) by (unfold lenZ in H5; lia).
  apply only_bind; [apply only_upto; unfold min_opt; destruct mx as [m|]; [specialize (Hx m eq_refl)|]; lia|].
  intros size _. apply only_lift. intros e He. destruct Fu as [Fu|Fu].
  - pose proof (sequence_always ctx C pts size N L3 Gp) as K. rewrite He in K. subst e. exact Fu.
  - exfalso. destruct (carve_ok ctx (proj1 C) pts size N L3 Gp Fu) as (vs & K & _). congruence.
Qed.
Lemma only_sequences_general xs ys mn mx : 3 <= mn -> (forall m, mx = Some m -> mn <= m) -> grid_harmless xs ys mn -> general_coordinates xs ys ->
  fits ctx E mn mx -> only E (to_vertex_sequences_ ctx xs ys mn mx).
Proof. intros Hm Hx Hg G Hf. unfold to_vertex_sequences_. apply only_alt; [apply only_star_general|apply only_carved_general]; assumption. Qed.
Lemma only_concave_general xs ys mn mx : 3 <= mn -> (forall m, mx = Some m -> mn <= m) -> grid_harmless xs ys mn -> general_coordinates xs ys ->
  fits ctx E mn mx -> only E (to_concave_vertex_sequence_strategy ctx xs ys mn mx).
Proof.
  intros Hm Hx Hg G Hf e He. unfold to_concave_vertex_sequence_strategy in He. apply raise_pfilter_res in He.
  destruct He as [He|(vs & Hv & He)]; [exact (only_sequences_general xs ys mn mx Hm Hx Hg G Hf e He)|].
  exfalso. assert (Nn : vs <> []).
  { intros ->. unfold to_vertex_sequences_ in Hv. apply gen_alt in Hv.
    destruct Hv as [Hv|Hv]; apply gen_pfilter in Hv; destruct Hv as (_ & Hv); unfold has_valid_size in Hv; apply andb_true_iff in Hv; destruct Hv as (Hv & _);
      apply Z.leb_le in Hv; cbn in Hv; lia. }
  unfold are_vertices_non_convex in He. destruct (to_contour_orientations vs) eqn:Eo; [|discriminate].
  destruct vs as [|v vs]; [contradiction|]. destruct vs; discriminate Eo.
Qed.
Lemma only_contour_general xs ys mn mx : 3 <= mn -> (forall m, mx = Some m -> mn <= m) -> grid_harmless xs ys mn -> general_coordinates xs ys ->
  fits ctx E mn mx -> only E (to_vertex_sequence_strategy ctx xs ys mn mx).
Proof.
  intros Hm Hx Hg G Hf. unfold to_vertex_sequence_strategy. apply only_alt; [|apply only_sequences_general; assumption].
  apply only_convex_strategy; [|exact Hm|exact Hg]. intros y x e K. exfalso. exact (Ha _ _ _ K).
Qed.

(** ** Segments. *)
Lemma only_segments_general xs ys mn mx : 1 <= mn -> (forall m, mx = Some m -> mn <= m) ->
  harmless xs (mn + 1) -> harmless (ordinates xs ys) (mn + 1) -> general_coordinates xs ys ->
  ((forall m, mx = Some m -> 3 <= m) -> grid_harmless xs ys (Z.max mn 3) /\ fits ctx E (Z.max mn 3) mx) ->
  only E (to_segment_sequence_strategy ctx xs ys mn mx).
Proof.
  intros Hm Hx Ex Ey G Hg. unfold to_segment_sequence_strategy. change (or_else ys xs) with (ordinates xs ys).
  assert (Ex1 : harmless xs 1) by (eapply harmless_le; [|exact Ex]; lia).
  assert (Ey1 : harmless (ordinates xs ys) 1) by (eapply harmless_le; [|exact Ey]; lia).
  assert (Hs : only E (to_segment_strategy xs (Some (ordinates xs ys)))) by (apply only_segment; assumption).
  destruct (match mx with None => false | Some m => m <? 2 end) eqn:E2.
  { destruct mx as [[| |]|]; try discriminate; try apply only_ret; apply only_pmap; exact Hs. }
  match goal with |- context [alt ?p ?q] => match p with bind (draw_scalar xs) _ => set (r := alt p q); assert (Hr : only E r) end end.
  { unfold r. apply only_alt.
    - apply only_bind; [apply (only_scalar _ _ 1); [lia|exact Ex1]|]. intros x _. apply only_bind; [|intros l _; apply only_ret].
      apply only_unique_scalars; [lia| |exact Ey]. intros m Em. destruct mx as [m'|]; [|discriminate]. injection Em as <-.
      specialize (Hx m' eq_refl). lia.
    - apply only_bind; [|intros l _; apply only_bind; [apply (only_scalar _ _ 1); [lia|exact Ey1]|intros y _; apply only_ret]].
      apply only_unique_scalars; [lia| |exact Ex]. intros m Em. destruct mx as [m'|]; [|discriminate]. injection Em as <-.
      specialize (Hx m' eq_refl). lia. }
  clearbody r. cbv zeta. apply only_alt.
  - destruct (match mx with None => true | Some m => MIN_CONTOUR_SIZE <=? m end) eqn:E3; [|exact Hr]. apply only_alt; [exact Hr|].
    change MIN_CONTOUR_SIZE with 3 in *.
    assert (H3 : forall m, mx = Some m -> 3 <= m) by (intros m ->; apply Z.leb_le, E3).
    assert (Hx' : forall m, mx = Some m -> Z.max mn 3 <= m) by (intros m Em; specialize (H3 m Em); specialize (Hx m Em); lia).
    destruct (Hg H3) as (Hg1 & Hg2).
    apply only_bind; [apply only_contour_general; [lia|exact Hx'|exact Hg1|apply general_ordinates, G|exact Hg2]|].
    intros vs Hv. unfold to_sub_sequence_strategy. apply only_bind; [apply only_permutations|]. intros l _.
    apply only_bind; [|intros n _; apply only_ret]. apply only_upto.
    apply vertex_sequence_spec in Hv; [|exact hull|lia|exact Hx']. destruct Hv as ((Hv & _) & _).
    change (contour_vertices_to_edges vs) with (contour_segments vs). unfold lenZ in *. rewrite EdgeProofs.segments_length. lia.
  - apply only_pfilter, only_lists; [lia|exact Hx|exact Hs].
Qed.

(** ** Mixes. *)
Section Slices.
Context (a : axis) (xs ys : scalars) (mn : Z) (mx : option Z) (hmn : Z) (hmx : option Z) (smn : Z) (smx : option Z) (mpc : Z)
  (Hm : 3 <= mn) (Hx : forall m, mx = Some m -> mn <= m) (Hhm : 0 <= hmn) (Hhx : forall m, hmx = Some m -> hmn <= m) (Hs : 3 <= smn)
  (Hmpc : to_next_prime (mn + hmn * smn) = Ok mpc) (G : general_coordinates xs (Some ys))
  (Hfit : fits ctx E (mn + smn * hmn) (match mx, hmx, smx with Some m, Some c, Some s => Some (m + s * c) | _, _, _ => None end)).
(** The coordinates along the axis, which are sliced, and the ones across it. *)
Definition fed (l : list Qc) : Prop :=
  (forall n, n <= lenZ l -> harmless xs n) /\ (forall n, n <= lenZ l -> harmless ys n) /\ forall x, In x l -> drawable (GeneralApiProofs.along a xs ys) x.
Lemma fed_drop l n : 0 <= n -> fed l -> fed (py_drop l n).
Proof.
  intros Hn (F1 & F2 & F3). split; [|split].
  - intros k Hk. apply F1. rewrite drop_length in Hk by exact Hn. pose proof (Zle_0_nat (length l)). fold (lenZ l) in *. lia.
  - intros k Hk. apply F2. rewrite drop_length in Hk by exact Hn. pose proof (Zle_0_nat (length l)). fold (lenZ l) in *. lia.
  - intros x Ix. apply F3, (py_drop_in _ _ _ Ix).
Qed.
Lemma sliced_harmless l c n : fed l -> 0 <= c <= lenZ l -> n <= c -> harmless (fst (sliced a (py_take l c) xs ys)) n /\ harmless (snd (sliced a (py_take l c) xs ys)) n.
Proof.
  intros (F1 & F2 & _) Hc Hn. assert (K : n <= lenZ (py_take l c)) by (rewrite py_take_length; lia).
  destruct a; cbn [sliced fst snd harmless]; split; try exact K; [apply F2|apply F1]; lia.
Qed.
Lemma only_draw_points l count : fed l -> 1 <= count <= lenZ l -> only E (draw_points xs ys a l count).
Proof.
  intros F H. unfold draw_points. destruct (sliced a (py_take l count) xs ys) as (sx & sy) eqn:Es.
  pose proof (sliced_harmless l count 1 F ltac:(lia) ltac:(lia)) as K. rewrite Es in K. destruct K as (K1 & K2).
  apply only_points; [lia| |exact K1|exact K2]. intros m Em. injection Em as <-. lia.
Qed.
Lemma only_draw_segments l size : fed l -> 1 <= size -> 2 * size <= lenZ l -> (3 <= size -> fits ctx E size (Some size)) -> only E (draw_segments ctx xs ys a l (2 * size)).
Proof.
  intros F H1 H2 Fs. unfold draw_segments. replace (2 * size / 2) with size by (rewrite Z.mul_comm, Z.div_mul; lia).
  destruct (sliced a (py_take l (2 * size)) xs ys) as (sx & sy) eqn:Es.
  assert (K : forall n, n <= 2 * size -> harmless sx n /\ harmless sy n).
  { intros n Hn. pose proof (sliced_harmless l (2 * size) n F ltac:(lia) Hn) as K. rewrite Es in K. exact K. }
  apply only_segments_general; [exact H1|intros m Em; injection Em as <-; lia|apply K; lia|apply K; lia| |].
  - eapply sliced_general; [exact G| |exact Es]. intros x Ix. apply F, (py_take_in _ _ _ Ix).
  - intros H3. specialize (H3 size eq_refl). rewrite Z.max_l by lia. split; [|apply Fs, H3]. intros lower El. destruct (next_prime_twice size H3) as (q & Eq & Hq).
    rewrite El in Eq. injection Eq as ->. apply K, Hq.
Qed.
Lemma only_draw_polygon l count : fed l -> mpc <= count <= lenZ l -> only E (draw_polygon ctx xs ys mn mx hmn hmx smn smx a l count).
Proof.
  intros F H. destruct (mpc_prime mn hmn smn mpc Hm Hhm ltac:(lia) Hmpc) as (H5 & _).
  destruct (prior_keeps mn hmn smn mpc Hm Hhm ltac:(lia) Hmpc count ltac:(lia)) as (q & Eq & Hq).
  unfold draw_polygon. apply only_bind; [destruct a; [rewrite Eq|]; apply only_ret|].
  intros n Hn. change (only E (slice_polygon ctx a xs ys mn mx hmn hmx smn smx (py_take l n))).
  assert (N : mpc <= n <= count) by (destruct a; [rewrite Eq in Hn; apply gen_lift in Hn; injection Hn as <-; lia|apply gen_ret in Hn; subst n; lia]).
  apply only_slice_polygon with (mpc := mpc); try assumption; try (apply F; lia); [rewrite py_take_length; lia|].
  intros x Ix. apply F, (py_take_in _ _ _ Ix).
Qed.
Lemma only_partition v : 0 <= v -> only E (Strategies.partition v).
Proof.
  intros H. unfold Strategies.partition. rewrite (proj2 (Z.leb_le 0 v) H). apply only_bind; [apply only_ret|]. intros u _.
  assert (K : forall fuel v, 0 <= v <= Z.of_nat fuel -> only E (partition_loop fuel v)); [|apply K; lia].
  induction fuel as [|fuel IH]; intros w Hw; cbn [partition_loop]; (destruct (Z.eqb_spec w 0); [apply only_ret|]); [lia|].
  apply only_bind; [apply only_upto; lia|]. intros x Hx'. apply gen_integers in Hx'. destruct Hx' as (K1 & K2).
  apply only_bind; [apply IH; lia|]. intros r _. apply only_ret.
Qed.
Context (pmn : Z) (pmx : option Z) (smin : Z) (smax : option Z) (qmn : Z) (qmx : option Z)
  (Hpm : 0 <= pmn) (Hpx : forall m, pmx = Some m -> pmn <= m) (Hsm : 0 <= smin) (Hsx : forall m, smax = Some m -> smin <= m)
  (Hqm : 0 <= qmn) (Hqx : forall m, qmx = Some m -> qmn <= m)
  (Fseg : forall size, 3 <= size -> (forall m, smax = Some m -> size <= m) -> fits ctx E size (Some size)).
Definition mix_fits (dc : drawer * Z) : Prop := count_fits mpc dc /\ (fst dc = DrawSegments -> forall m, smax = Some m -> snd dc <= 2 * m).
Lemma only_mix_loop drawers : forall l P S Q, (forall dc, In dc drawers -> mix_fits dc) -> zsum (map snd drawers) <= lenZ l -> fed l ->
  only E (mix_loop ctx xs ys mn mx hmn hmx smn smx a drawers l P S Q).
Proof.
  induction drawers as [|(d, count) drawers IH]; intros l P S Q Hc Hl F; [apply only_ret|]. cbn [mix_loop].
  destruct (Hc (d, count) (or_introl eq_refl)) as (Ft & Fm). cbn [fst snd] in Fm.
  assert (Fp : forall dc, count_fits mpc dc -> 1 <= snd dc) by (intros dc; apply (fits_pos mn hmn smn mpc Hm Hhm ltac:(lia) Hmpc)).
  pose proof (Fp _ Ft) as F1. cbn [snd] in F1.
  cbn [map snd zsum fold_right] in Hl. fold (zsum (map snd drawers)) in Hl.
  assert (Hp : 0 <= zsum (map snd drawers)).
  { assert (Hc' : forall dc, In dc drawers -> count_fits mpc dc) by (intros dc Hin; apply (Hc dc); right; exact Hin). clear - Hc' Fp.
    induction drawers as [|dc drawers IH]; [cbn; lia|]. cbn [map zsum fold_right]. fold (zsum (map snd drawers)).
    pose proof (Fp dc (Hc' dc (or_introl eq_refl))). specialize (IH (fun x Hx => Hc' x (or_intror Hx))). lia. }
  assert (Rest : forall P1 S1 Q1 touch, only E (mix_loop ctx xs ys mn mx hmn hmx smn smx a drawers (py_drop l (count - b2z touch)) P1 S1 Q1)).
  { intros P1 S1 Q1 touch. pose proof (b2z_range touch). apply IH; [intros dc Hin; apply Hc; right; exact Hin| |apply fed_drop; [lia|exact F]].
    rewrite drop_length by lia. lia. }
  destruct d.
  - apply only_bind; [apply only_bind; [apply only_draw_points; [exact F|lia]|intros r _; apply only_ret]|].
    intros ((P1 & S1) & Q1) _. apply only_bind; [destruct drawers as [|([| |] & c) drawers]; apply only_ret|]. intros touch _. apply Rest.
  - destruct Ft as (size & Hs1 & Hs2). cbn [snd] in Hs2. subst count.
    apply only_bind; [apply only_bind; [apply only_draw_segments; [exact F|lia|lia|intros H3; apply Fseg; [exact H3|intros m Em; specialize (Fm eq_refl m Em); lia]]|intros r _; apply only_ret]|].
    intros ((P1 & S1) & Q1) Hd. apply gen_bind in Hd. destruct Hd as (r & Hr & Hd). apply gen_ret in Hd. injection Hd as -> -> ->.
    assert (Nr : r <> []).
    { intros ->. unfold draw_segments in Hr. replace (2 * size / 2) with size in Hr by (rewrite Z.mul_comm, Z.div_mul; lia).
      destruct (sliced _ _ _ _) as (sx & sy). apply segment_sequence_spec in Hr; [|exact hull|lia|intros m Em; injection Em as <-; lia]. destruct Hr as ((Hr & _) & _). cbn in Hr. lia. }
    assert (T : exists b, blocks_touch a (S ++ r) = Ok b).
    { unfold blocks_touch, has_vertical_leftmost_segment, has_horizontal_lowermost_segment. destruct (S ++ r) eqn:El; [apply app_eq_nil in El; destruct El; contradiction|].
      destruct a; eexists; reflexivity. }
    destruct T as (b & T). rewrite T.
    apply only_bind; [destruct drawers as [|([| |] & c) drawers]; try apply only_ret; apply only_pmap, only_ret|]. intros touch _. apply Rest.
  - unfold count_fits in Ft. cbn [fst snd] in Ft.
    apply only_bind; [apply only_bind; [apply only_draw_polygon; [exact F|lia]|intros r _; apply only_ret]|].
    intros ((P1 & S1) & Q1) Hd. apply gen_bind in Hd. destruct Hd as (p & Hgp & Hd). apply gen_ret in Hd. injection Hd as -> -> ->.
    assert (Lb : 3 <= lenZ (border p)).
    { unfold draw_polygon in Hgp. apply gen_bind in Hgp. destruct Hgp as (n & _ & Hgp). destruct (sliced _ _ _ _) as (sx & sy).
      apply polygon_strategy_spec in Hgp; [|lia]. destruct Hgp as ((Hb & _) & _). lia. }
    rewrite last_last.
    destruct (touch_some (match a with AxisX => true | AxisY => false end) (border p)) as (b & Hb); [intros K; rewrite K in Lb; cbn in Lb; lia|].
    assert (T : blocks_touch a (contour_segments (border p)) = Ok b) by (unfold blocks_touch; destruct a; exact Hb).
    rewrite T. apply only_bind; [destruct drawers as [|([| |] & c) drawers]; try apply only_ret; apply only_pmap, only_ret|]. intros touch _. apply Rest.
Qed.
Lemma member_sum l y : (forall x, In x l -> 1 <= x) -> In y l -> y <= zsum l.
Proof.
  assert (P : forall l, (forall x, In x l -> 1 <= x) -> 0 <= zsum l).
  { intros k. induction k as [|x k IH]; intros H; [cbn; lia|]. cbn [zsum fold_right]. fold (zsum k). pose proof (H x (or_introl eq_refl)).
    specialize (IH (fun z Hz => H z (or_intror Hz))). lia. }
  induction l as [|x l IH]; intros H Hy; [destruct Hy|]. destruct Hy as [->|Hy]; cbn [zsum fold_right]; fold (zsum l); pose proof (P l (fun z Hz => H z (or_intror Hz))).
  - lia.
  - specialize (IH (fun z Hz => H z (or_intror Hz)) Hy). pose proof (H x (or_introl eq_refl)). lia.
Qed.
Lemma only_mix_along l : fed l -> pmn + 2 * smin + qmn * mpc <= lenZ l ->
  only E (coordinates_to_mix ctx xs ys pmn pmx smin smax qmn qmx mn mx hmn hmx smn smx mpc a l).
Proof.
  intros F Hl. destruct (mpc_prime mn hmn smn mpc Hm Hhm ltac:(lia) Hmpc) as (H5 & _). unfold coordinates_to_mix.
  assert (K : only E (to_point_counts pmn pmx smin smax qmn qmx mpc (lenZ l)) /\
      forall pc sc qc, generates (to_point_counts pmn pmx smin smax qmn qmx mpc (lenZ l)) (pc, sc, qc) ->
      (forall dc, In dc (map (pair DrawPoints) pc ++ map (pair DrawSegments) sc ++ map (pair DrawPolygon) qc) -> mix_fits dc) /\
      zsum pc + zsum sc + zsum qc <= lenZ l).
  { set (total := lenZ l) in *. unfold to_point_counts. cbv zeta. set (mpt := total - pmn - 2 * smin).
    assert (Hmpt : qmn * mpc <= mpt) by (unfold mpt; lia). assert (Hm0 : 0 <= mpt) by nia.
    assert (Q0 : qmn <= mpt / mpc) by (apply Z.div_le_lower_bound; lia).
    assert (Q1 : mpc * (mpt / mpc) <= mpt) by (apply Z.mul_div_le; lia).
    (* the polygons fit *)
    assert (Hpol : forall n mpp qc, in_range qmn (Some (min_opt (mpt / mpc) qmx)) n ->
      generates (if n =? 0 then Ret 0 else lift (to_prior_prime (mpt / n))) mpp ->
      (n <> 0 -> mpc <= mpp) /\
      (generates (if n =? 0 then Ret [] else draw_n (Z.to_nat n) (integers mpc (Some mpp))) qc ->
       (forall x, In x qc -> mpc <= x) /\ 0 <= zsum qc <= mpt)).
    { intros n mpp qc (N1 & N2) Hmpp. assert (N3 : n <= mpt / mpc) by (unfold min_opt in N2; destruct qmx; lia).
      destruct (Z.eqb_spec n 0) as [-> |Hn].
      - split; [tauto|]. intros Hq. apply gen_ret in Hq. subst qc. split; [intros ? []|cbn; lia].
      - assert (mpc <= mpt / n) as D by (apply Z.div_le_lower_bound; nia).
        destruct (prior_keeps mn hmn smn mpc Hm Hhm ltac:(lia) Hmpc _ D) as (q & Eq & Hq). apply gen_lift in Hmpp. rewrite Eq in Hmpp. injection Hmpp as <-.
        split; [lia|]. intros Hqc. apply gen_draw_n in Hqc. destruct Hqc as (L & Hqc).
        assert (B : forall x, In x qc -> mpc <= x <= q).
        { intros x Hin. apply Hqc, gen_integers in Hin. destruct Hin as (B1 & B2). lia. }
        split; [intros x Hin; apply B, Hin|]. pose proof (sum_le q qc (fun x Hin => proj2 (B x Hin))) as U.
        assert (lenZ qc = n) as Ln by (unfold lenZ; rewrite L; lia). rewrite Ln in U.
        assert (n * (mpt / n) <= mpt) by (apply Z.mul_div_le; lia). split; [|nia].
        clear - B H5. assert (forall x, In x qc -> 0 <= x) as B' by (intros x Hin; specialize (B x Hin); lia). clear B.
        induction qc as [|x qc IH]; [cbn; lia|]. cbn [zsum fold_right]. fold (zsum qc).
        pose proof (B' x (or_introl eq_refl)). specialize (IH (fun y Hy => B' y (or_intror Hy))). lia. }
    (* the segments fit *)
    assert (Hseg : forall tp, 0 <= tp <= mpt -> exists hi,
      (match smax with None => total - tp - pmn | Some m => Z.min (total - tp - pmn) (2 * m) end - 2 * smin) / 2 = hi /\
      0 <= hi /\ 2 * smin + 2 * hi <= total - tp - pmn /\ forall m, smax = Some m -> smin + hi <= m).
    { intros tp Htp. eexists. split; [reflexivity|]. set (z := _ - 2 * smin). assert (0 <= z <= total - tp - pmn - 2 * smin).
      { unfold z, mpt in *. destruct smax as [m|]; [specialize (Hsx m eq_refl)|]; lia. }
      assert (2 * (z / 2) <= z) by (apply Z.mul_div_le; lia). assert (0 <= z / 2) by (apply Z.div_pos; lia).
      split; [lia|]. split; [lia|]. intros m Em. unfold z in *. rewrite Em in *. lia. }
    split.
    - apply only_bind.
      { apply only_upto. unfold min_opt. destruct qmx as [m|]; [specialize (Hqx m eq_refl); lia|assumption]. }
      intros n Hn. apply gen_integers in Hn.
      apply only_bind.
      { destruct (Z.eqb_spec n 0) as [|Hn0]; [apply only_ret|]. apply only_lift. intros e He. exfalso.
        destruct Hn as (N1 & N2). assert (N3 : n <= mpt / mpc) by (unfold min_opt in N2; destruct qmx; lia).
        assert (mpc <= mpt / n) as D by (apply Z.div_le_lower_bound; nia).
        destruct (prior_keeps mn hmn smn mpc Hm Hhm ltac:(lia) Hmpc _ D) as (q & Eq & _). congruence. }
      intros mpp Hmpp.
      apply only_bind.
      { destruct (Z.eqb_spec n 0) as [|Hn0]; [apply only_ret|]. apply only_draw_n, only_upto.
        destruct (Hpol n mpp [] Hn) as (K & _); [|exact (K Hn0)]. destruct (Z.eqb_spec n 0); [contradiction|exact Hmpp]. }
      intros qc Hqc. destruct (Hpol n mpp qc Hn Hmpp) as (_ & Hpc). specialize (Hpc Hqc). destruct Hpc as (_ & Hpc).
      fold (zsum qc). destruct (Hseg (zsum qc) Hpc) as (hi & Ehi & Hhi0 & Hhi & Hhm'). rewrite Ehi.
      apply only_bind; [apply only_upto; exact Hhi0|].
      intros half Hhalf. apply gen_integers in Hhalf. destruct Hhalf as (Hf1 & Hf2).
      apply only_bind; [apply only_partition; unfold min_opt; destruct pmx as [m|]; [specialize (Hpx m eq_refl)|]; lia|].
      intros pc _. apply only_bind; [apply only_partition, Z.div_pos; lia|]. intros sizes _. apply only_ret.
    - intros pc sc qc H. apply gen_bind in H. destruct H as (n & Hn & H). apply gen_integers in Hn.
      apply gen_bind in H. destruct H as (mpp & Hmpp & H). apply gen_bind in H. destruct H as (qc' & Hqc & H).
      destruct (Hpol n mpp qc' Hn Hmpp) as (_ & Hpc). specialize (Hpc Hqc). destruct Hpc as (Hpc1 & Hpc).
      fold (zsum qc') in H. destruct (Hseg (zsum qc') Hpc) as (hi & Ehi & Hhi0 & Hhi & Hhm'). rewrite Ehi in H.
      apply gen_bind in H. destruct H as (half & Hhalf & H). apply gen_integers in Hhalf. destruct Hhalf as (Hf1 & Hf2).
      apply gen_bind in H. destruct H as (pc' & Hp' & H). apply partition_spec in Hp'. destruct Hp' as (P1 & P2).
      apply gen_bind in H. destruct H as (sizes & Hs' & H). apply partition_spec in Hs'. destruct Hs' as (S1 & S2).
      apply gen_ret in H. injection H as -> -> ->. split.
      + intros dc Hin. apply in_app_or in Hin. destruct Hin as [Hin|Hin]; [|apply in_app_or in Hin; destruct Hin as [Hin|Hin]];
          apply in_map_iff in Hin; destruct Hin as (x & <- & Hin); unfold mix_fits, count_fits; cbn [fst snd]; (split; [|try discriminate]).
        * apply P1, Hin.
        * apply in_map_iff in Hin. destruct Hin as (y & <- & Hin). exists y. split; [apply S1, Hin|reflexivity].
        * intros _ m Em. apply in_map_iff in Hin. destruct Hin as (y & <- & Hin). specialize (Hhm' m Em). pose proof (member_sum sizes y S1 Hin) as U.
          assert (zsum sizes = smin + half) as U' by (rewrite S2; replace (2 * smin + 2 * half) with ((smin + half) * 2) by lia; apply Z.div_mul; lia). lia.
        * apply Hpc1, Hin.
      + assert (zsum (map (Z.mul 2) sizes) = 2 * zsum sizes) as ->.
        { clear. induction sizes as [|x l IH]; [reflexivity|]. cbn [map zsum fold_right]. fold (zsum l) (zsum (map (Z.mul 2) l)). lia. }
        assert (2 * zsum sizes <= 2 * smin + 2 * half) by (rewrite S2; apply Z.mul_div_le; lia).
        rewrite P2. unfold min_opt. destruct pmx as [m|]; lia. }
  destruct K as (K1 & K2). apply only_bind; [exact K1|]. intros ((pc & sc) & qc) Hg. specialize (K2 pc sc qc Hg). destruct K2 as (K2 & K3).
  apply only_bind; [apply only_permutations|]. intros drawers Hd. apply gen_permutations in Hd.
  apply only_bind; [|intros ((P & S) & Q) _; apply only_ret]. apply only_mix_loop.
  - intros dc Hin. apply K2. eapply Permutation_in; [symmetry; exact Hd|exact Hin].
  - rewrite <- (zsum_perm _ _ (Permutation_map snd Hd)). unfold lenZ at 1. rewrite isort_length. fold (lenZ l).
    rewrite !map_app, !zsum_app, !map_map. cbn [snd]. rewrite !map_id. lia.
  - destruct F as (F1 & F2 & F3). unfold fed, lenZ in *. rewrite isort_length. split; [exact F1|]. split; [exact F2|]. intros x Ix. apply F3, (isort_in qleb), Ix.
Qed.
End Slices.
End F.

(** ** The strategies of the API. *)
Lemma evenly_at xs ys n m : m <= n -> evenly_fed xs ys n -> harmless xs m /\ harmless (ordinates xs ys) m.
Proof. intros Hm [H|(l & l' & -> & -> & H1 & H2)]; [apply H|]. cbn [harmless]. lia. Qed.
Lemma evenly_along a xs ys n l mx m : evenly_fed xs ys n -> generates (unique_scalars (GeneralApiProofs.along a xs (ordinates xs ys)) m mx) l -> fed a xs (ordinates xs ys) l.
Proof.
  intros H Hl. apply gen_unique_scalars in Hl. destruct Hl as (N & _ & _ & Hd).
  assert (K : forall k, k <= lenZ l -> harmless xs k /\ harmless (ordinates xs ys) k).
  { intros k Hk. destruct H as [H|(l1 & l2 & -> & E2 & H1 & H2)]; [apply H|]. rewrite E2 in *.
    assert (B : lenZ l <= lenZ l1).
    { destruct a; cbn [along] in Hd; [|rewrite H1]; unfold lenZ; apply inj_le, NoDup_incl_length; try exact N; intros x Ix; apply drawable_sampled, Hd, Ix. }
    cbn [harmless]. lia. }
  split; [intros k Hk; apply K, Hk|]. split; [intros k Hk; apply K, Hk|]. intros x Ix. apply Hd, Ix.
Qed.
Section Api.
Context (ctx : context) (C : contracts ctx) (hull : forall l, is_hull l (ctx_hull ctx l)) (Ha : forall y x e, ctx_atan2 ctx y x <> Raise e)
  (E : exn -> Prop) (Ez : E ZeroDivisionError).
Lemma contours_only xs ys mn mx w s : general_coordinates xs ys -> harmless_both xs ys (2 * Z.max mn 3) -> fits ctx E (Z.max mn 3) mx ->
  contours ctx xs ys mn mx = Ok (w, s) -> only E s.
Proof.
  intros G Hh Hf H. unfold contours in H. validate; try discriminate. injection H as _ <-. change MIN_CONTOUR_SIZE with 3 in *.
  apply only_contour_general; try assumption; [lia|apply clamped_range; assumption|]. eapply harmless_grid; [lia| |exact Hh]. lia.
Qed.
Lemma concave_only xs ys mn mx w s : general_coordinates xs ys -> harmless_both xs ys (2 * Z.max mn 4) -> fits ctx E (Z.max mn 4) mx ->
  concave_contours ctx xs ys mn mx = Ok (w, s) -> only E s.
Proof.
  intros G Hh Hf H. unfold concave_contours in H. validate; try discriminate. injection H as _ <-. change CONCAVE with 4 in *.
  apply only_concave_general; try assumption; [lia|apply clamped_range; assumption|]. eapply harmless_grid; [lia| |exact Hh]. lia.
Qed.
Lemma multisegments_only xs ys mn mx w s : general_coordinates xs ys -> harmless_both xs ys (2 * Z.max mn 3) -> fits ctx E (Z.max mn 3) mx ->
  multisegments ctx xs ys mn mx = Ok (w, s) -> only E s.
Proof.
  intros G Hh Hf H. unfold multisegments in H. validate; try discriminate. injection H as _ <-. change MIN_MULTISEGMENT_SIZE with 2 in *.
  unfold to_multisegment_strategy.
  destruct (harmless_both_le xs ys (2 * Z.max mn 3) (Z.max mn 2 + 1) ltac:(lia) Hh) as (H1 & H2).
  apply only_segments_general; try assumption; [lia|apply clamped_range; assumption|]. intros _. replace (Z.max (Z.max mn 2) 3) with (Z.max mn 3) by lia.
  split; [|exact Hf]. eapply harmless_grid; [lia| |exact Hh]. lia.
Qed.
Lemma mixes_only xs ys pmn pmx smn smx gmn gmx bmn bmx hmn hmx zmn zmx w s : general_coordinates xs ys ->
  evenly_fed xs ys (Z.max pmn 1 + 2 * Z.max smn 1 + Z.max gmn 1 * (2 * (Z.max bmn 3 + Z.max hmn 0 * Z.max zmn 3))) ->
  fits ctx E (Z.max bmn 3 + Z.max zmn 3 * Z.max hmn 0) (match bmx, hmx, zmx with Some m, Some c, Some s => Some (m + s * c) | _, _, _ => None end) ->
  (forall size, 3 <= size -> (forall m, smx = Some m -> size <= m) -> fits ctx E size (Some size)) ->
  mixes ctx xs ys pmn pmx smn smx gmn gmx bmn bmx hmn hmx zmn zmx = Ok (w, s) -> only E s.
Proof.
  intros G Hev Hf1 Hf2 H. unfold mixes in H. validate; try discriminate. cbv zeta in H.
  match type of H with rbind ?c _ = _ => destruct c as [u|e] eqn:Ec; [|discriminate] end. cbn [rbind] in H. injection H as _ <-.
  change MIN_CONTOUR_SIZE with 3 in *.
  assert (Fp : forall m, pmx = Some m -> Z.max pmn 0 <= m) by (apply clamped_range; assumption).
  assert (Fs : forall m, smx = Some m -> Z.max smn 0 <= m) by (apply clamped_range; assumption).
  assert (Fg : forall m, gmx = Some m -> Z.max gmn 0 <= m) by (apply clamped_range; assumption).
  assert (K : forall i j k, Z.max pmn 0 <= i <= Z.max pmn 1 -> (forall m, pmx = Some m -> i <= m) -> Z.max smn 0 <= j <= Z.max smn 1 -> (forall m, smx = Some m -> j <= m) ->
    Z.max gmn 0 <= k <= Z.max gmn 1 -> (forall m, gmx = Some m -> k <= m) -> 1 <= i + j + k ->
    only E (to_mix_strategy ctx xs ys i pmx j smx k gmx (Z.max bmn 3) bmx (Z.max hmn 0) hmx (Z.max zmn 3) zmx)).
  { intros i j k I1 I2 J1 J2 K1 K2 Hs. unfold to_mix_strategy. change (or_else ys xs) with (ordinates xs ys). cbv zeta.
    destruct (next_prime_twice (Z.max bmn 3 + Z.max hmn 0 * Z.max zmn 3) ltac:(nia)) as (mpc & Hmpc & Hle). rewrite Hmpc.
    apply only_bind; [apply only_ret|]. intros q Eq. apply gen_lift in Eq. injection Eq as <-.
    assert (H5 : 3 <= mpc) by (pose proof (to_next_prime_ge _ _ Hmpc); nia).
    assert (L : forall a, only E (let! l := unique_scalars (GeneralApiProofs.along a xs (ordinates xs ys)) (i + 2 * j + k * mpc) None in
      coordinates_to_mix ctx xs (ordinates xs ys) i pmx j smx k gmx (Z.max bmn 3) bmx (Z.max hmn 0) hmx (Z.max zmn 3) zmx mpc a l)).
    { intros a. assert (Hk : k * mpc <= Z.max gmn 1 * (2 * (Z.max bmn 3 + Z.max hmn 0 * Z.max zmn 3))) by (apply Z.mul_le_mono_nonneg; lia).
      assert (X : harmless xs (i + 2 * j + k * mpc) /\ harmless (ordinates xs ys) (i + 2 * j + k * mpc)) by (refine (evenly_at _ _ _ _ _ Hev); lia). destruct X as (X1 & X2). apply only_bind.
      - apply only_unique_scalars; [nia|discriminate|destruct a; assumption].
      - intros l Hl. pose proof (evenly_along a xs ys _ l _ _ Hev Hl) as F. apply gen_unique_scalars in Hl. destruct Hl as (_ & _ & (Hl & _) & _).
        apply only_mix_along; try assumption; try lia; try (apply clamped_range; assumption). }
    apply only_alt; [apply (L AxisX)|apply (L AxisY)]. }
  assert (may : forall mx, may_have mx = true -> forall m, (forall m, mx = Some m -> Z.max m 0 = m) -> mx = Some m -> 1 <= m).
  { intros mx Hm m Hp ->. cbn in Hm. apply negb_true_iff, Z.eqb_neq in Hm. specialize (Hp m eq_refl). lia. }
  assert (Gp : may_have pmx = true -> forall m, pmx = Some m -> Z.max (Z.max pmn 0) 1 <= m).
  { intros M m Em. pose proof (may _ M m ltac:(intros m' E'; specialize (Fp m' E'); lia) Em). specialize (Fp m Em). lia. }
  assert (Gs : may_have smx = true -> forall m, smx = Some m -> Z.max (Z.max smn 0) 1 <= m).
  { intros M m Em. pose proof (may _ M m ltac:(intros m' E'; specialize (Fs m' E'); lia) Em). specialize (Fs m Em). lia. }
  assert (Gg : may_have gmx = true -> forall m, gmx = Some m -> Z.max (Z.max gmn 0) 1 <= m).
  { intros M m Em. pose proof (may _ M m ltac:(intros m' E'; specialize (Fg m' E'); lia) Em). specialize (Fg m Em). lia. }
  destruct (may_have pmx), (may_have smx), (may_have gmx); try discriminate; repeat apply only_alt; apply K; try assumption; try lia;
    try (apply Gp; reflexivity); try (apply Gs; reflexivity); try (apply Gg; reflexivity).
Qed.
End Api.
Section Bounded.
Context (ctx : context) (C : contracts ctx) (hull : forall l, is_hull l (ctx_hull ctx l)) (Ha : forall y x e, ctx_atan2 ctx y x <> Raise e).
Let anything := fun e => e = ZeroDivisionError \/ e = OutOfFuel.
Lemma general_contours_raise xs ys mn mx w s e : general_coordinates xs ys -> harmless_both xs ys (2 * Z.max mn 3) ->
  contours ctx xs ys mn mx = Ok (w, s) -> can_raise s e -> e = ZeroDivisionError \/ e = OutOfFuel.
Proof. intros G Hh H. eapply (contours_only ctx C Ha anything); [left; reflexivity|exact G|exact Hh|apply fits_any; right; reflexivity|exact H]. Qed.
Lemma general_concave_raise xs ys mn mx w s e : general_coordinates xs ys -> harmless_both xs ys (2 * Z.max mn 4) ->
  concave_contours ctx xs ys mn mx = Ok (w, s) -> can_raise s e -> e = ZeroDivisionError \/ e = OutOfFuel.
Proof. intros G Hh H. eapply (concave_only ctx C Ha anything); [left; reflexivity|exact G|exact Hh|apply fits_any; right; reflexivity|exact H]. Qed.
Lemma general_multisegments_raise xs ys mn mx w s e : general_coordinates xs ys -> harmless_both xs ys (2 * Z.max mn 3) ->
  multisegments ctx xs ys mn mx = Ok (w, s) -> can_raise s e -> e = ZeroDivisionError \/ e = OutOfFuel.
Proof. intros G Hh H. eapply (multisegments_only ctx C hull Ha anything); [left; reflexivity|exact G|exact Hh|apply fits_any; right; reflexivity|exact H]. Qed.
Lemma general_mixes_raise xs ys pmn pmx smn smx gmn gmx bmn bmx hmn hmx zmn zmx w s e : general_coordinates xs ys ->
  evenly_fed xs ys (Z.max pmn 1 + 2 * Z.max smn 1 + Z.max gmn 1 * (2 * (Z.max bmn 3 + Z.max hmn 0 * Z.max zmn 3))) ->
  mixes ctx xs ys pmn pmx smn smx gmn gmx bmn bmx hmn hmx zmn zmx = Ok (w, s) -> can_raise s e -> e = ZeroDivisionError \/ e = OutOfFuel.
Proof.
  intros G Hh H. eapply (mixes_only ctx C hull Ha anything); [left; reflexivity|exact G|exact Hh|apply fits_any; right; reflexivity| |exact H].
  intros size _ _. apply fits_any. right. reflexivity.
Qed.
Let zero := fun e => e = ZeroDivisionError.
Lemma general_contours_bounded xs ys mn m w s e : general_coordinates xs ys -> harmless_both xs ys (2 * Z.max mn 3) ->
  (let n := Z.to_nat (Z.max m (2 * Z.max mn 3)) in n * n + 4 * n < Pos.to_nat (ctx_fuel ctx))%nat ->
  contours ctx xs ys mn (Some m) = Ok (w, s) -> can_raise s e -> e = ZeroDivisionError.
Proof. intros G Hh F H. eapply (contours_only ctx C Ha zero); [reflexivity|exact G|exact Hh|apply fits_bounded; [lia|exact F]|exact H]. Qed.
Lemma general_concave_bounded xs ys mn m w s e : general_coordinates xs ys -> harmless_both xs ys (2 * Z.max mn 4) ->
  (let n := Z.to_nat (Z.max m (2 * Z.max mn 4)) in n * n + 4 * n < Pos.to_nat (ctx_fuel ctx))%nat ->
  concave_contours ctx xs ys mn (Some m) = Ok (w, s) -> can_raise s e -> e = ZeroDivisionError.
Proof. intros G Hh F H. eapply (concave_only ctx C Ha zero); [reflexivity|exact G|exact Hh|apply fits_bounded; [lia|exact F]|exact H]. Qed.
Lemma general_multisegments_bounded xs ys mn m w s e : general_coordinates xs ys -> harmless_both xs ys (2 * Z.max mn 3) ->
  (let n := Z.to_nat (Z.max m (2 * Z.max mn 3)) in n * n + 4 * n < Pos.to_nat (ctx_fuel ctx))%nat ->
  multisegments ctx xs ys mn (Some m) = Ok (w, s) -> can_raise s e -> e = ZeroDivisionError.
Proof. intros G Hh F H. eapply (multisegments_only ctx C hull Ha zero); [reflexivity|exact G|exact Hh|apply fits_bounded; [lia|exact F]|exact H]. Qed.
Lemma general_mixes_bounded xs ys pmn pmx smn m gmn gmx bmn b hmn h zmn z w s e : general_coordinates xs ys ->
  evenly_fed xs ys (Z.max pmn 1 + 2 * Z.max smn 1 + Z.max gmn 1 * (2 * (Z.max bmn 3 + Z.max hmn 0 * Z.max zmn 3))) ->
  (let n := Z.to_nat (Z.max (2 * m) (Z.max (b + z * h) (2 * (Z.max bmn 3 + Z.max zmn 3 * Z.max hmn 0)))) in n * n + 4 * n < Pos.to_nat (ctx_fuel ctx))%nat ->
  mixes ctx xs ys pmn pmx smn (Some m) gmn gmx bmn (Some b) hmn (Some h) zmn (Some z) = Ok (w, s) -> can_raise s e -> e = ZeroDivisionError.
Proof.
  intros G Hh F H. cbv zeta in F. eapply (mixes_only ctx C hull Ha zero); [reflexivity|exact G|exact Hh| | |exact H].
  - apply fits_bounded; [nia|]. eapply enough_mono; [|exact F]. apply to_nat_mono. lia.
  - intros size H3 Hm. specialize (Hm m eq_refl). apply fits_bounded; [exact H3|]. eapply enough_mono; [|exact F]. apply to_nat_mono. lia.
Qed.
End Bounded.
