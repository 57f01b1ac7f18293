(** Multicontours, polygons, multipolygons and mixes with inexact arithmetic.  The proofs are those of
    MultiProofs.v, SliceProofs.v, MultipolygonProofs.v and MixProofs.v. *)
From Coq Require Import Sorting.Sorted.
From Verif Require Import Base Prog Geometry Ctx QuadEdge Utils Contracts Spec Triangulation Factories Strategies MixSpec QcTac ProgProofs GeomProofs
  ListProofs CompressProofs SegmentProofs EdgeProofs HelperProofs ReferenceProofs QuadProofs TriProofs LoopProofs
  CarveProofs SeparationProofs PrimeProofs GridProofs SimpleProofs ConvexProofs MultiProofs SequenceProofs SliceProofs MultipolygonProofs MixProofs
  RoughArith RoughFactories RoughCarve RoughStrategies RoughContours.

Section Rough.
Context {ar : arith}.
(** ** [to_multicontour] *)
Lemma multicontour_loop_spec ctx sizes : forall choices prior points result res,
  (forall s, In s sizes -> (1 <= s)%Z) -> (forall k, prior = Some k -> StronglySorted (kle k) points) ->
  multicontour_loop ctx sizes choices prior points result = Ok res ->
  exists new, res = result ++ new /\ (forall vs, In vs new -> incl vs points /\ 3 <= length vs) /\ ForallOrdPairs parted new.
Proof.
  induction sizes as [|size sizes IH]; intros choices prior points result res Hs Hp H.
  { cbn in H. injection H as <-. exists []. rewrite app_nil_r. split; [reflexivity|]. split; [intros vs []|constructor]. }
  destruct choices as [|k choices]; cbn [multicontour_loop] in H.
  { injection H as <-. exists []. rewrite app_nil_r. split; [reflexivity|]. split; [intros vs []|constructor]. }
  destruct (resorted prior k points Hp) as (S1 & I1 & _).
  set (points' := if (_ : bool) then points else sort_points k points) in *. clearbody points'.
  apply rbind_ok in H. destruct H as (vs & Hv & H).
  destruct (MIN_CONTOUR_SIZE <=? lenZ vs)%Z eqn:E.
  - apply rbind_ok in H. destruct H as (touch & _ & H).
    apply IH in H; [|intros s Hin; apply Hs; right; exact Hin|].
    + destruct H as (new & -> & Hn & Hf). exists (vs :: new). rewrite <- app_assoc. split; [reflexivity|].
      assert (Hvs : incl vs (py_take points' size)) by (intros p Hin; eapply to_vertex_sequence_in; eassumption).
      split.
      * intros ws [<- |Hw].
        -- split; [intros p Hin; apply I1; eapply py_take_in, Hvs, Hin|]. apply Z.leb_le in E. change MIN_CONTOUR_SIZE with 3%Z in E. unfold lenZ in E. lia.
        -- destruct (Hn ws Hw) as (Hi & Hl). split; [|exact Hl]. intros p Hin. apply I1. eapply py_drop_in, Hi, Hin.
      * constructor; [|exact Hf]. apply Forall_forall. intros ws Hw.
        eapply parted_incl; [apply (cut_parted k points' size (b2z touch) S1)|exact Hvs|apply Hn, Hw];
          [apply Hs; left; reflexivity|apply b2z_range].
    + intros k' Ek. injection Ek as <-. unfold py_drop. apply skipn_sorted, S1.
  - apply IH in H; [|intros s Hin; apply Hs; right; exact Hin|].
    + destruct H as (new & -> & Hn & Hf). exists new. split; [reflexivity|]. split; [|exact Hf].
      intros ws Hw. destruct (Hn ws Hw) as (Hi & Hl). split; [|exact Hl]. intros p Hin. apply I1, Hi, Hin.
    + intros k' Ek. injection Ek as <-. exact S1.
Qed.
Lemma to_multicontour_spec ctx points sizes choices mc : (forall s, In s sizes -> (1 <= s)%Z) ->
  to_multicontour ctx points sizes choices = Ok mc ->
  (forall vs, In vs mc -> incl vs points /\ 3 <= length vs) /\ ForallOrdPairs parted mc.
Proof.
  intros Hs H. unfold to_multicontour in H. apply multicontour_loop_spec in H; [|exact Hs|discriminate].
  destruct H as (new & -> & K). exact K.
Qed.
Lemma to_hole_sizes_ge points n mx m r : generates (to_hole_sizes points n mx m) r -> forall x, In x r -> (m <= x)%Z.
Proof.
  intros H x Hx. unfold to_hole_sizes in H. destruct (_ <=? _)%Z.
  - apply gen_bind in H. destruct H as (c & _ & H). eapply hole_sizes_ge; eassumption.
  - apply gen_ret in H. subst r. destruct Hx.
Qed.
Lemma multicontour_strategy_spec ctx xs ys mn mx cmn cmx mc : (1 <= cmn)%Z ->
  generates (to_multicontour_strategy ctx xs ys mn mx cmn cmx) mc ->
  size_ok (lenZ mc) mn mx /\ (forall vs : contour, In vs mc -> size_ok (lenZ vs) cmn cmx) /\
  (forall vs p, In vs mc -> In p vs -> drawable_point xs ys p) /\ ForallOrdPairs parted mc.
Proof.
  intros Hc H. unfold to_multicontour_strategy in H. apply gen_pfilter in H. destruct H as (H & Hv).
  apply multicontour_sizes_valid in Hv. destruct Hv as (V1 & V2). split; [exact V1|]. split; [exact V2|].
  apply gen_bind in H. destruct H as (points & Hp & H). apply gen_bind in H. destruct H as (size & _ & H).
  apply gen_bind in H. destruct H as (sizes & Hs & H). apply gen_bind in H. destruct H as (choices & _ & H).
  apply gen_lift in H. apply to_multicontour_spec in H.
  - destruct H as (H1 & H2). split; [|exact H2]. intros vs p Hin Hpi. destruct (H1 vs Hin) as (Hi & _).
    apply Hi in Hpi. apply grid_sound in Hp. apply Hp, Hpi.
  - intros s Hin. pose proof (to_sizes_ge _ _ _ _ Hs s Hin). lia.
Qed.
Lemma hole_loop_spec ctx sizes : forall choices prior inner hs bp hs' bp',
  (forall s, In s sizes -> (1 <= s)%Z) -> (forall k, prior = Some k -> StronglySorted (kle k) inner) ->
  hole_loop ctx sizes choices prior inner hs bp = Ok (hs', bp') ->
  exists new, hs' = hs ++ new /\ (forall vs, In vs new -> incl vs inner /\ 3 <= length vs) /\ ForallOrdPairs parted new
    /\ (forall vs p, In vs new -> In p vs -> In p bp') /\ incl bp bp' /\ (forall p, In p bp' -> In p bp \/ In p inner).
Proof.
  induction sizes as [|size sizes IH]; intros choices prior inner hs bp hs' bp' Hs Hp H.
  { cbn in H. injection H as <- <-. exists []. rewrite app_nil_r. split; [reflexivity|]. split; [intros vs []|].
    split; [constructor|]. split; [intros vs p []|]. split; [apply incl_refl|auto]. }
  destruct choices as [|k choices]; cbn [hole_loop] in H.
  { injection H as <- <-. exists []. rewrite app_nil_r. split; [reflexivity|]. split; [intros vs []|].
    split; [constructor|]. split; [intros vs p []|]. split; [apply incl_refl|auto]. }
  destruct (resorted prior k inner Hp) as (S1 & I1 & _).
  set (inner' := if (_ : bool) then inner else sort_points k inner) in *. clearbody inner'.
  apply rbind_ok in H. destruct H as (vs & Hv & H).
  destruct (MIN_CONTOUR_SIZE <=? lenZ vs)%Z eqn:E.
  - apply rbind_ok in H. destruct H as (u & _ & H). apply rbind_ok in H. destruct H as (touch & _ & H).
    apply IH in H; [|intros s Hin; apply Hs; right; exact Hin|].
    + destruct H as (new & -> & Hn & Hf & Hb & Hb1 & Hb2). exists (reverse_vertices vs :: new). rewrite <- app_assoc. split; [reflexivity|].
      assert (Hvs : incl (reverse_vertices vs) (py_take inner' size)).
      { intros p Hin. apply (proj1 (reverse_in _ _)) in Hin. eapply to_vertex_sequence_in; eassumption. }
      assert (H1 : (1 <= size)%Z) by (apply Hs; left; reflexivity).
      assert (L3 : 3 <= length vs).
      { apply Z.leb_le in E. change MIN_CONTOUR_SIZE with 3%Z in E. unfold lenZ in E. lia. }
      split; [|split; [|split; [|split]]].
      * intros ws [<- |Hw].
        -- split; [intros p Hin; apply I1; eapply py_take_in, Hvs, Hin|]. rewrite reverse_length. exact L3.
        -- destruct (Hn ws Hw) as (Hi & Hl). split; [|exact Hl]. intros p Hin. apply I1. eapply py_drop_in, Hi, Hin.
      * constructor; [|exact Hf]. apply Forall_forall. intros ws Hw.
        set (hp := py_take inner' size) in *.
        assert (Eh : hp = py_take inner' (lenZ hp)).
        { unfold hp. rewrite py_take_length by lia. destruct (Z_le_gt_dec size (lenZ inner')).
          - rewrite Z.min_l by lia. reflexivity.
          - rewrite Z.min_r by lia. rewrite !py_take_all by lia. reflexivity. }
        assert (Hne : (1 <= lenZ hp)%Z).
        { destruct vs as [|v vs]; [cbn in L3; lia|]. assert (Hin : In v hp) by (apply Hvs; left; reflexivity).
          destruct hp; [destruct Hin|]. unfold lenZ. cbn. lia. }
        eapply parted_incl; [apply (cut_parted k inner' (lenZ hp) (b2z touch) S1 Hne (b2z_range _))| |apply Hn, Hw].
        rewrite <- Eh. exact Hvs.
      * intros ws p [<- |Hw] Hin; [|eapply Hb; eassumption]. apply Hb1. apply add_points_in. left. apply Hvs, Hin.
      * intros p Hin. apply Hb1. apply add_points_in. right. exact Hin.
      * intros p Hin. apply Hb2 in Hin. destruct Hin as [Hin|Hin].
        -- apply (proj1 (add_points_in _ _ _)) in Hin. destruct Hin as [Hin|Hin]; [right; apply I1; eapply py_take_in, Hin|left; exact Hin].
        -- right. apply I1. eapply py_drop_in, Hin.
    + intros k' Ek. injection Ek as <-. unfold py_drop. apply skipn_sorted, S1.
  - apply IH in H; [|intros s Hin; apply Hs; right; exact Hin|].
    + destruct H as (new & -> & Hn & Hf & Hb & Hb1 & Hb2). exists new. split; [reflexivity|]. split; [|split; [exact Hf|split; [exact Hb|split; [exact Hb1|]]]].
      * intros ws Hw. destruct (Hn ws Hw) as (Hi & Hl). split; [|exact Hl]. intros p Hin. apply I1, Hi, Hin.
      * intros p Hin. apply Hb2 in Hin. rewrite I1 in Hin. exact Hin.
    + intros k' Ek. injection Ek as <-. exact S1.
Qed.
(** ** [to_polygon] *)
Lemma to_polygon_spec ctx points size sizes choices p : (forall s, In s sizes -> (1 <= s)%Z) ->
  to_polygon ctx points size sizes choices = Ok p ->
  incl (border p) points /\ 3 <= length (border p) /\
  (forall vs, In vs (holes p) -> incl vs points /\ 3 <= length vs) /\ ForallOrdPairs parted (holes p).
Proof.
  intros Hs H. unfold to_polygon in H. apply rbind_ok in H. destruct H as ((t & h) & H1 & H).
  apply rbind_ok in H. destruct H as (es & H2 & H). apply rbind_ok in H. destruct H as ((hs & bp) & H3 & H).
  apply rbind_ok in H. destruct H as (cands & H4 & H). apply rbind_ok in H. destruct H as (st & H5 & H).
  apply rbind_ok in H. destruct H as (bv & H6 & H). apply rbind_ok in H. destruct H as (u & H7 & H). injection H as <-.
  apply hole_loop_spec in H3; [|exact Hs|discriminate]. destruct H3 as (new & -> & Hn & Hf & _). cbn [app border holes].
  destruct (delaunay_winv ctx points t h (fun p => In p points) (fun _ H => H) H1) as (W & L).
  pose proof (boundary_live _ _ _ _ _ _ W L H2) as Le.
  apply (while_ok (pinv (fun p => In p points) (h_count h)) (pinv (fun p => In p points) (h_count h))) in H5.
  - split; [|split; [|split; [|exact Hf]]].
    + intros q Hq. eapply (border_vertices_P (fun p => In p points)); [apply H5|apply H5|exact H6|exact Hq].
    + unfold assert_ in H7. change MIN_CONTOUR_SIZE with 3%Z in H7. destruct (Z.leb_spec 3 (lenZ bv)); [|discriminate]. unfold lenZ in *. lia.
    + intros vs Hv. destruct (Hn vs Hv) as (Hi & Hl). split; [|exact Hl]. intros q Hq. apply Hi in Hq. apply filter_In in Hq.
      apply (points_set_in points q), Hq.
  - intros s Hi. pose proof (border_step_inv _ _ (ctx_fuel ctx) ctx (flat_map contour_segments (@nil contour ++ new)) size s Hi) as K.
    destruct (border_step _ _ _ _ s) as [[?|?]|?]; auto.
  - split; cbn [p_heap p_tri p_cands p_neighbours]; [exact W|exact L| |].
    + eapply kset_of_list_live; [|constructor|exact H4]. apply Forall_filter, Le.
    + apply Forall_forall. intros kv Hk. apply in_map_iff in Hk. destruct Hk as (e & <- & He). cbn [snd].
      eapply neighbours_live; [exact W|]. unfold edges_live in Le. rewrite Forall_forall in Le. apply Le, He.
Qed.
Lemma polygon_strategy_spec ctx xs ys mn mx hmn hmx smn smx p : (1 <= smn)%Z ->
  generates (to_polygon_strategy ctx xs ys mn mx hmn hmx smn smx) p ->
  size_ok (lenZ (border p)) mn mx /\ size_ok (lenZ (holes p)) hmn hmx /\
  (forall vs : contour, In vs (holes p) -> size_ok (lenZ vs) smn smx) /\
  (forall q, In q (border p) -> drawable_point xs ys q) /\
  (forall vs q, In vs (holes p) -> In q vs -> drawable_point xs ys q) /\
  ForallOrdPairs parted (holes p).
Proof.
  intros Hc H. unfold to_polygon_strategy in H. apply gen_pfilter in H. destruct H as (H & Hv).
  unfold polygon_has_valid_sizes in Hv. apply andb_true_iff in Hv. destruct Hv as (V0 & Hv). apply size_valid in V0.
  apply multicontour_sizes_valid in Hv. destruct Hv as (V1 & V2). split; [exact V0|]. split; [exact V1|]. split; [exact V2|].
  apply gen_bind in H. destruct H as (points & Hp & H). apply gen_pfilter in Hp. destruct Hp as (Hp & _). apply grid_sound in Hp.
  apply gen_bind in H. destruct H as (size & _ & H).
  apply gen_bind in H. destruct H as (sizes & Hs & H). apply gen_bind in H. destruct H as (choices & _ & H).
  apply gen_lift in H. apply to_polygon_spec in H.
  - destruct H as (H1 & _ & H2 & H3). split; [intros q Hq; apply Hp, H1, Hq|]. split; [|exact H3].
    intros vs q Hin Hq. apply Hp. apply (H2 vs Hin), Hq.
  - intros s Hin. pose proof (to_hole_sizes_ge _ _ _ _ _ Hs s Hin). lia.
Qed.
(** What is drawn for one polygon of a multipolygon or a mix. *)
Lemma slice_polygon_spec ctx a xs ys mn mx hmn hmx smn smx l p : (1 <= smn)%Z ->
  (forall x, In x l -> drawable (scalars_of a xs ys) x) ->
  generates (slice_polygon ctx a xs ys mn mx hmn hmx smn smx l) p ->
  polygon_sizes p mn mx hmn hmx smn smx /\
  (forall q, In q (vertices p) -> In (coordinate_along a q) l /\ drawable_point xs (Some ys) q).
Proof.
  intros Hc Hl H. unfold slice_polygon in H. destruct (sliced a l xs ys) as (sx & sy) eqn:E.
  apply polygon_strategy_spec in H; [|exact Hc]. destruct H as (H1 & H2 & H3 & H4 & H5 & _).
  split; [split; [exact H1|split; [exact H2|exact H3]]|].
  intros q Hq. apply sliced_drawable; [exact Hl|]. rewrite E. cbn [fst snd]. unfold vertices in Hq. apply in_app_or in Hq.
  destruct Hq as [Hq|Hq]; [apply H4, Hq|]. apply in_concat in Hq. destruct Hq as (vs & Hv & Hq). eapply H5; eassumption.
Qed.
Section Loop.
Context (ctx : context) (a : axis) (xs ys : scalars) (mn : Z) (mx : option Z) (hmn : Z) (hmx : option Z) (smn : Z)
    (smx : option Z) (mpc : Z) (Hmpc : (5 <= mpc)%Z) (Hsmn : (1 <= smn)%Z).
Lemma multipolygon_loop_spec left : forall coordinates start ps, (0 <= start)%Z ->
    (forall x, In x coordinates -> drawable (scalars_of a xs ys) x) -> StronglySorted Qclt coordinates ->
    generates (multipolygon_loop ctx a xs ys mn mx hmn hmx smn smx mpc left coordinates start) ps ->
    length ps = Nat.max 1 left /\
    (forall p, In p ps -> polygon_sizes p mn mx hmn hmx smn smx /\
       forall q, In q (vertices p) -> In (coordinate_along a q) (py_drop coordinates start) /\ drawable_point xs (Some ys) q) /\
    ForallOrdPairs (polygon_before a) ps.
  Proof.
    induction left as [|left IH]; intros l start ps H0 Hd Hs H.
    - cbn [multipolygon_loop] in H. apply gen_bind in H. destruct H as (p & Hp & H). apply gen_ret in H. subst ps.
      apply slice_polygon_spec in Hp; [|exact Hsmn|intros x Hx; eapply Hd, py_drop_in, Hx].
      split; [reflexivity|]. split; [intros q [<- |[]]; exact Hp|]. repeat constructor.
    - destruct left as [|left].
      { cbn [multipolygon_loop] in H. apply gen_bind in H. destruct H as (p & Hp & H). apply gen_ret in H. subst ps.
        apply slice_polygon_spec in Hp; [|exact Hsmn|intros x Hx; eapply Hd, py_drop_in, Hx].
        split; [reflexivity|]. split; [intros q [<- |[]]; exact Hp|]. repeat constructor. }
      remember (S left) as left1 eqn:El. unfold multipolygon_loop in H; fold multipolygon_loop in H. subst left1.
      apply gen_bind in H. destruct H as (count & Hc & H). apply gen_integers in Hc. destruct Hc as (Hc & _).
      apply gen_bind in H. destruct H as (prior & Hp & H). apply gen_lift in Hp.
      destruct (to_prior_prime_spec count ltac:(lia)) as (prior' & Ep & _ & Hr & _). rewrite Ep in Hp. injection Hp as ->.
      apply gen_bind in H. destruct H as (p & Hp & H). apply gen_bind in H. destruct H as (blocked & Hb & H). apply gen_lift in Hb.
      apply gen_bind in H. destruct H as (rest & Hrest & H). apply gen_ret in H. subst ps.
      assert (Hsl : incl (py_slice l start (start + prior)) (py_take (py_drop l start) prior)) by (apply slice_take; lia).
      apply slice_polygon_spec in Hp; [|exact Hsmn|].
      2:{ intros x Hx. apply Hsl in Hx. eapply Hd, py_drop_in, py_take_in, Hx. }
      destruct Hp as (Hz & Hv).
      assert (Ht : (0 <= b2z (negb blocked) <= 1)%Z) by apply b2z_range.
      apply IH in Hrest; [|lia|exact Hd|exact Hs]. destruct Hrest as (L & Hin & Hf).
      rewrite drop_drop in Hin by lia.
      split; [cbn [length]; rewrite L; lia|]. split.
      + intros q [<- |Hq].
        * split; [exact Hz|]. intros v Hvv. destruct (Hv v Hvv) as (K1 & K2). split; [|exact K2]. apply Hsl in K1. eapply py_take_in, K1.
        * destruct (Hin q Hq) as (K1 & K2). split; [exact K1|]. intros v Hvv. destruct (K2 v Hvv) as (K3 & K4). split; [|exact K4].
          eapply py_drop_in, K3.
      + constructor; [|exact Hf]. apply Forall_forall. intros q Hq. destruct (Hin q Hq) as (_ & K2).
        assert (Hsd : StronglySorted Qclt (py_drop l start)) by (apply skipn_sorted, Hs).
        assert (exists b, forall x, In x (py_drop l start) -> (b <= x)%Qc) as (b & Hlow).
        { destruct (py_drop l start) as [|x l']; [exists (Q2Qc 0); intros ? []|]. exists x. inversion Hsd as [|? ? _ Hf']; subst.
          rewrite Forall_forall in Hf'. intros y [<- |Hy]; [apply Qcle_refl|apply Qclt_le_weak, Hf', Hy]. }
        destruct (cut_line_py (py_drop l start) b count (b2z (negb blocked)) Hsd Hlow ltac:(lia) Ht) as (c & _ & C1 & C2 & C3).
        assert (Hpc : forall v, In v (vertices p) -> (coordinate_along a v <= c)%Qc).
        { intros v Hvv. apply (C1 prior); [lia|]. apply Hsl, Hv, Hvv. }
        exists c. split; [exact Hpc|]. split; [intros v Hvv; apply C2, K2, Hvv|].
        destruct blocked.
        * left. intros v Hvv. apply C3; [reflexivity|]. apply K2, Hvv.
        * right. intros s. apply blocks_touch_false; [exact Hb|]. intros t Hts. apply border_edge_vertices in Hts.
          split; apply Hpc, Hts.
  Qed.
End Loop.
Lemma multipolygon_strategy_spec ctx xs ys mn mx bmn bmx hmn hmx smn smx ps : (1 <= mn)%Z -> (1 <= bmn)%Z -> (1 <= smn)%Z ->
  (hmn = 0%Z -> forall m, hmx = Some m -> (0 <= m)%Z) ->
  generates (to_multipolygon_strategy ctx xs ys mn mx bmn bmx hmn hmx smn smx) ps ->
  size_ok (lenZ ps) mn mx /\
  (forall p, In p ps -> polygon_sizes p bmn bmx hmn hmx smn smx /\ forall q, In q (vertices p) -> drawable_point xs ys q) /\
  ForallOrdPairs apart_from ps.
Proof.
  intros Hmn Hb Hs Hh H. unfold to_multipolygon_strategy in H.
  apply gen_bind in H. destruct H as (mpc & Hm & H). apply gen_lift in Hm. apply to_next_prime_ge in Hm. destruct Hm as (_ & _ & Hm & _).
  change (or_else ys xs) with (ordinates xs ys) in H.
  set (mt := (mn * mpc)%Z) in *. clearbody mt.
  match type of H with context [unique_scalars _ mt ?m] => set (mxt := m) in *; clearbody mxt end. cbv zeta in H.
  assert (Along : forall a, generates (let! l := unique_scalars (scalars_of a xs (ordinates xs ys)) mt mxt in
     coordinates_to_polygons ctx a xs (ordinates xs ys) bmn bmx hmn hmx smn smx mpc mn mx l) ps ->
     size_ok (lenZ ps) mn mx /\
     (forall p, In p ps -> polygon_sizes p bmn bmx hmn hmx smn smx /\ forall q, In q (vertices p) -> drawable_point xs ys q) /\
     ForallOrdPairs apart_from ps).
  { clear H. intros a H. apply gen_bind in H. destruct H as (l & Hl & H). apply gen_unique_scalars in Hl. destruct Hl as (Nd & _ & _ & Hd).
    unfold coordinates_to_polygons in H. apply gen_bind in H. destruct H as (size & Hz & H). apply gen_integers in Hz. destruct Hz as (Z1 & Z2).
    apply multipolygon_loop_spec in H; [|exact Hm|exact Hs|lia| |apply isort_strict, Nd].
    - destruct H as (L & Hin & Hf). split; [|split].
      + unfold lenZ. rewrite L. split; [lia|]. intros m ->. cbn in Z2. lia.
      + intros p Hp. destruct (Hin p Hp) as (K1 & K2). split; [exact K1|]. intros q Hq. apply (K2 q Hq).
      + eapply ForallOrdPairs_impl; [|exact Hf]. intros p q. apply polygon_before_apart.
    - intros x Hx. apply Hd. eapply Permutation_in; [symmetry; apply isort_perm|exact Hx]. }
  assert (Both : generates
        (alt
           (let! l := unique_scalars xs mt mxt in
            coordinates_to_polygons ctx AxisX xs (ordinates xs ys) bmn bmx hmn hmx smn smx mpc mn mx l)
           (let! l := unique_scalars (ordinates xs ys) mt mxt in
            coordinates_to_polygons ctx AxisY xs (ordinates xs ys) bmn bmx hmn hmx smn smx mpc mn mx l)) ps ->
     size_ok (lenZ ps) mn mx /\
     (forall p, In p ps -> polygon_sizes p bmn bmx hmn hmx smn smx /\ forall q, In q (vertices p) -> drawable_point xs ys q) /\
     ForallOrdPairs apart_from ps).
  { intros K. apply gen_alt in K. destruct K as [K|K]; [apply (Along AxisX), K|apply (Along AxisY), K]. }
  destruct (Z.eqb_spec hmn 0) as [E|E]; [|apply Both, H].
  apply gen_alt in H. destruct H as [H|H]; [|apply Both, H]. clear Along Both.
  apply gen_pmap in H. destruct H as (mc & H & ->).
  apply multicontour_strategy_spec in H; [|exact Hb]. destruct H as (H1 & H2 & H3 & H4). split; [|split].
  - unfold lenZ in *. rewrite map_length. exact H1.
  - intros p Hp. apply in_map_iff in Hp. destruct Hp as (vs & <- & Hvs). split.
    + split; [apply H2, Hvs|]. cbn. split; [|intros ? []]. split; [lia|]. intros m Em. apply (Hh E m Em).
    + unfold vertices. cbn [border holes concat]. rewrite app_nil_r. intros q Hq. apply (H3 vs q Hvs Hq).
  - clear H1 H2 H3. induction H4 as [|vs mc Hf Hr IH]; constructor; [|exact IH].
    apply Forall_forall. intros r Hr'. apply in_map_iff in Hr'. destruct Hr' as (ws & <- & Hw). rewrite Forall_forall in Hf. specialize (Hf ws Hw). rename Hf into Hp. unfold apart_from, vertices. cbn [border holes concat].
    rewrite !app_nil_r. split; [apply parted_split, Hp|]. intros us [<- |[]]. apply parted_apart, Hp.
Qed.
Lemma point_counts_spec pmn pmx smn smx qmn qmx mpc total pc sc qc : (5 <= mpc)%Z ->
  (0 <= pmn)%Z -> (forall m, pmx = Some m -> (pmn <= m)%Z) ->
  generates (to_point_counts pmn pmx smn smx qmn qmx mpc total) (pc, sc, qc) ->
  exists sizes, sc = map (Z.mul 2) sizes /\
    (forall x, In x pc -> (1 <= x)%Z) /\ (forall x, In x sizes -> (1 <= x)%Z) /\ (forall x, In x qc -> (5 <= x)%Z) /\
    size_ok (zsum pc) pmn pmx /\ size_ok (zsum sizes) smn smx /\ (0 <= qmn -> size_ok (lenZ qc) qmn qmx)%Z.
Proof.
  intros Hmpc Hp0 Hp H. unfold to_point_counts in H.
  apply gen_bind in H. destruct H as (n & Hn & H). apply gen_integers in Hn. destruct Hn as (N1 & N2).
  apply gen_bind in H. destruct H as (mpp & _ & H). apply gen_bind in H. destruct H as (qc' & Hq & H).
  apply gen_bind in H. destruct H as (half & Hh & H). apply gen_integers in Hh. destruct Hh as (Hh1 & Hh2).
  apply gen_bind in H. destruct H as (pc' & Hpc & H). apply partition_spec in Hpc. destruct Hpc as (P1 & P2).
  apply gen_bind in H. destruct H as (sizes & Hs & H). apply partition_spec in Hs. destruct Hs as (S1 & S2).
  apply gen_ret in H. injection H as -> -> ->. exists sizes. split; [reflexivity|]. split; [exact P1|]. split; [exact S1|].
  fold (zsum qc') in *. set (tp := zsum qc') in *.
  assert (Hhalf : (smn + half = zsum sizes)%Z).
  { rewrite S2. replace (2 * smn + 2 * half)%Z with ((smn + half) * 2)%Z by lia. rewrite Z.div_mul; lia. }
  split; [|split; [|split]].
  - destruct (Z.eqb_spec n 0); [apply gen_ret in Hq; subst qc'; intros x []|].
    apply gen_draw_n in Hq. destruct Hq as (_ & Hq). intros x Hx. apply Hq in Hx. apply gen_integers in Hx. destruct Hx. lia.
  - rewrite P2. assert (K : (2 * half <= total - tp - pmn - 2 * smn)%Z).
    { destruct smx as [m|]; cbv beta iota in Hh2.
      - pose proof (Z.mul_div_le (Z.min (total - tp - pmn) (2 * m) - 2 * smn) 2 ltac:(lia)). lia.
      - pose proof (Z.mul_div_le (total - tp - pmn - 2 * smn) 2 ltac:(lia)). lia. }
    unfold min_opt. destruct pmx as [m|]; (split; [|intros m' Em; try discriminate]).
    + specialize (Hp m eq_refl). lia.
    + injection Em as <-. lia.
    + lia.
  - rewrite <- Hhalf. split; [lia|]. intros m ->. cbv beta iota in Hh2.
    pose proof (Z.mul_div_le (Z.min (total - tp - pmn) (2 * m) - 2 * smn) 2 ltac:(lia)). lia.
  - intros Hq0. destruct (Z.eqb_spec n 0) as [-> |Hn].
    + apply gen_ret in Hq. subst qc'. unfold lenZ. cbn. split; [lia|]. intros m ->. cbn [min_opt] in N2. lia.
    + apply gen_draw_n in Hq. destruct Hq as (L & _). unfold lenZ. rewrite L. split; [lia|]. intros m ->. cbn [min_opt] in N2. lia.
Qed.
Section Drawers.
Context (ctx : context) (a : axis) (xs ys : scalars) (mn : Z) (mx : option Z) (hmn : Z) (hmx : option Z) (smn : Z)
    (smx : option Z) (Hsmn : (1 <= smn)%Z) (Hh : forall l, incl (ctx_hull ctx l) l).
Definition range_point (p : point) : Prop := in_drawable_range xs (px p) /\ in_drawable_range ys (py p).
Definition segment_draw (g : list segment) : Prop :=
    g = [] \/ exists a l count, (2 <= count)%Z /\ (forall x, In x l -> drawable (scalars_of a xs ys) x) /\
      generates (draw_segments ctx xs ys a l count) g.
Definition drawn (d : drawer) (count : Z) (it : item) : Prop :=
    match d, it with
    | DrawPoints, Points l => NoDup l /\ lenZ l = count /\ (forall p, In p l -> drawable_point xs (Some ys) p)
    | DrawSegments, Segments l => lenZ l = (count / 2)%Z /\ segment_draw l /\
        (forall s, In s l -> range_point (seg_start s) /\ range_point (seg_end s))
    | DrawPolygon, Shape p => polygon_sizes p mn mx hmn hmx smn smx /\ (forall q, In q (vertices p) -> drawable_point xs (Some ys) q)
    | _, _ => False
    end.
Definition count_ok (d : drawer) (count : Z) : Prop :=
    match d with DrawPoints => 1 <= count | DrawSegments => 2 <= count | DrawPolygon => 5 <= count end%Z.
Definition spans (l : list Qc) (it : item) : Prop :=
    forall q, In q (item_points it) -> exists lo hi, In lo l /\ In hi l /\ (lo <= coordinate_along a q)%Qc /\ (coordinate_along a q <= hi)%Qc.
Lemma drawable_range s q : drawable s q -> in_drawable_range s q.
  Proof. intros H. exists q, q. repeat split; try assumption; apply Qcle_refl. Qed.
Lemma sliced_range l p : (forall x, In x l -> drawable (scalars_of a xs ys) x) ->
    in_drawable_range (fst (sliced a l xs ys)) (px p) -> in_drawable_range (snd (sliced a l xs ys)) (py p) ->
    (exists lo hi, In lo l /\ In hi l /\ (lo <= coordinate_along a p)%Qc /\ (coordinate_along a p <= hi)%Qc) /\ range_point p.
  Proof.
    intros Hl Hx Hy. unfold range_point. destruct a; cbn [sliced fst snd coordinate_along scalars_of] in *.
    - destruct Hx as (lo & hi & H1 & H2 & H3 & H4). apply (proj1 (drawable_sampled _ _)) in H1. apply (proj1 (drawable_sampled _ _)) in H2.
      split; [exists lo, hi; auto|]. split; [exists lo, hi; auto|exact Hy].
    - destruct Hy as (lo & hi & H1 & H2 & H3 & H4). apply (proj1 (drawable_sampled _ _)) in H1. apply (proj1 (drawable_sampled _ _)) in H2.
      split; [exists lo, hi; auto|]. split; [exact Hx|exists lo, hi; auto].
  Qed.
Lemma draw_points_spec l count ps : (forall x, In x l -> drawable (scalars_of a xs ys) x) ->
    generates (draw_points xs ys a l count) ps ->
    drawn DrawPoints count (Points ps) /\ spans (py_take l count) (Points ps).
  Proof.
    intros Hd H. unfold draw_points in H. destruct (sliced a (py_take l count) xs ys) as (sx & sy) eqn:E.
    unfold to_unique_point_sequence_strategy in H. apply (gen_unique_lists _ point_eqb_eq) in H. destruct H as (Nd & _ & (H1 & H2) & Hp).
    assert (K : forall p, In p ps -> In (coordinate_along a p) (py_take l count) /\ drawable_point xs (Some ys) p).
    { intros p Hin. apply sliced_drawable; [intros x Hx; eapply Hd, py_take_in, Hx|]. rewrite E. cbn [fst snd].
      apply Hp in Hin. apply gen_point in Hin. exact Hin. }
    split; [split; [exact Nd|]; split; [specialize (H2 count eq_refl); lia|intros p Hin; apply K, Hin]|].
    intros q Hq. destruct (K q Hq) as (K1 & _). exists (coordinate_along a q), (coordinate_along a q).
    repeat split; try assumption; apply Qcle_refl.
  Qed.
Lemma draw_segments_spec l count ss : (2 <= count)%Z -> (forall x, In x l -> drawable (scalars_of a xs ys) x) ->
    generates (draw_segments ctx xs ys a l count) ss ->
    drawn DrawSegments count (Segments ss) /\ spans (py_take l count) (Segments ss).
  Proof.
    intros Hc Hd H. assert (Src : segment_draw ss) by (right; exists a, l, count; auto).
    unfold draw_segments in H. destruct (sliced a (py_take l count) xs ys) as (sx & sy) eqn:E.
    apply segment_sequence_spec in H; [|exact Hh|apply Z.div_pos; lia|intros m Em; injection Em as <-; lia].
    destruct H as ((H1 & H2) & H3).
    assert (K : forall s, In s ss ->
      ((exists lo hi, In lo (py_take l count) /\ In hi (py_take l count) /\ (lo <= coordinate_along a (seg_start s))%Qc /\ (coordinate_along a (seg_start s) <= hi)%Qc) /\ range_point (seg_start s)) /\
      ((exists lo hi, In lo (py_take l count) /\ In hi (py_take l count) /\ (lo <= coordinate_along a (seg_end s))%Qc /\ (coordinate_along a (seg_end s) <= hi)%Qc) /\ range_point (seg_end s))).
    { intros s Hs. destruct (H3 s Hs) as (K1 & K2 & K3 & K4). cbn [ordinates] in K3, K4.
      split; (apply sliced_range; [intros x Hx; eapply Hd, py_take_in, Hx|rewrite E; assumption|rewrite E; assumption]). }
    split; [split; [specialize (H2 _ eq_refl); lia|]; split|].
    - exact Src.
    - intros s Hs. destruct (K s Hs) as ((_ & K1) & (_ & K2)). auto.
    - intros q Hq. cbn [item_points] in Hq. unfold ends in Hq. apply in_flat_map in Hq. destruct Hq as (s & Hs & Hq).
      destruct (K s Hs) as ((K1 & _) & (K2 & _)). destruct Hq as [<- |[<- |[]]]; assumption.
  Qed.
Lemma draw_polygon_spec l count p : (5 <= count)%Z -> (forall x, In x l -> drawable (scalars_of a xs ys) x) ->
    generates (draw_polygon ctx xs ys mn mx hmn hmx smn smx a l count) p ->
    drawn DrawPolygon count (Shape p) /\ exists n, (0 <= n <= count)%Z /\ spans (py_take l n) (Shape p).
  Proof.
    intros Hc Hd H. unfold draw_polygon in H. apply gen_bind in H. destruct H as (n & Hn & H).
    assert (N : (0 <= n <= count)%Z).
    { destruct a; [|apply gen_ret in Hn; subst n; lia]. apply gen_lift in Hn. destruct (to_prior_prime_spec count Hc) as (q & Eq & _ & Hr & _).
      rewrite Eq in Hn. injection Hn as <-. lia. }
    change (generates (slice_polygon ctx a xs ys mn mx hmn hmx smn smx (py_take l n)) p) in H.
    apply slice_polygon_spec in H; [|exact Hsmn|intros x Hx; eapply Hd, py_take_in, Hx]. destruct H as (H1 & H2).
    split; [split; [exact H1|intros q Hq; apply (H2 q Hq)]|]. exists n. split; [exact N|].
    intros q Hq. exists (coordinate_along a q), (coordinate_along a q). destruct (H2 q Hq). repeat split; try assumption; apply Qcle_refl.
  Qed.
(** ** The loop. *)
Lemma ends_edges l s : In s l -> In (seg_start s) (ends l) /\ In (seg_end s) (ends l).
  Proof. intros H. unfold ends. split; apply in_flat_map; exists s; cbn; auto. Qed.
Lemma mix_loop_spec drawers : forall l P S Q P' S' Q' b,
    (forall d count, In (d, count) drawers -> count_ok d count) ->
    (forall x, In x l -> drawable (scalars_of a xs ys) x) -> StronglySorted Qclt l ->
    (forall x, In x l -> (b <= x)%Qc) -> (forall s, In s S -> (coordinate_along a (seg_start s) <= b)%Qc /\ (coordinate_along a (seg_end s) <= b)%Qc) ->
    generates (mix_loop ctx xs ys mn mx hmn hmx smn smx a drawers l P S Q) (P', S', Q') ->
    exists items, Forall2 (fun dc it => drawn (fst dc) (snd dc) it) drawers items /\
      P' = P ++ flat_map the_points items /\ S' = S ++ flat_map the_segments items /\ Q' = Q ++ flat_map the_polygons items /\
      (forall it, In it items -> forall q, In q (item_points it) -> exists x, In x l /\ (x <= coordinate_along a q)%Qc) /\
      ForallOrdPairs (item_before a) items /\
      (forall d count rest, drawers = (d, count) :: rest -> d <> DrawPoints ->
       forall it, In it items -> is_points it -> forall q, In q (item_points it) -> exists x, In x (py_drop l 1) /\ (x <= coordinate_along a q)%Qc).
  Proof.
    induction drawers as [|(d, count) drawers IH]; intros l P S Q P' S' Q' b Hc Hd Hs Hb HS H.
    { cbn [mix_loop] in H. apply gen_ret in H. injection H as -> -> ->. exists []. cbn. rewrite !app_nil_r.
      repeat split; try constructor; try tauto. }
    assert (Hcount : count_ok d count) by (apply Hc; left; reflexivity).
    assert (H1c : (1 <= count)%Z) by (destruct d; cbn in Hcount; lia).
    cbn [mix_loop] in H. apply gen_bind in H. destruct H as (((P1 & S1) & Q1) & Hdraw & H).
    apply gen_bind in H. destruct H as (touch & Htouch & H).
    assert (exists it n, drawn d count it /\ (0 <= n <= count)%Z /\ spans (py_take l n) it /\
      P1 = P ++ the_points it /\ S1 = S ++ the_segments it /\ Q1 = Q ++ the_polygons it) as (it & n & Hit & Hn & Hsp & EP & ES & EQ).
    { destruct d; apply gen_bind in Hdraw; destruct Hdraw as (r & Hr & Hdraw); apply gen_ret in Hdraw; injection Hdraw as -> -> ->.
      - apply draw_points_spec in Hr; [|exact Hd]. exists (Points r), count. cbn [the_points the_segments the_polygons].
        rewrite !app_nil_r. split; [apply Hr|]. split; [lia|]. split; [apply Hr|]. auto.
      - apply draw_segments_spec in Hr; [|exact Hcount|exact Hd]. exists (Segments r), count. cbn [the_points the_segments the_polygons].
        rewrite !app_nil_r. split; [apply Hr|]. split; [lia|]. split; [apply Hr|]. auto.
      - apply draw_polygon_spec in Hr; [|exact Hcount|exact Hd]. destruct Hr as (Hr & n & Hn & Hsp). exists (Shape r), n.
        cbn [the_points the_segments the_polygons]. rewrite !app_nil_r. split; [exact Hr|]. split; [exact Hn|]. split; [exact Hsp|]. auto. }
    assert (Ht : (0 <= b2z touch <= 1)%Z) by apply b2z_range.
    destruct (cut_line_py l b count (b2z touch) Hs Hb H1c Ht) as (c & Hbc & C1 & C2 & C3).
    assert (Hitc : forall v, In v (item_points it) -> (coordinate_along a v <= c)%Qc).
    { intros v Hv. destruct (Hsp v Hv) as (lo & hi & _ & Hhi & _ & Hle). pose proof (C1 n hi Hn Hhi). qcl. }
    assert (HSc : forall s, In s S1 -> (coordinate_along a (seg_start s) <= c)%Qc /\ (coordinate_along a (seg_end s) <= c)%Qc).
    { intros s Hin. rewrite ES in Hin. apply in_app_or in Hin. destruct Hin as [Hin|Hin].
      - destruct (HS s Hin). split; qcl.
      - destruct it as [?|ss|?]; cbn [the_segments] in Hin; try contradiction. apply ends_edges in Hin. split; apply Hitc, Hin. }
    apply (IH _ _ _ _ _ _ _ c) in H; [|intros d' c' Hin; apply Hc; right; exact Hin|intros x Hx; eapply Hd, py_drop_in, Hx|
      apply skipn_sorted, Hs|exact C2|exact HSc].
    destruct H as (items & Hf2 & -> & -> & -> & Hlow & Hpairs & Hfirst).
    assert (Hrest : forall it', In it' items -> forall q, In q (item_points it') -> (c <= coordinate_along a q)%Qc).
    { intros it' Hi q Hq. destruct (Hlow it' Hi q Hq) as (x & Hx & Hle). pose proof (C2 x Hx). qcl. }
    exists (it :: items). split; [constructor; [exact Hit|exact Hf2]|].
    cbn [flat_map]. rewrite EP, ES, EQ, <- !app_assoc. split; [reflexivity|]. split; [reflexivity|]. split; [reflexivity|].
    split; [|split].
    - intros it' [<- |Hi] q Hq.
      + destruct (Hsp q Hq) as (lo & hi & Hlo & _ & Hle & _). exists lo. split; [eapply py_take_in, Hlo|exact Hle].
      + destruct (Hlow it' Hi q Hq) as (x & Hx & Hle). exists x. split; [eapply py_drop_in, Hx|exact Hle].
    - constructor; [|exact Hpairs]. apply Forall_forall. intros it' Hi. exists c. split; [exact Hitc|]. split; [apply Hrest, Hi|].
      destruct touch.
      + destruct drawers as [|(d' & count') drawers]; [apply gen_ret in Htouch; discriminate|].
        assert (Hd' : d' <> DrawPoints) by (intros ->; apply gen_ret in Htouch; discriminate).
        assert (Hdd : d <> DrawPoints).
        { intros ->. destruct d'; [congruence|apply gen_ret in Htouch; discriminate..]. }
        destruct it' as [ps'|ss'|p'] eqn:Eit.
        { left. intros v Hv. destruct (Hfirst d' count' drawers eq_refl Hd' _ Hi I v Hv) as (x & Hx & Hle).
          assert (c < x)%Qc; [|qcl]. eapply drop_above; [|exact C2|apply Z.le_refl|exact Hx]. apply skipn_sorted, Hs. }
        all: right; split; [destruct d, it; cbn in Hit; try contradiction; cbn; tauto|]; split; [cbn; tauto|].
        all: assert (Hbt : blocks_touch a (match d with DrawSegments => S1 | _ => contour_segments (border (last Q1 (Poly [] []))) end) = Ok false)
          by (destruct d; [congruence|..]; destruct d'; try congruence; apply gen_pmap in Htouch; destruct Htouch as (bl & Hbl & Ebl);
              apply gen_lift in Hbl; destruct bl; try discriminate; exact Hbl).
        all: intros s Hs'; eapply blocks_touch_false; [exact Hbt| |].
        all: destruct d, it as [ps|ss|p]; cbn in Hit; try contradiction; try congruence; cbn [item_edges the_segments the_polygons] in *.
        all: try (exact HSc); try (rewrite ES; apply in_or_app; right; exact Hs'); rewrite EQ, last_last; try exact Hs'.
        all: intros t Ht'; apply border_edge_vertices in Ht'; split; apply Hitc, Ht'.
      + left. intros v Hv. destruct (Hlow it' Hi v Hv) as (x & Hx & Hle). pose proof (C3 eq_refl x Hx). qcl.
    - intros d0 count0 rest0 E Hd0 it' [<- |Hi] Hpt q Hq.
      + injection E as <- <- <-. destruct d, it; cbn in Hit, Hpt; try contradiction; congruence.
      + injection E as <- <- <-. destruct (Hlow it' Hi q Hq) as (x & Hx & Hle). exists x. split; [|exact Hle].
        rewrite drop_pos in Hx by (destruct d; cbn in Hcount; lia). rewrite drop_pos by lia.
        eapply skipn_incl; [|exact Hx]. destruct d; cbn in Hcount; [congruence|lia|lia].
  Qed.
End Drawers.
Lemma drawn_lengths ctx xs ys mn mx hmn hmx smn smx drawers items :
  Forall2 (fun dc it => drawn ctx xs ys mn mx hmn hmx smn smx (fst dc) (snd dc) it) drawers items ->
  lenZ (flat_map the_points items) = zsum (map wpoints drawers) /\
  lenZ (flat_map the_segments items) = zsum (map wsegments drawers) /\
  lenZ (flat_map the_polygons items) = zsum (map wpolygons drawers).
Proof.
  induction 1 as [|(d & count) it drawers items Hd _ (IH1 & IH2 & IH3)]; [auto|]. cbn [flat_map map zsum fold_right]. rewrite !lenZ_app.
  fold (zsum (map wpoints drawers)) (zsum (map wsegments drawers)) (zsum (map wpolygons drawers)). rewrite IH1, IH2, IH3.
  destruct d, it; cbn [drawn fst snd] in Hd; try contradiction; unfold wpoints, wsegments, wpolygons;
    cbn [fst snd the_points the_segments the_polygons].
  - destruct Hd as (_ & -> & _). unfold lenZ. cbn. lia.
  - destruct Hd as (-> & _). unfold lenZ. cbn [length]. lia.
  - unfold lenZ. cbn. lia.
Qed.
(** ** Separation of what is drawn. *)
Lemma before_edges a i j s t : item_before a i j -> In s (item_edges i) ->
  In (seg_start t) (item_points j) -> In (seg_end t) (item_points j) -> ~ interiors_meet s t.
Proof.
  intros (c & Hi & Hj & H) Hs T1 T2.
  assert (In (seg_start s) (item_points i) /\ In (seg_end s) (item_points i)) as (S1 & S2).
  { destruct i; cbn [item_edges item_points] in *; [destruct Hs|apply ends_edges, Hs|apply border_edge_vertices in Hs; tauto]. }
  destruct s as [s e], t as [s' e']. cbn [seg_start seg_end] in *. destruct H as [H|(_ & _ & H)].
  - eapply sides_apart_lt; [apply Hi, S1|apply Hi, S2|apply H, T1|apply H, T2].
  - eapply sides_apart; [apply Hi, S1|apply Hi, S2|apply Hj, T1|apply Hj, T2|]. apply (H (Seg s e) Hs).
Qed.
Definition mix_separated ctx xs ys (P : list point) (S : list segment) (Q : list polygon) : Prop :=
  NoDup P /\
  (forall p s, In p P -> In s S -> aside p [seg_start s; seg_end s]) /\
  (forall p q, In p P -> In q Q -> aside p (vertices q)) /\
  (exists groups, S = concat groups /\ (forall g, In g groups -> segment_draw ctx xs ys g) /\
     ForallOrdPairs (fun g g' => forall s t, In s g -> In t g' -> ~ interiors_meet s t) groups) /\
  (forall s q, In s S -> In q Q ->
     (split_by_line [seg_start s; seg_end s] (vertices q) \/ split_by_line (vertices q) [seg_start s; seg_end s]) /\
     forall u v, contour_edge (border q) u v -> ~ interiors_meet s (Seg u v)) /\
  ForallOrdPairs apart_from Q.
Lemma drawn_in ctx xs ys mn mx hmn hmx smn smx drawers items it :
  Forall2 (fun dc it => drawn ctx xs ys mn mx hmn hmx smn smx (fst dc) (snd dc) it) drawers items -> In it items ->
  exists d count, drawn ctx xs ys mn mx hmn hmx smn smx d count it.
Proof.
  induction 1 as [|dc it' drawers items Hd _ IH]; [intros []|]. intros [<- |Hi]; [exists (fst dc), (snd dc); exact Hd|apply IH, Hi].
Qed.
Lemma items_separated a ctx xs ys mn mx hmn hmx smn smx drawers items :
  Forall2 (fun dc it => drawn ctx xs ys mn mx hmn hmx smn smx (fst dc) (snd dc) it) drawers items ->
  ForallOrdPairs (item_before a) items ->
  mix_separated ctx xs ys (flat_map the_points items) (flat_map the_segments items) (flat_map the_polygons items).
Proof.
  intros Hf Hp.
  assert (Pair : forall i j, In i items -> In j items -> i <> j -> item_before a i j \/ item_before a j i).
  { intros i j Hi Hj N. destruct (ForallOrdPairs_In Hp i j Hi Hj) as [E|E]; [contradiction|exact E]. }
  assert (PP : forall p, In p (flat_map the_points items) -> exists l, In (Points l) items /\ In p l).
  { intros p H. apply in_flat_map in H. destruct H as ([l|l|q] & Hi & H); cbn in H; try contradiction. exists l. auto. }
  assert (SS : forall s, In s (flat_map the_segments items) -> exists l, In (Segments l) items /\ In s l).
  { intros p H. apply in_flat_map in H. destruct H as ([l|l|q] & Hi & H); cbn in H; try contradiction. exists l. auto. }
  assert (QQ : forall q, In q (flat_map the_polygons items) -> In (Shape q) items).
  { intros p H. apply in_flat_map in H. destruct H as ([l|l|q] & Hi & H); cbn in H; try contradiction. destruct H as [<- |[]]. exact Hi. }
  assert (Aside : forall l p it vs, In (Points l) items -> In p l -> In it items -> ~ is_points it -> incl vs (item_points it) -> aside p vs).
  { intros l p it vs Hl Hin Hi Ni Hv.
    destruct (Pair (Points l) it Hl Hi) as [B|B]; [intros <-; apply Ni; exact I|left|right].
    - eapply strict_incl; [eapply before_strict; [exact B|left; exact I]| |exact Hv]. intros ? [<- |[]]. exact Hin.
    - eapply strict_incl; [eapply before_strict; [exact B|right; exact I]|exact Hv|]. intros ? [<- |[]]. exact Hin. }
  split; [|split; [|split; [|split; [|split]]]].
  - apply pairs_nodup. eapply pairs_flat_map; [| |exact Hp].
    + intros it Hi. apply nodup_pairs. destruct (drawn_in _ _ _ _ _ _ _ _ _ _ _ _ Hf Hi) as (d & count & Hd).
      destruct it as [l|l|q]; cbn [the_points]; [|constructor..]. destruct d; cbn in Hd; try contradiction. apply Hd.
    + intros i j u v B Hu Hv. destruct i as [l|?|?], j as [l'|?|?]; cbn in Hu, Hv; try contradiction.
      destruct (before_strict _ _ _ B (or_introl I)) as (ax & c & H1 & H2). intros ->. specialize (H1 v Hu). specialize (H2 v Hv). qcl.
  - intros p s Hin Hs. destruct (PP p Hin) as (l & Hl & Hpl). destruct (SS s Hs) as (m & Hm & Hsm).
    eapply (Aside l p (Segments m)); [exact Hl|exact Hpl|exact Hm|cbn; tauto|]. cbn [item_points]. apply ends_edges in Hsm.
    intros q [<- |[<- |[]]]; apply Hsm.
  - intros p q Hin Hq. destruct (PP p Hin) as (l & Hl & Hpl). apply QQ in Hq.
    eapply (Aside l p (Shape q)); [exact Hl|exact Hpl|exact Hq|cbn; tauto|]. cbn [item_points]. apply incl_refl.
  - exists (map the_segments items). split; [apply flat_map_concat_map|]. split.
    + intros g Hg. apply in_map_iff in Hg. destruct Hg as (it & <- & Hi).
      destruct (drawn_in _ _ _ _ _ _ _ _ _ _ _ _ Hf Hi) as (d & count & Hd).
      destruct it as [l|l|q]; cbn [the_segments]; try (left; reflexivity).
      destruct d; cbn in Hd; try contradiction. apply Hd.
    + clear - Hp. induction Hp as [|i items Hf Hr IH]; constructor; [|exact IH]. apply Forall_forall. intros g Hg.
      change (In g (map the_segments items)) in Hg.
      apply in_map_iff in Hg. destruct Hg as (j & <- & Hj). rewrite Forall_forall in Hf. specialize (Hf j Hj).
      intros s t Hs Ht. destruct i as [?|l|?], j as [?|l'|?]; cbn in Hs, Ht; try contradiction.
      eapply before_edges; [exact Hf|exact Hs|apply ends_edges, Ht|apply ends_edges, Ht].
  - intros s q Hs Hq. destruct (SS s Hs) as (m & Hm & Hsm). apply QQ in Hq.
    assert (Hends : incl [seg_start s; seg_end s] (item_points (Segments m))).
    { apply ends_edges in Hsm. intros r [<- |[<- |[]]]; apply Hsm. }
    destruct (Pair (Segments m) (Shape q) Hm Hq ltac:(discriminate)) as [B|B].
    + split; [left; eapply split_incl; [apply (before_split _ _ _ B)|exact Hends|apply incl_refl]|].
      intros u v E. eapply before_edges; [exact B|exact Hsm|..]; apply (contour_vertices q (border q) u v (or_introl eq_refl) E).
    + split; [right; eapply split_incl; [apply (before_split _ _ _ B)|apply incl_refl|exact Hends]|].
      intros u v E K. apply interiors_meet_sym in K. revert K. eapply before_edges; [exact B|apply segments_edge, E|..]; apply Hends; cbn; auto.
  - eapply pairs_flat_map; [| |exact Hp].
    + intros it Hi. destruct it; cbn; repeat constructor.
    + intros i j u v B Hu Hv. destruct i as [?|?|p], j as [?|?|q]; cbn in Hu, Hv; try contradiction.
      destruct Hu as [<- |[]], Hv as [<- |[]]. split; [apply (before_split _ _ _ B)|].
      intros vs Hvs s e s' e' E E'. apply (contour_vertices _ _ _ _ Hvs) in E'.
      eapply before_edges; [exact B|apply segments_edge, E|..]; apply E'.
Qed.
Definition mix_elements (xs ys : scalars) mn mx hmn hmx smn smx (P : list point) (S : list segment) (Q : list polygon) : Prop :=
  (forall p, In p P -> drawable_point xs (Some ys) p) /\
  (forall s, In s S -> range_point xs ys (seg_start s) /\ range_point xs ys (seg_end s)) /\
  (forall q, In q Q -> polygon_sizes q mn mx hmn hmx smn smx /\ (forall v, In v (vertices q) -> drawable_point xs (Some ys) v)).
Lemma mix_strategy_spec ctx xs ys pmn pmx gmn gmx qmn qmx mn mx hmn hmx smn smx m :
  (forall l, incl (ctx_hull ctx l) l) -> (1 <= smn)%Z -> (0 <= pmn)%Z -> (forall m, pmx = Some m -> (pmn <= m)%Z) -> (0 <= qmn)%Z ->
  generates (to_mix_strategy ctx xs ys pmn pmx gmn gmx qmn qmx mn mx hmn hmx smn smx) m ->
  exists P S Q, m = Mix (unpack_points P) (unpack S) (unpack Q) /\
    size_ok (lenZ P) pmn pmx /\ size_ok (lenZ S) gmn gmx /\ size_ok (lenZ Q) qmn qmx /\
    mix_elements xs (ordinates xs ys) mn mx hmn hmx smn smx P S Q /\ mix_separated ctx xs (ordinates xs ys) P S Q.
Proof.
  intros Hh Hsm Hp0 Hp Hq H. unfold to_mix_strategy in H. change (or_else ys xs) with (ordinates xs ys) in H.
  apply gen_bind in H. destruct H as (mpc & Hm & H). apply gen_lift in Hm. apply to_next_prime_ge in Hm. destruct Hm as (_ & _ & Hm & _).
  set (zs := ordinates xs ys) in *. clearbody zs. clear ys. cbv zeta in H.
  assert (exists a l, NoDup l /\ (forall x, In x l -> drawable (scalars_of a xs zs) x) /\
    generates (coordinates_to_mix ctx xs zs pmn pmx gmn gmx qmn qmx mn mx hmn hmx smn smx mpc a l) m) as (a & l & Nd & Hd & Hg).
  { apply gen_alt in H. destruct H as [H|H]; apply gen_bind in H; destruct H as (l & Hl & H);
      apply gen_unique_scalars in Hl; destruct Hl as (Nd & _ & _ & Hd); [exists AxisX, l|exists AxisY, l]; auto. }
  clear H. unfold coordinates_to_mix in Hg. apply gen_bind in Hg. destruct Hg as (((pc & sc) & qc) & Hc & H).
  apply point_counts_spec in Hc; [|assumption..]. destruct Hc as (sizes & -> & C1 & C2 & C3 & C4 & C5 & C6).
  apply gen_bind in H. destruct H as (drawers & Hdr & H). apply gen_permutations in Hdr.
  apply gen_bind in H. destruct H as (((P & S) & Q) & Hl & H). apply gen_ret in H. subst m. exists P, S, Q. split; [reflexivity|].
  set (l' := isort qleb l) in *. assert (Hs : StronglySorted Qclt l') by (apply isort_strict, Nd).
  assert (exists b, forall x, In x l' -> (b <= x)%Qc) as (b & Hlow).
  { destruct l' as [|x l0]; [exists (Q2Qc 0); intros ? []|]. exists x. inversion Hs as [|? ? _ Hf']; subst.
    rewrite Forall_forall in Hf'. intros y [<- |Hy]; [apply Qcle_refl|apply Qclt_le_weak, Hf', Hy]. }
  apply (mix_loop_spec ctx a xs zs mn mx hmn hmx smn smx Hsm Hh drawers l' [] [] [] P S Q b) in Hl;
    [| |intros x Hx; apply Hd; eapply Permutation_in; [symmetry; apply isort_perm|exact Hx]|exact Hs|exact Hlow|intros s []].
  - destruct Hl as (items & Hf2 & -> & -> & -> & _ & Hpairs & _). cbn [app].
    pose proof (drawn_lengths _ _ _ _ _ _ _ _ _ _ _ Hf2) as (L1 & L2 & L3).
    pose proof (weights pc sizes qc) as (W1 & W2 & W3). cbv zeta in W1, W2, W3.
    rewrite L1, L2, L3. rewrite (zsum_perm _ _ (Permutation_map wpoints (Permutation_sym Hdr))),
      (zsum_perm _ _ (Permutation_map wsegments (Permutation_sym Hdr))), (zsum_perm _ _ (Permutation_map wpolygons (Permutation_sym Hdr))), W1, W2, W3.
    split; [exact C4|]. split; [exact C5|]. split; [apply C6, Hq|]. split; [|eapply items_separated; eassumption].
    split; [|split].
    + intros p Hin. apply in_flat_map in Hin. destruct Hin as (it & Hi & Hin). destruct (drawn_in _ _ _ _ _ _ _ _ _ _ _ _ Hf2 Hi) as (d & count & Hdd).
      destruct it, d; cbn in Hin, Hdd; try contradiction. apply Hdd, Hin.
    + intros p Hin. apply in_flat_map in Hin. destruct Hin as (it & Hi & Hin). destruct (drawn_in _ _ _ _ _ _ _ _ _ _ _ _ Hf2 Hi) as (d & count & Hdd).
      destruct it, d; cbn in Hin, Hdd; try contradiction. apply Hdd, Hin.
    + intros p Hin. apply in_flat_map in Hin. destruct Hin as (it & Hi & Hin). destruct (drawn_in _ _ _ _ _ _ _ _ _ _ _ _ Hf2 Hi) as (d & count & Hdd).
      destruct it, d; cbn in Hin, Hdd; try contradiction. destruct Hin as [<- |[]]. exact Hdd.
  - intros d count Hin. apply (Permutation_in _ (Permutation_sym Hdr)) in Hin. apply in_app_or in Hin. destruct Hin as [Hin|Hin].
    { apply in_map_iff in Hin. destruct Hin as (x & E & Hx). injection E as <- <-. apply C1, Hx. }
    apply in_app_or in Hin. destruct Hin as [Hin|Hin].
    + apply in_map_iff in Hin. destruct Hin as (x & E & Hx). injection E as <- <-. apply in_map_iff in Hx. destruct Hx as (y & <- & Hy).
      specialize (C2 y Hy). cbn [count_ok]. lia.
    + apply in_map_iff in Hin. destruct Hin as (x & E & Hx). injection E as <- <-. apply C3, Hx.
Qed.
End Rough.
