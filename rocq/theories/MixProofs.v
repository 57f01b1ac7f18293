(** Mixes: sizes, components, separation. *)
From Coq Require Import Sorting.Sorted.
From Verif Require Import Base Prog Geometry Ctx Utils Contracts Factories Strategies Spec MixSpec QcTac ProgProofs GeomProofs
  ListProofs PrimeProofs SimpleProofs SegmentProofs EdgeProofs HelperProofs ReferenceProofs SeparationProofs MultiProofs
  SequenceProofs SliceProofs MultipolygonProofs.

(** ** Counts. *)
Definition zsum (l : list Z) : Z := fold_right Z.add 0%Z l.
Lemma partition_loop_spec fuel : forall v l, generates (partition_loop fuel v) l -> (forall x, In x l -> (1 <= x)%Z) /\ zsum l = v.
Proof.
  induction fuel as [|fuel IH]; intros v l H; cbn [partition_loop] in H; (destruct (Z.eqb_spec v 0); [apply gen_ret in H; subst; cbn; split; [tauto|reflexivity]|]).
  - apply gen_fail in H. destruct H.
  - apply gen_bind in H. destruct H as (x & Hx & H). apply gen_integers in Hx. destruct Hx as (Hx & _).
    apply gen_bind in H. destruct H as (rest & Hr & H). apply gen_ret in H. subst l. apply IH in Hr. destruct Hr as (H1 & H2).
    split; [intros y [<- |Hy]; [lia|apply H1, Hy]|]. cbn [zsum fold_right]. fold (zsum rest). lia.
Qed.
Lemma partition_spec v l : generates (partition v) l -> (forall x, In x l -> (1 <= x)%Z) /\ zsum l = v.
Proof. intros H. unfold partition in H. apply gen_bind in H. destruct H as (u & _ & H). eapply partition_loop_spec, H. Qed.

Lemma point_counts_spec pmn pmx smn smx qmn qmx mpc total pc sc qc : (5 <= mpc)%Z ->
  (0 <= pmn)%Z -> (forall m, pmx = Some m -> (pmn <= m)%Z) ->
  generates (to_point_counts pmn pmx smn smx qmn qmx mpc total) (pc, sc, qc) ->
  exists sizes, sc = map (Z.mul 2) sizes /\
    (forall x, In x pc -> (1 <= x)%Z) /\ (forall x, In x sizes -> (1 <= x)%Z) /\ (forall x, In x qc -> (5 <= x)%Z) /\
    size_ok (zsum pc) pmn pmx /\ size_ok (zsum sizes) smn smx /\ (0 <= qmn -> size_ok (lenZ qc) qmn qmx)%Z.
Proof.
  intros Hmpc Hp0 Hp H. unfold to_point_counts in H.
  apply gen_bind in H. destruct H as (n & Hn & H). apply gen_integers in Hn. destruct Hn as (N1 & N2).
  apply gen_bind in H. destruct H as (mpp & _ & H). apply gen_bind in H. destruct H as (qc' & Hq & H).
  apply gen_bind in H. destruct H as (half & Hh & H). apply gen_integers in Hh. destruct Hh as (Hh1 & Hh2).
  apply gen_bind in H. destruct H as (pc' & Hpc & H). apply partition_spec in Hpc. destruct Hpc as (P1 & P2).
  apply gen_bind in H. destruct H as (sizes & Hs & H). apply partition_spec in Hs. destruct Hs as (S1 & S2).
  apply gen_ret in H. injection H as -> -> ->. exists sizes. split; [reflexivity|]. split; [exact P1|]. split; [exact S1|].
  fold (zsum qc') in *. set (tp := zsum qc') in *.
  assert (Hhalf : (smn + half = zsum sizes)%Z).
  { rewrite S2. replace (2 * smn + 2 * half)%Z with ((smn + half) * 2)%Z by lia. rewrite Z.div_mul; lia. }
  split; [|split; [|split]].
  - destruct (Z.eqb_spec n 0); [apply gen_ret in Hq; subst qc'; intros x []|].
    apply gen_draw_n in Hq. destruct Hq as (_ & Hq). intros x Hx. apply Hq in Hx. apply gen_integers in Hx. destruct Hx. lia.
  - rewrite P2. assert (K : (2 * half <= total - tp - pmn - 2 * smn)%Z).
    { destruct smx as [m|]; cbv beta iota in Hh2.
      - pose proof (Z.mul_div_le (Z.min (total - tp - pmn) (2 * m) - 2 * smn) 2 ltac:(lia)). lia.
      - pose proof (Z.mul_div_le (total - tp - pmn - 2 * smn) 2 ltac:(lia)). lia. }
    unfold min_opt. destruct pmx as [m|]; (split; [|intros m' Em; try discriminate]).
    + specialize (Hp m eq_refl). lia.
    + injection Em as <-. lia.
    + lia.
  - rewrite <- Hhalf. split; [lia|]. intros m ->. cbv beta iota in Hh2.
    pose proof (Z.mul_div_le (Z.min (total - tp - pmn) (2 * m) - 2 * smn) 2 ltac:(lia)). lia.
  - intros Hq0. destruct (Z.eqb_spec n 0) as [-> |Hn].
    + apply gen_ret in Hq. subst qc'. unfold lenZ. cbn. split; [lia|]. intros m ->. cbn [min_opt] in N2. lia.
    + apply gen_draw_n in Hq. destruct Hq as (L & _). unfold lenZ. rewrite L. split; [lia|]. intros m ->. cbn [min_opt] in N2. lia.
Qed.

(** ** What one drawer draws. *)
Inductive item := Points (l : list point) | Segments (l : list segment) | Shape (p : polygon).
Definition item_points it := match it with Points l => l | Segments l => ends l | Shape p => vertices p end.
Definition item_edges it := match it with Points _ => [] | Segments l => l | Shape p => contour_segments (border p) end.
Definition is_points it := match it with Points _ => True | _ => False end.
Definition the_points it := match it with Points l => l | _ => [] end.
Definition the_segments it := match it with Segments l => l | _ => [] end.
Definition the_polygons it := match it with Shape p => [p] | _ => [] end.
Definition item_before (a : axis) (i j : item) : Prop :=
  exists c, (forall v, In v (item_points i) -> (coordinate_along a v <= c)%Qc) /\
    (forall v, In v (item_points j) -> (c <= coordinate_along a v)%Qc) /\
    ((forall v, In v (item_points j) -> (c < coordinate_along a v)%Qc) \/
     (~ is_points i /\ ~ is_points j /\
      forall s, In s (item_edges i) -> coordinate_along a (seg_start s) <> c \/ coordinate_along a (seg_end s) <> c)).


Section Drawers.
  Context (ctx : context) (a : axis) (xs ys : scalars) (mn : Z) (mx : option Z) (hmn : Z) (hmx : option Z) (smn : Z)
    (smx : option Z) (Hsmn : (1 <= smn)%Z) (Hh : forall l, is_hull l (ctx_hull ctx l)).
  Definition range_point (p : point) : Prop := in_drawable_range xs (px p) /\ in_drawable_range ys (py p).
  (** Segments drawn together. *)
  Definition segment_draw (g : list segment) : Prop :=
    g = [] \/ exists a l count, (2 <= count)%Z /\ (forall x, In x l -> drawable (scalars_of a xs ys) x) /\
      generates (draw_segments ctx xs ys a l count) g.
  Definition drawn (d : drawer) (count : Z) (it : item) : Prop :=
    match d, it with
    | DrawPoints, Points l => NoDup l /\ lenZ l = count /\ (forall p, In p l -> drawable_point xs (Some ys) p)
    | DrawSegments, Segments l => lenZ l = (count / 2)%Z /\ segment_draw l /\
        (forall s, In s l -> seg_start s <> seg_end s /\ range_point (seg_start s) /\ range_point (seg_end s))
    | DrawPolygon, Shape p => polygon_sizes p mn mx hmn hmx smn smx /\ (forall q, In q (vertices p) -> drawable_point xs (Some ys) q)
    | _, _ => False
    end.
  Definition count_ok (d : drawer) (count : Z) : Prop :=
    match d with DrawPoints => 1 <= count | DrawSegments => 2 <= count | DrawPolygon => 5 <= count end%Z.
  Definition spans (l : list Qc) (it : item) : Prop :=
    forall q, In q (item_points it) -> exists lo hi, In lo l /\ In hi l /\ (lo <= coordinate_along a q)%Qc /\ (coordinate_along a q <= hi)%Qc.
  Lemma drawable_range s q : drawable s q -> in_drawable_range s q.
  Proof. intros H. exists q, q. repeat split; try assumption; apply Qcle_refl. Qed.

  Lemma sliced_range l p : (forall x, In x l -> drawable (scalars_of a xs ys) x) ->
    in_drawable_range (fst (sliced a l xs ys)) (px p) -> in_drawable_range (snd (sliced a l xs ys)) (py p) ->
    (exists lo hi, In lo l /\ In hi l /\ (lo <= coordinate_along a p)%Qc /\ (coordinate_along a p <= hi)%Qc) /\ range_point p.
  Proof.
    intros Hl Hx Hy. unfold range_point. destruct a; cbn [sliced fst snd coordinate_along scalars_of] in *.
    - destruct Hx as (lo & hi & H1 & H2 & H3 & H4). apply (proj1 (drawable_sampled _ _)) in H1. apply (proj1 (drawable_sampled _ _)) in H2.
      split; [exists lo, hi; auto|]. split; [exists lo, hi; auto|exact Hy].
    - destruct Hy as (lo & hi & H1 & H2 & H3 & H4). apply (proj1 (drawable_sampled _ _)) in H1. apply (proj1 (drawable_sampled _ _)) in H2.
      split; [exists lo, hi; auto|]. split; [exact Hx|exists lo, hi; auto].
  Qed.

  Lemma draw_points_spec l count ps : (forall x, In x l -> drawable (scalars_of a xs ys) x) ->
    generates (draw_points xs ys a l count) ps ->
    drawn DrawPoints count (Points ps) /\ spans (py_take l count) (Points ps).
  Proof.
    intros Hd H. unfold draw_points in H. destruct (sliced a (py_take l count) xs ys) as (sx & sy) eqn:E.
    unfold to_unique_point_sequence_strategy in H. apply (gen_unique_lists _ point_eqb_eq) in H. destruct H as (Nd & _ & (H1 & H2) & Hp).
    assert (K : forall p, In p ps -> In (coordinate_along a p) (py_take l count) /\ drawable_point xs (Some ys) p).
    { intros p Hin. apply sliced_drawable; [intros x Hx; eapply Hd, py_take_in, Hx|]. rewrite E. cbn [fst snd].
      apply Hp in Hin. apply gen_point in Hin. exact Hin. }
    split; [split; [exact Nd|]; split; [specialize (H2 count eq_refl); lia|intros p Hin; apply K, Hin]|].
    intros q Hq. destruct (K q Hq) as (K1 & _). exists (coordinate_along a q), (coordinate_along a q).
    repeat split; try assumption; apply Qcle_refl.
  Qed.
  Lemma draw_segments_spec l count ss : (2 <= count)%Z -> (forall x, In x l -> drawable (scalars_of a xs ys) x) ->
    generates (draw_segments ctx xs ys a l count) ss ->
    drawn DrawSegments count (Segments ss) /\ spans (py_take l count) (Segments ss).
  Proof.
    intros Hc Hd H. assert (Src : segment_draw ss) by (right; exists a, l, count; auto).
    unfold draw_segments in H. destruct (sliced a (py_take l count) xs ys) as (sx & sy) eqn:E.
    apply segment_sequence_spec in H; [|exact Hh|apply Z.div_pos; lia|intros m Em; injection Em as <-; lia].
    destruct H as ((H1 & H2) & H3 & H4).
    assert (K : forall s, In s ss -> seg_start s <> seg_end s /\
      ((exists lo hi, In lo (py_take l count) /\ In hi (py_take l count) /\ (lo <= coordinate_along a (seg_start s))%Qc /\ (coordinate_along a (seg_start s) <= hi)%Qc) /\ range_point (seg_start s)) /\
      ((exists lo hi, In lo (py_take l count) /\ In hi (py_take l count) /\ (lo <= coordinate_along a (seg_end s))%Qc /\ (coordinate_along a (seg_end s) <= hi)%Qc) /\ range_point (seg_end s))).
    { intros s Hs. destruct (H3 s Hs) as (K0 & K1 & K2 & K3 & K4). cbn [ordinates] in K3, K4. split; [exact K0|].
      split; (apply sliced_range; [intros x Hx; eapply Hd, py_take_in, Hx|rewrite E; assumption|rewrite E; assumption]). }
    split; [split; [specialize (H2 _ eq_refl); lia|]; split|].
    - exact Src.
    - intros s Hs. destruct (K s Hs) as (K0 & (_ & K1) & (_ & K2)). auto.
    - intros q Hq. cbn [item_points] in Hq. unfold ends in Hq. apply in_flat_map in Hq. destruct Hq as (s & Hs & Hq).
      destruct (K s Hs) as (_ & (K1 & _) & (K2 & _)). destruct Hq as [<- |[<- |[]]]; assumption.
  Qed.
  Lemma draw_polygon_spec l count p : (5 <= count)%Z -> (forall x, In x l -> drawable (scalars_of a xs ys) x) ->
    generates (draw_polygon ctx xs ys mn mx hmn hmx smn smx a l count) p ->
    drawn DrawPolygon count (Shape p) /\ exists n, (0 <= n <= count)%Z /\ spans (py_take l n) (Shape p).
  Proof.
    intros Hc Hd H. unfold draw_polygon in H. apply gen_bind in H. destruct H as (n & Hn & H).
    assert (N : (0 <= n <= count)%Z).
    { destruct a; [|apply gen_ret in Hn; subst n; lia]. apply gen_lift in Hn. destruct (to_prior_prime_spec count Hc) as (q & Eq & _ & Hr & _).
      rewrite Eq in Hn. injection Hn as <-. lia. }
    change (generates (slice_polygon ctx a xs ys mn mx hmn hmx smn smx (py_take l n)) p) in H.
    apply slice_polygon_spec in H; [|exact Hsmn|intros x Hx; eapply Hd, py_take_in, Hx]. destruct H as (H1 & H2).
    split; [split; [exact H1|intros q Hq; apply (H2 q Hq)]|]. exists n. split; [exact N|].
    intros q Hq. exists (coordinate_along a q), (coordinate_along a q). destruct (H2 q Hq). repeat split; try assumption; apply Qcle_refl.
  Qed.

  (** ** The loop. *)
  Lemma ends_edges l s : In s l -> In (seg_start s) (ends l) /\ In (seg_end s) (ends l).
  Proof. intros H. unfold ends. split; apply in_flat_map; exists s; cbn; auto. Qed.
  Lemma mix_loop_spec drawers : forall l P S Q P' S' Q' b,
    (forall d count, In (d, count) drawers -> count_ok d count) ->
    (forall x, In x l -> drawable (scalars_of a xs ys) x) -> StronglySorted Qclt l ->
    (forall x, In x l -> (b <= x)%Qc) -> (forall s, In s S -> (coordinate_along a (seg_start s) <= b)%Qc /\ (coordinate_along a (seg_end s) <= b)%Qc) ->
    generates (mix_loop ctx xs ys mn mx hmn hmx smn smx a drawers l P S Q) (P', S', Q') ->
    exists items, Forall2 (fun dc it => drawn (fst dc) (snd dc) it) drawers items /\
      P' = P ++ flat_map the_points items /\ S' = S ++ flat_map the_segments items /\ Q' = Q ++ flat_map the_polygons items /\
      (forall it, In it items -> forall q, In q (item_points it) -> exists x, In x l /\ (x <= coordinate_along a q)%Qc) /\
      ForallOrdPairs (item_before a) items /\
      (forall d count rest, drawers = (d, count) :: rest -> d <> DrawPoints ->
       forall it, In it items -> is_points it -> forall q, In q (item_points it) -> exists x, In x (py_drop l 1) /\ (x <= coordinate_along a q)%Qc).
  Proof.
    induction drawers as [|(d, count) drawers IH]; intros l P S Q P' S' Q' b Hc Hd Hs Hb HS H.
    { cbn [mix_loop] in H. apply gen_ret in H. injection H as -> -> ->. exists []. cbn. rewrite !app_nil_r.
      repeat split; try constructor; try tauto. }
    assert (Hcount : count_ok d count) by (apply Hc; left; reflexivity).
    assert (H1c : (1 <= count)%Z) by (destruct d; cbn in Hcount; lia).
    cbn [mix_loop] in H. apply gen_bind in H. destruct H as (((P1 & S1) & Q1) & Hdraw & H).
    apply gen_bind in H. destruct H as (touch & Htouch & H).
    assert (exists it n, drawn d count it /\ (0 <= n <= count)%Z /\ spans (py_take l n) it /\
      P1 = P ++ the_points it /\ S1 = S ++ the_segments it /\ Q1 = Q ++ the_polygons it) as (it & n & Hit & Hn & Hsp & EP & ES & EQ).
    { destruct d; apply gen_bind in Hdraw; destruct Hdraw as (r & Hr & Hdraw); apply gen_ret in Hdraw; injection Hdraw as -> -> ->.
      - apply draw_points_spec in Hr; [|exact Hd]. exists (Points r), count. cbn [the_points the_segments the_polygons].
        rewrite !app_nil_r. split; [apply Hr|]. split; [lia|]. split; [apply Hr|]. auto.
      - apply draw_segments_spec in Hr; [|exact Hcount|exact Hd]. exists (Segments r), count. cbn [the_points the_segments the_polygons].
        rewrite !app_nil_r. split; [apply Hr|]. split; [lia|]. split; [apply Hr|]. auto.
      - apply draw_polygon_spec in Hr; [|exact Hcount|exact Hd]. destruct Hr as (Hr & n & Hn & Hsp). exists (Shape r), n.
        cbn [the_points the_segments the_polygons]. rewrite !app_nil_r. split; [exact Hr|]. split; [exact Hn|]. split; [exact Hsp|]. auto. }
    assert (Ht : (0 <= b2z touch <= 1)%Z) by apply b2z_range.
    destruct (cut_line_py l b count (b2z touch) Hs Hb H1c Ht) as (c & Hbc & C1 & C2 & C3).
    assert (Hitc : forall v, In v (item_points it) -> (coordinate_along a v <= c)%Qc).
    { intros v Hv. destruct (Hsp v Hv) as (lo & hi & _ & Hhi & _ & Hle). pose proof (C1 n hi Hn Hhi). qcl. }
    assert (HSc : forall s, In s S1 -> (coordinate_along a (seg_start s) <= c)%Qc /\ (coordinate_along a (seg_end s) <= c)%Qc).
    { intros s Hin. rewrite ES in Hin. apply in_app_or in Hin. destruct Hin as [Hin|Hin].
      - destruct (HS s Hin). split; qcl.
      - destruct it as [?|ss|?]; cbn [the_segments] in Hin; try contradiction. apply ends_edges in Hin. split; apply Hitc, Hin. }
    apply (IH _ _ _ _ _ _ _ c) in H; [|intros d' c' Hin; apply Hc; right; exact Hin|intros x Hx; eapply Hd, py_drop_in, Hx|
      apply skipn_sorted, Hs|exact C2|exact HSc].
    destruct H as (items & Hf2 & -> & -> & -> & Hlow & Hpairs & Hfirst).
    assert (Hrest : forall it', In it' items -> forall q, In q (item_points it') -> (c <= coordinate_along a q)%Qc).
    { intros it' Hi q Hq. destruct (Hlow it' Hi q Hq) as (x & Hx & Hle). pose proof (C2 x Hx). qcl. }
    exists (it :: items). split; [constructor; [exact Hit|exact Hf2]|].
    cbn [flat_map]. rewrite EP, ES, EQ, <- !app_assoc. split; [reflexivity|]. split; [reflexivity|]. split; [reflexivity|].
    split; [|split].
    - intros it' [<- |Hi] q Hq.
      + destruct (Hsp q Hq) as (lo & hi & Hlo & _ & Hle & _). exists lo. split; [eapply py_take_in, Hlo|exact Hle].
      + destruct (Hlow it' Hi q Hq) as (x & Hx & Hle). exists x. split; [eapply py_drop_in, Hx|exact Hle].
    - constructor; [|exact Hpairs]. apply Forall_forall. intros it' Hi. exists c. split; [exact Hitc|]. split; [apply Hrest, Hi|].
      destruct touch.
      + destruct drawers as [|(d' & count') drawers]; [apply gen_ret in Htouch; discriminate|].
        assert (Hd' : d' <> DrawPoints) by (intros ->; apply gen_ret in Htouch; discriminate).
        assert (Hdd : d <> DrawPoints).
        { intros ->. destruct d'; [congruence|apply gen_ret in Htouch; discriminate..]. }
        destruct it' as [ps'|ss'|p'] eqn:Eit.
        { left. intros v Hv. destruct (Hfirst d' count' drawers eq_refl Hd' _ Hi I v Hv) as (x & Hx & Hle).
          assert (c < x)%Qc; [|qcl]. eapply drop_above; [|exact C2|apply Z.le_refl|exact Hx]. apply skipn_sorted, Hs. }
        all: right; split; [destruct d, it; cbn in Hit; try contradiction; cbn; tauto|]; split; [cbn; tauto|].
        all: assert (Hbt : blocks_touch a (match d with DrawSegments => S1 | _ => contour_segments (border (last Q1 (Poly [] []))) end) = Ok false)
          by (destruct d; [congruence|..]; destruct d'; try congruence; apply gen_pmap in Htouch; destruct Htouch as (bl & Hbl & Ebl);
              apply gen_lift in Hbl; destruct bl; try discriminate; exact Hbl).
        all: intros s Hs'; eapply blocks_touch_false; [exact Hbt| |].
        all: destruct d, it as [ps|ss|p]; cbn in Hit; try contradiction; try congruence; cbn [item_edges the_segments the_polygons] in *.
        all: try (exact HSc); try (rewrite ES; apply in_or_app; right; exact Hs'); rewrite EQ, last_last; try exact Hs'.
        all: intros t Ht'; apply border_edge_vertices in Ht'; split; apply Hitc, Ht'.
      + left. intros v Hv. destruct (Hlow it' Hi v Hv) as (x & Hx & Hle). pose proof (C3 eq_refl x Hx). qcl.
    - intros d0 count0 rest0 E Hd0 it' [<- |Hi] Hpt q Hq.
      + injection E as <- <- <-. destruct d, it; cbn in Hit, Hpt; try contradiction; congruence.
      + injection E as <- <- <-. destruct (Hlow it' Hi q Hq) as (x & Hx & Hle). exists x. split; [|exact Hle].
        rewrite drop_pos in Hx by (destruct d; cbn in Hcount; lia). rewrite drop_pos by lia.
        eapply skipn_incl; [|exact Hx]. destruct d; cbn in Hcount; [congruence|lia|lia].
  Qed.
End Drawers.

(** ** Numbers of elements. *)
Definition wpoints (dc : drawer * Z) : Z := match fst dc with DrawPoints => snd dc | _ => 0 end%Z.
Definition wsegments (dc : drawer * Z) : Z := match fst dc with DrawSegments => snd dc / 2 | _ => 0 end%Z.
Definition wpolygons (dc : drawer * Z) : Z := match fst dc with DrawPolygon => 1 | _ => 0 end%Z.
Lemma lenZ_app {A} (l m : list A) : lenZ (l ++ m) = (lenZ l + lenZ m)%Z.
Proof. unfold lenZ. rewrite app_length. lia. Qed.
Lemma zsum_app l m : zsum (l ++ m) = (zsum l + zsum m)%Z.
Proof. induction l as [|x l IH]; [reflexivity|]. cbn [app zsum fold_right]. fold (zsum (l ++ m)) (zsum l). lia. Qed.
Lemma zsum_perm l m : Permutation l m -> zsum l = zsum m.
Proof.
  induction 1 as [|x l m _ IH|x y l|l m k _ IH1 _ IH2]; [reflexivity| | |congruence]; cbn [zsum fold_right].
  - fold (zsum l) (zsum m). lia.
  - fold (zsum l). lia.
Qed.
Lemma drawn_lengths ctx xs ys mn mx hmn hmx smn smx drawers items :
  Forall2 (fun dc it => drawn ctx xs ys mn mx hmn hmx smn smx (fst dc) (snd dc) it) drawers items ->
  lenZ (flat_map the_points items) = zsum (map wpoints drawers) /\
  lenZ (flat_map the_segments items) = zsum (map wsegments drawers) /\
  lenZ (flat_map the_polygons items) = zsum (map wpolygons drawers).
Proof.
  induction 1 as [|(d & count) it drawers items Hd _ (IH1 & IH2 & IH3)]; [auto|]. cbn [flat_map map zsum fold_right]. rewrite !lenZ_app.
  fold (zsum (map wpoints drawers)) (zsum (map wsegments drawers)) (zsum (map wpolygons drawers)). rewrite IH1, IH2, IH3.
  destruct d, it; cbn [drawn fst snd] in Hd; try contradiction; unfold wpoints, wsegments, wpolygons;
    cbn [fst snd the_points the_segments the_polygons].
  - destruct Hd as (_ & -> & _). unfold lenZ. cbn. lia.
  - destruct Hd as (-> & _). unfold lenZ. cbn [length]. lia.
  - unfold lenZ. cbn. lia.
Qed.
Lemma weights pc sizes qc : let drawers := map (pair DrawPoints) pc ++ map (pair DrawSegments) (map (Z.mul 2) sizes) ++ map (pair DrawPolygon) qc in
  zsum (map wpoints drawers) = zsum pc /\ zsum (map wsegments drawers) = zsum sizes /\ zsum (map wpolygons drawers) = lenZ qc.
Proof.
  cbv zeta. rewrite !map_app, !zsum_app.
  assert (Z0 : forall (f : drawer * Z -> Z) d l, (forall x, f (d, x) = 0%Z) -> zsum (map f (map (pair d) l)) = 0%Z).
  { intros f d l Hf. induction l as [|x l IH]; [reflexivity|]. cbn [map zsum fold_right].
    fold (zsum (map f (map (pair d) l))). rewrite Hf, IH. reflexivity. }
  rewrite (Z0 wpoints DrawSegments), (Z0 wpoints DrawPolygon), (Z0 wsegments DrawPoints), (Z0 wsegments DrawPolygon),
    (Z0 wpolygons DrawPoints), (Z0 wpolygons DrawSegments) by reflexivity.
  split; [|split].
  - rewrite Z.add_0_r. induction pc as [|x l IH]; [reflexivity|]. cbn [map zsum fold_right].
    fold (zsum (map wpoints (map (pair DrawPoints) l))) (zsum l). change (wpoints (DrawPoints, x)) with x. lia.
  - rewrite Z.add_0_r. cbn [Z.add]. induction sizes as [|x l IH]; [reflexivity|]. cbn [map zsum fold_right].
    fold (zsum (map wsegments (map (pair DrawSegments) (map (Z.mul 2) l)))) (zsum l).
    change (wsegments (DrawSegments, (2 * x)%Z)) with ((2 * x) / 2)%Z. rewrite (Z.mul_comm 2 x), Z.div_mul by lia. lia.
  - cbn [Z.add]. induction qc as [|x l IH]; [reflexivity|]. cbn [map zsum fold_right].
    fold (zsum (map wpolygons (map (pair DrawPolygon) l))). change (wpolygons (DrawPolygon, x)) with 1%Z.
    unfold lenZ in *. cbn [length]. lia.
Qed.

(** ** Separation of what is drawn. *)
Lemma before_edges a i j s t : item_before a i j -> In s (item_edges i) ->
  In (seg_start t) (item_points j) -> In (seg_end t) (item_points j) -> ~ interiors_meet s t.
Proof.
  intros (c & Hi & Hj & H) Hs T1 T2.
  assert (In (seg_start s) (item_points i) /\ In (seg_end s) (item_points i)) as (S1 & S2).
  { destruct i; cbn [item_edges item_points] in *; [destruct Hs|apply ends_edges, Hs|apply border_edge_vertices in Hs; tauto]. }
  destruct s as [s e], t as [s' e']. cbn [seg_start seg_end] in *. destruct H as [H|(_ & _ & H)].
  - eapply sides_apart_lt; [apply Hi, S1|apply Hi, S2|apply H, T1|apply H, T2].
  - eapply sides_apart; [apply Hi, S1|apply Hi, S2|apply Hj, T1|apply Hj, T2|]. apply (H (Seg s e) Hs).
Qed.
Lemma before_split a i j : item_before a i j -> split_by_line (item_points i) (item_points j).
Proof. intros (c & Hi & Hj & _). exists a, c. auto. Qed.
Lemma before_strict a i j : item_before a i j -> is_points i \/ is_points j -> split_strictly (item_points i) (item_points j).
Proof. intros (c & Hi & Hj & H) N. exists a, c. split; [exact Hi|]. destruct H as [H|(N1 & N2 & _)]; [exact H|tauto]. Qed.
Lemma strict_incl vs ws vs' ws' : split_strictly vs ws -> incl vs' vs -> incl ws' ws -> split_strictly vs' ws'.
Proof. intros (a & c & H1 & H2) I1 I2. exists a, c. auto. Qed.
Lemma split_incl vs ws vs' ws' : split_by_line vs ws -> incl vs' vs -> incl ws' ws -> split_by_line vs' ws'.
Proof. intros (a & c & H1 & H2) I1 I2. exists a, c. auto. Qed.
Lemma aside_segment p s e vs : aside p vs -> In s vs -> In e vs -> ~ on_segment p s e.
Proof.
  intros [(a & c & H1 & H2)|(a & c & H1 & H2)] Hs He H.
  - pose proof (on_above_lt a _ _ _ c H (H2 s Hs) (H2 e He)). specialize (H1 p (or_introl eq_refl)). qcl.
  - pose proof (on_below a _ _ _ c H (H1 s Hs) (H1 e He)). specialize (H2 p (or_introl eq_refl)). qcl.
Qed.

Definition mix_separated ctx xs ys (P : list point) (S : list segment) (Q : list polygon) : Prop :=
  NoDup P /\
  (forall p s, In p P -> In s S -> aside p [seg_start s; seg_end s]) /\
  (forall p q, In p P -> In q Q -> aside p (vertices q)) /\
  (exists groups, S = concat groups /\ (forall g, In g groups -> segment_draw ctx xs ys g) /\
     ForallOrdPairs (fun g g' => forall s t, In s g -> In t g' -> ~ interiors_meet s t) groups) /\
  (forall s q, In s S -> In q Q ->
     (split_by_line [seg_start s; seg_end s] (vertices q) \/ split_by_line (vertices q) [seg_start s; seg_end s]) /\
     forall u v, contour_edge (border q) u v -> ~ interiors_meet s (Seg u v)) /\
  ForallOrdPairs apart_from Q.

Lemma pairs_flat_map {A B} (R : A -> A -> Prop) (R' : B -> B -> Prop) (f : A -> list B) l :
  (forall x, In x l -> ForallOrdPairs R' (f x)) ->
  (forall x y u v, R x y -> In u (f x) -> In v (f y) -> R' u v) ->
  ForallOrdPairs R l -> ForallOrdPairs R' (flat_map f l).
Proof.
  intros H1 H2 H. induction H as [|x l Hf Hr IH]; [constructor|]. cbn [flat_map].
  assert (I1 : ForallOrdPairs R' (flat_map f l)) by (apply IH; intros y Hy; apply H1; right; exact Hy).
  assert (I2 : ForallOrdPairs R' (f x)) by (apply H1; left; reflexivity).
  assert (I3 : forall u v, In u (f x) -> In v (flat_map f l) -> R' u v).
  { intros u v Hu Hv. apply in_flat_map in Hv. destruct Hv as (y & Hy & Hv). rewrite Forall_forall in Hf. eapply H2; [apply Hf, Hy|eassumption..]. }
  clear - I1 I2 I3. revert I2 I3. generalize (f x). intros m. induction m as [|u m IH]; intros I2 I3; [exact I1|].
  inversion I2; subst. cbn. constructor.
  - apply Forall_forall. intros v Hv. apply in_app_or in Hv. destruct Hv as [Hv|Hv]; [rewrite Forall_forall in *; auto|].
    apply I3; [left; reflexivity|exact Hv].
  - apply IH; [assumption|]. intros w v Hw. apply I3. right. exact Hw.
Qed.
Lemma pairs_nodup {A} (l : list A) : ForallOrdPairs (fun x y => x <> y) l -> NoDup l.
Proof.
  induction 1 as [|x l Hf _ IH]; constructor; [|exact IH]. intros Hin. rewrite Forall_forall in Hf. apply (Hf x Hin). reflexivity.
Qed.
Lemma nodup_pairs {A} (l : list A) : NoDup l -> ForallOrdPairs (fun x y => x <> y) l.
Proof.
  induction 1 as [|x l Hn _ IH]; constructor; [|exact IH]. apply Forall_forall. intros y Hy ->. contradiction.
Qed.
Lemma drawn_in ctx xs ys mn mx hmn hmx smn smx drawers items it :
  Forall2 (fun dc it => drawn ctx xs ys mn mx hmn hmx smn smx (fst dc) (snd dc) it) drawers items -> In it items ->
  exists d count, drawn ctx xs ys mn mx hmn hmx smn smx d count it.
Proof.
  induction 1 as [|dc it' drawers items Hd _ IH]; [intros []|]. intros [<- |Hi]; [exists (fst dc), (snd dc); exact Hd|apply IH, Hi].
Qed.
Lemma items_separated a ctx xs ys mn mx hmn hmx smn smx drawers items :
  Forall2 (fun dc it => drawn ctx xs ys mn mx hmn hmx smn smx (fst dc) (snd dc) it) drawers items ->
  ForallOrdPairs (item_before a) items ->
  mix_separated ctx xs ys (flat_map the_points items) (flat_map the_segments items) (flat_map the_polygons items).
Proof.
  intros Hf Hp.
  assert (Pair : forall i j, In i items -> In j items -> i <> j -> item_before a i j \/ item_before a j i).
  { intros i j Hi Hj N. destruct (ForallOrdPairs_In Hp i j Hi Hj) as [E|E]; [contradiction|exact E]. }
  assert (PP : forall p, In p (flat_map the_points items) -> exists l, In (Points l) items /\ In p l).
  { intros p H. apply in_flat_map in H. destruct H as ([l|l|q] & Hi & H); cbn in H; try contradiction. exists l. auto. }
  assert (SS : forall s, In s (flat_map the_segments items) -> exists l, In (Segments l) items /\ In s l).
  { intros p H. apply in_flat_map in H. destruct H as ([l|l|q] & Hi & H); cbn in H; try contradiction. exists l. auto. }
  assert (QQ : forall q, In q (flat_map the_polygons items) -> In (Shape q) items).
  { intros p H. apply in_flat_map in H. destruct H as ([l|l|q] & Hi & H); cbn in H; try contradiction. destruct H as [<- |[]]. exact Hi. }
  assert (Aside : forall l p it vs, In (Points l) items -> In p l -> In it items -> ~ is_points it -> incl vs (item_points it) -> aside p vs).
  { intros l p it vs Hl Hin Hi Ni Hv.
    destruct (Pair (Points l) it Hl Hi) as [B|B]; [intros <-; apply Ni; exact I|left|right].
    - eapply strict_incl; [eapply before_strict; [exact B|left; exact I]| |exact Hv]. intros ? [<- |[]]. exact Hin.
    - eapply strict_incl; [eapply before_strict; [exact B|right; exact I]|exact Hv|]. intros ? [<- |[]]. exact Hin. }
  split; [|split; [|split; [|split; [|split]]]].
  - apply pairs_nodup. eapply pairs_flat_map; [| |exact Hp].
    + intros it Hi. apply nodup_pairs. destruct (drawn_in _ _ _ _ _ _ _ _ _ _ _ _ Hf Hi) as (d & count & Hd).
      destruct it as [l|l|q]; cbn [the_points]; [|constructor..]. destruct d; cbn in Hd; try contradiction. apply Hd.
    + intros i j u v B Hu Hv. destruct i as [l|?|?], j as [l'|?|?]; cbn in Hu, Hv; try contradiction.
      destruct (before_strict _ _ _ B (or_introl I)) as (ax & c & H1 & H2). intros ->. specialize (H1 v Hu). specialize (H2 v Hv). qcl.
  - intros p s Hin Hs. destruct (PP p Hin) as (l & Hl & Hpl). destruct (SS s Hs) as (m & Hm & Hsm).
    eapply (Aside l p (Segments m)); [exact Hl|exact Hpl|exact Hm|cbn; tauto|]. cbn [item_points]. apply ends_edges in Hsm.
    intros q [<- |[<- |[]]]; apply Hsm.
  - intros p q Hin Hq. destruct (PP p Hin) as (l & Hl & Hpl). apply QQ in Hq.
    eapply (Aside l p (Shape q)); [exact Hl|exact Hpl|exact Hq|cbn; tauto|]. cbn [item_points]. apply incl_refl.
  - exists (map the_segments items). split; [apply flat_map_concat_map|]. split.
    + intros g Hg. apply in_map_iff in Hg. destruct Hg as (it & <- & Hi).
      destruct (drawn_in _ _ _ _ _ _ _ _ _ _ _ _ Hf Hi) as (d & count & Hd).
      destruct it as [l|l|q]; cbn [the_segments]; try (left; reflexivity).
      destruct d; cbn in Hd; try contradiction. apply Hd.
    + clear - Hp. induction Hp as [|i items Hf Hr IH]; constructor; [|exact IH]. apply Forall_forall. intros g Hg.
      change (In g (map the_segments items)) in Hg.
      apply in_map_iff in Hg. destruct Hg as (j & <- & Hj). rewrite Forall_forall in Hf. specialize (Hf j Hj).
      intros s t Hs Ht. destruct i as [?|l|?], j as [?|l'|?]; cbn in Hs, Ht; try contradiction.
      eapply before_edges; [exact Hf|exact Hs|apply ends_edges, Ht|apply ends_edges, Ht].
  - intros s q Hs Hq. destruct (SS s Hs) as (m & Hm & Hsm). apply QQ in Hq.
    assert (Hends : incl [seg_start s; seg_end s] (item_points (Segments m))).
    { apply ends_edges in Hsm. intros r [<- |[<- |[]]]; apply Hsm. }
    destruct (Pair (Segments m) (Shape q) Hm Hq ltac:(discriminate)) as [B|B].
    + split; [left; eapply split_incl; [apply (before_split _ _ _ B)|exact Hends|apply incl_refl]|].
      intros u v E. eapply before_edges; [exact B|exact Hsm|..]; apply (contour_vertices q (border q) u v (or_introl eq_refl) E).
    + split; [right; eapply split_incl; [apply (before_split _ _ _ B)|apply incl_refl|exact Hends]|].
      intros u v E K. apply interiors_meet_sym in K. revert K. eapply before_edges; [exact B|apply segments_edge, E|..]; apply Hends; cbn; auto.
  - eapply pairs_flat_map; [| |exact Hp].
    + intros it Hi. destruct it; cbn; repeat constructor.
    + intros i j u v B Hu Hv. destruct i as [?|?|p], j as [?|?|q]; cbn in Hu, Hv; try contradiction.
      destruct Hu as [<- |[]], Hv as [<- |[]]. split; [apply (before_split _ _ _ B)|].
      intros vs Hvs s e s' e' E E'. apply (contour_vertices _ _ _ _ Hvs) in E'.
      eapply before_edges; [exact B|apply segments_edge, E|..]; apply E'.
Qed.

(** ** The strategy. *)
Lemma elements_unpack {A} (l : list A) : elements (unpack l) = l.
Proof. destruct l as [|x [|y l]]; reflexivity. Qed.
Lemma elements_unpack_points l : elements (unpack_points l) = l.
Proof. destruct l; reflexivity. Qed.
Definition mix_elements (xs ys : scalars) mn mx hmn hmx smn smx (P : list point) (S : list segment) (Q : list polygon) : Prop :=
  (forall p, In p P -> drawable_point xs (Some ys) p) /\
  (forall s, In s S -> seg_start s <> seg_end s /\ range_point xs ys (seg_start s) /\ range_point xs ys (seg_end s)) /\
  (forall q, In q Q -> polygon_sizes q mn mx hmn hmx smn smx /\ (forall v, In v (vertices q) -> drawable_point xs (Some ys) v)).
Lemma mix_strategy_spec ctx xs ys pmn pmx gmn gmx qmn qmx mn mx hmn hmx smn smx m :
  (forall l, is_hull l (ctx_hull ctx l)) -> (1 <= smn)%Z -> (0 <= pmn)%Z -> (forall m, pmx = Some m -> (pmn <= m)%Z) -> (0 <= qmn)%Z ->
  generates (to_mix_strategy ctx xs ys pmn pmx gmn gmx qmn qmx mn mx hmn hmx smn smx) m ->
  exists P S Q, m = Mix (unpack_points P) (unpack S) (unpack Q) /\
    size_ok (lenZ P) pmn pmx /\ size_ok (lenZ S) gmn gmx /\ size_ok (lenZ Q) qmn qmx /\
    mix_elements xs (ordinates xs ys) mn mx hmn hmx smn smx P S Q /\ mix_separated ctx xs (ordinates xs ys) P S Q.
Proof.
  intros Hh Hsm Hp0 Hp Hq H. unfold to_mix_strategy in H. change (or_else ys xs) with (ordinates xs ys) in H.
  apply gen_bind in H. destruct H as (mpc & Hm & H). apply gen_lift in Hm. apply to_next_prime_ge in Hm. destruct Hm as (_ & _ & Hm & _).
  set (zs := ordinates xs ys) in *. clearbody zs. clear ys. cbv zeta in H.
  assert (exists a l, NoDup l /\ (forall x, In x l -> drawable (scalars_of a xs zs) x) /\
    generates (coordinates_to_mix ctx xs zs pmn pmx gmn gmx qmn qmx mn mx hmn hmx smn smx mpc a l) m) as (a & l & Nd & Hd & Hg).
  { apply gen_alt in H. destruct H as [H|H]; apply gen_bind in H; destruct H as (l & Hl & H);
      apply gen_unique_scalars in Hl; destruct Hl as (Nd & _ & _ & Hd); [exists AxisX, l|exists AxisY, l]; auto. }
  clear H. unfold coordinates_to_mix in Hg. apply gen_bind in Hg. destruct Hg as (((pc & sc) & qc) & Hc & H).
  apply point_counts_spec in Hc; [|assumption..]. destruct Hc as (sizes & -> & C1 & C2 & C3 & C4 & C5 & C6).
  apply gen_bind in H. destruct H as (drawers & Hdr & H). apply gen_permutations in Hdr.
  apply gen_bind in H. destruct H as (((P & S) & Q) & Hl & H). apply gen_ret in H. subst m. exists P, S, Q. split; [reflexivity|].
  set (l' := isort qleb l) in *. assert (Hs : StronglySorted Qclt l') by (apply isort_strict, Nd).
  assert (exists b, forall x, In x l' -> (b <= x)%Qc) as (b & Hlow).
  { destruct l' as [|x l0]; [exists (Q2Qc 0); intros ? []|]. exists x. inversion Hs as [|? ? _ Hf']; subst.
    rewrite Forall_forall in Hf'. intros y [<- |Hy]; [apply Qcle_refl|apply Qclt_le_weak, Hf', Hy]. }
  apply (mix_loop_spec ctx a xs zs mn mx hmn hmx smn smx Hsm Hh drawers l' [] [] [] P S Q b) in Hl;
    [| |intros x Hx; apply Hd; eapply Permutation_in; [symmetry; apply isort_perm|exact Hx]|exact Hs|exact Hlow|intros s []].
  - destruct Hl as (items & Hf2 & -> & -> & -> & _ & Hpairs & _). cbn [app].
    pose proof (drawn_lengths _ _ _ _ _ _ _ _ _ _ _ Hf2) as (L1 & L2 & L3).
    pose proof (weights pc sizes qc) as (W1 & W2 & W3). cbv zeta in W1, W2, W3.
    rewrite L1, L2, L3. rewrite (zsum_perm _ _ (Permutation_map wpoints (Permutation_sym Hdr))),
      (zsum_perm _ _ (Permutation_map wsegments (Permutation_sym Hdr))), (zsum_perm _ _ (Permutation_map wpolygons (Permutation_sym Hdr))), W1, W2, W3.
    split; [exact C4|]. split; [exact C5|]. split; [apply C6, Hq|]. split; [|eapply items_separated; eassumption].
    split; [|split].
    + intros p Hin. apply in_flat_map in Hin. destruct Hin as (it & Hi & Hin). destruct (drawn_in _ _ _ _ _ _ _ _ _ _ _ _ Hf2 Hi) as (d & count & Hdd).
      destruct it, d; cbn in Hin, Hdd; try contradiction. apply Hdd, Hin.
    + intros p Hin. apply in_flat_map in Hin. destruct Hin as (it & Hi & Hin). destruct (drawn_in _ _ _ _ _ _ _ _ _ _ _ _ Hf2 Hi) as (d & count & Hdd).
      destruct it, d; cbn in Hin, Hdd; try contradiction. apply Hdd, Hin.
    + intros p Hin. apply in_flat_map in Hin. destruct Hin as (it & Hi & Hin). destruct (drawn_in _ _ _ _ _ _ _ _ _ _ _ _ Hf2 Hi) as (d & count & Hdd).
      destruct it, d; cbn in Hin, Hdd; try contradiction. destruct Hin as [<- |[]]. exact Hdd.
  - intros d count Hin. apply (Permutation_in _ (Permutation_sym Hdr)) in Hin. apply in_app_or in Hin. destruct Hin as [Hin|Hin].
    { apply in_map_iff in Hin. destruct Hin as (x & E & Hx). injection E as <- <-. apply C1, Hx. }
    apply in_app_or in Hin. destruct Hin as [Hin|Hin].
    + apply in_map_iff in Hin. destruct Hin as (x & E & Hx). injection E as <- <-. apply in_map_iff in Hx. destruct Hx as (y & <- & Hy).
      specialize (C2 y Hy). cbn [count_ok]. lia.
    + apply in_map_iff in Hin. destruct Hin as (x & E & Hx). injection E as <- <-. apply C3, Hx.
Qed.
