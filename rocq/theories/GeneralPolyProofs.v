(** Multicontours, polygons and multipolygons made of points in general position. *)
From Coq Require Import List Lia Znumtheory Permutation Sorted.
From Verif Require Import Base Prog Geometry Ctx Utils Contracts Spec RangeSpec WindSpec GeneralSpec HullSpec Factories Triangulation Strategies Planar ProgProofs
  LoopProofs ListProofs PrimeProofs GridProofs PlanarProofs QcTac QcFast GeomProofs HullProofs RangeProofs RangeApiProofs ContourProofs FaultProofs FuelProofs
  SegmentProofs EdgeProofs SeparationProofs HelperProofs CarveProofs MultiProofs SequenceProofs CompressProofs CyclicProofs BorderProofs CycEdge
  DelTotal DelCyc DelHeap DelHull DelWind DelCarve DelBorder DelRim Jordan DelPoly DelPolyTotal DelContour PolyFaultProofs GeneralProofs.
Import List ListNotations.
Open Scope Z_scope.

(** ** The sizes that are drawn do not exceed the number of points. *)
Lemma total_app l m : total (l ++ m) = total l + total m.
Proof. unfold total. induction l as [|x l IH]; cbn [app fold_right]; [lia|]. rewrite IH. lia. Qed.
Lemma total_perm l m : Permutation l m -> total l = total m.
Proof. unfold total. induction 1; cbn [fold_right]; lia. Qed.
Lemma total_set_nth : forall l i v, (i < length l)%nat -> total (set_nth i v l) = total l - nth i l 0 + v.
Proof.
  induction l as [|x l IH]; intros i v H; [cbn in H; lia|]. destruct i as [|i]; cbn [set_nth nth total fold_right].
  - lia.
  - fold (total (set_nth i v l)). fold (total l). rewrite IH by (cbn in H; lia). lia.
Qed.
Lemma total_spread n : forall i l, (i < length l)%nat -> total (Strategies.spread n i l) = total l + Z.of_nat n.
Proof.
  induction n as [|n IH]; intros i l H; [cbn [Strategies.spread]; lia|]. cbn [Strategies.spread]. rewrite IH.
  - rewrite total_set_nth by exact H. lia.
  - rewrite MultiProofs.set_nth_length. apply Nat.mod_upper_bound. lia.
Qed.
Lemma total_repeat m n : total (repeat m n) = Z.of_nat n * m.
Proof. unfold total. induction n as [|n IH]; [reflexivity|]. cbn [repeat fold_right]. rewrite IH. lia. Qed.
Lemma spread_total size m limit l : 0 <= size -> size * m <= limit -> spread_sizes size m limit = Ok l -> total l <= limit.
Proof.
  unfold spread_sizes. intros Hs Hm H. destruct (_ && _) eqn:E; [discriminate|]. injection H as <-.
  destruct (Z.to_nat (limit - size * m)) as [|n] eqn:En.
  - cbn [Strategies.spread]. rewrite total_repeat, Z2Nat.id by lia. lia.
  - assert (0 < size).
    { apply andb_false_iff in E. destruct E as [E|E]; [apply Z.leb_gt in E; exact E|cbn in E; discriminate]. }
    rewrite total_spread by (rewrite repeat_length; lia). rewrite total_repeat, Z2Nat.id by lia. lia.
Qed.
Lemma drawn_total m : forall l r, generates (sequence (map (fun x => integers m (Some x)) l)) r -> total r <= total l.
Proof.
  intros l r H. apply gen_sequence in H. revert r H. induction l as [|x l IH]; intros r H; cbn [map] in H; inversion H as [|? y ? r' H1 H2]; subst; [lia|].
  cbn [total fold_right]. fold (total l). fold (total r'). specialize (IH _ H2). change (generates (integers m (Some x)) y) in H1. apply gen_integers in H1. destruct H1 as (_ & H1). lia.
Qed.
Lemma sizes_total size m limit r : 0 <= size -> size * m <= limit -> generates (to_sizes_ size m limit) r -> total r <= limit.
Proof.
  intros Hs Hm H. unfold to_sizes_ in H. apply gen_bind in H. destruct H as (mx & Hmx & H). apply gen_lift in Hmx.
  apply gen_bind in H. destruct H as (l & Hl & H). apply gen_permutations in H. rewrite <- (total_perm _ _ H).
  apply drawn_total in Hl. apply spread_total in Hmx; lia.
Qed.
Lemma hole_sizes_total points hmn hmx smn r : 1 <= smn -> generates (to_hole_sizes points hmn hmx smn) r ->
  total r <= Z.max 0 (lenZ points - lenZ (to_max_convex_hull points)).
Proof.
  intros Hs H. unfold to_hole_sizes in H. cbv zeta in H. set (inner := lenZ points - lenZ (to_max_convex_hull points)) in *.
  destruct (Z.leb_spec smn inner); [|apply gen_ret in H; subst r; cbn; lia]. apply gen_bind in H. destruct H as (n & Hn & H).
  apply gen_integers in Hn. destruct Hn as (Hn1 & Hn2). unfold to_hole_sizes_ in H. destruct (Z.eqb_spec n 0); [apply gen_ret in H; subst r; cbn; lia|].
  apply gen_bind in H. destruct H as (mx & Hmx & H). apply gen_lift in Hmx. apply gen_bind in H. destruct H as (l & Hl & H).
  apply gen_permutations in Hl. apply drawn_total in H. rewrite <- (total_perm _ _ Hl) in H.
  assert (0 <= n).
  { destruct (Z_le_gt_dec 0 n) as [K|K]; [exact K|]. exfalso. unfold spread_sizes in Hmx.
    replace (n <=? 0) with true in Hmx by (symmetry; apply Z.leb_le; lia). replace (0 <? Z.to_nat (inner - n * smn))%nat with true in Hmx by (symmetry; apply Nat.ltb_lt; nia).
    discriminate. }
  assert (n * smn <= inner).
  { assert (n <= inner / smn) by (unfold min_opt in Hn2; destruct hmx; lia). pose proof (Z.mul_div_le inner smn ltac:(lia)). nia. }
  apply spread_total in Hmx; lia.
Qed.
Lemma only_sequence {A} (E : exn -> Prop) (ps : list (prog A)) : (forall p, In p ps -> only E p) -> only E (sequence ps).
Proof. intros H e K. apply raise_sequence in K. destruct K as (p & Hp & K). exact (H p Hp e K). Qed.
Lemma only_upto (E : exn -> Prop) lo hi : lo <= hi -> only E (integers lo (Some hi)).
Proof. intros H e K. apply raise_integers in K. destruct K as (_ & h & Eh & K). injection Eh as <-. lia. Qed.
Lemma only_spread (E : exn -> Prop) size m limit : 1 <= size -> only E (lift (spread_sizes size m limit)).
Proof.
  intros Hs. apply only_lift. intros e He. exfalso. unfold spread_sizes in He. replace (size <=? 0) with false in He by (symmetry; apply Z.leb_gt; lia). discriminate.
Qed.
Lemma only_drawn (E : exn -> Prop) m l : (forall x, In x l -> m <= x) -> only E (sequence (map (fun x => integers m (Some x)) l)).
Proof. intros H. apply only_sequence. intros p Hp. apply in_map_iff in Hp. destruct Hp as (x & <- & Hx). apply only_upto, H, Hx. Qed.
Lemma only_sizes (E : exn -> Prop) size m limit : 1 <= size -> only E (to_sizes_ size m limit).
Proof.
  intros Hs. unfold to_sizes_. apply only_bind; [apply only_spread, Hs|]. intros l Hl. apply gen_lift, spread_sizes_spec in Hl.
  apply only_bind; [apply only_drawn, Hl|]. intros r _. apply only_permutations.
Qed.
Lemma only_hole_sizes (E : exn -> Prop) points hmn hmx smn : 0 <= hmn -> (forall h, hmx = Some h -> hmn <= h) -> 1 <= smn ->
  hmn * smn <= lenZ points - lenZ (to_max_convex_hull points) -> only E (to_hole_sizes points hmn hmx smn).
Proof.
  intros Hh Hx Hs Hi. unfold to_hole_sizes. cbv zeta. set (inner := lenZ points - lenZ (to_max_convex_hull points)) in *.
  destruct (_ <=? _); [|apply only_ret]. apply only_bind.
  - apply only_upto. assert (hmn <= inner / smn) by (apply Z.div_le_lower_bound; lia). unfold min_opt. destruct hmx as [h|]; [specialize (Hx h eq_refl); lia|assumption].
  - intros n Hn. apply gen_integers in Hn. destruct Hn as (Hn & _). unfold to_hole_sizes_. destruct (Z.eqb_spec n 0); [apply only_ret|].
    apply only_bind; [apply only_spread; lia|]. intros l Hl. apply gen_lift, spread_sizes_spec in Hl. apply only_bind; [apply only_permutations|].
    intros r Hr. apply gen_permutations in Hr. apply only_drawn. intros x Ix. apply Hl. eapply Permutation_in; [symmetry; exact Hr|exact Ix].
Qed.

(** ** The number of inner points. *)
Lemma filter_split {A} (f : A -> bool) l : (length (filter f l) + length (filter (fun x => negb (f x)) l) = length l)%nat.
Proof. induction l as [|x l IH]; [reflexivity|]. cbn [filter]. destruct (f x); cbn [negb length]; lia. Qed.
Lemma points_set_length l : NoDup l -> length (points_set l) = length l.
Proof.
  intros N. apply Nat.le_antisymm; apply NoDup_incl_length; [apply points_set_nodup| |exact N|]; intros p Hp; apply points_set_in; assumption.
Qed.
Section P.
Context (ctx : context) (C : contracts ctx).
Lemma inner_points points t h es : NoDup points -> DelPoly.spread points -> (2 <= length points)%nat -> delaunay ctx points = Ok (t, h) ->
  to_boundary_edges (ctx_fuel ctx) h t = Ok es ->
  lenZ points - lenZ (to_max_convex_hull points)
  <= lenZ (filter (fun p => negb (mem_point p (points_set (map (QuadEdge.start h) es)))) (points_set points)).
Proof.
  intros N Sp L2 H1 H2. set (bp := points_set (map (QuadEdge.start h) es)).
  pose proof (filter_split (fun p => mem_point p bp) (points_set points)) as E. rewrite points_set_length in E by exact N.
  assert (K : (length (filter (fun p => mem_point p bp) (points_set points)) <= length (to_max_convex_hull points))%nat).
  { apply NoDup_incl_length; [apply NoDup_filter, points_set_nodup|]. intros q Hq. apply filter_In in Hq. destruct Hq as (Iq & Mq).
    apply (proj1 (points_set_in _ _)) in Iq. apply mem_point_in in Mq. apply (proj1 (points_set_in _ _)) in Mq. apply in_map_iff in Mq. destruct Mq as (e & <- & He).
    apply max_hull_boundary; [exact N|exact L2|].
    destruct (hull_state ctx points N (proj1 C _) t h Sp H1) as (ep & P & m & _ & _ & R & _ & K & Rl & _).
    destruct (boundary_bd h P _ m _ t _ es R K Rl H2) as (_ & All & _). destruct (All e He) as (Pe & (Me & Side)).
    apply (edge_supports points (QuadEdge.start h e) (QuadEdge.end_ h e)); [exact Iq|left; reflexivity| |].
    - intros Eq. apply (DelMap.l_ne _ _ (rp_laws _ _ _ _ R) _ _ Me). symmetry. exact Eq.
    - intros q Iq'. apply Side. apply isort_in. exact Iq'. }
  unfold lenZ. lia.
Qed.
Lemma general_spread' points : (3 <= length points)%nat -> NoDup points -> no_three points -> DelPoly.spread points.
Proof.
  intros L3 N G. destruct points as [|a [|b [|c l]]]; cbn in L3; try lia. apply not_flat_spread. exists a, b, c.
  inversion N as [|? ? Na N1]; subst. inversion N1 as [|? ? Nb N2]; subst. cbn in Na, Nb.
  split; [left; reflexivity|]. split; [right; left; reflexivity|]. split; [right; right; left; reflexivity|].
  apply G; cbn; auto.
Qed.
Lemma to_polygon_ok points size sizes choices : NoDup points -> (3 <= length points)%nat -> no_three points -> enough_fuel ctx (length points) ->
  (forall s, In s sizes -> 3 <= s) -> total sizes <= Z.max 0 (lenZ points - lenZ (to_max_convex_hull points)) ->
  exists p, to_polygon ctx points size sizes choices = Ok p /\ Forall clockwise (holes p) /\ length (holes p) = Nat.min (length sizes) (length choices).
Proof.
  intros N L3 G Fu Hs Ht. pose proof (general_spread' points L3 N G) as Sp.
  destruct (to_polygon_done ctx points N (proj1 C _) (proj2 C) Fu size sizes choices) as (t & h & es & H1 & H2 & H3).
  - intros s Is. specialize (Hs s Is). lia.
  - exact Sp.
  - lia.
  - cbv zeta in H3. pose proof (inner_points points t h es N Sp ltac:(lia) H1 H2) as Li.
    set (bp := points_set (map (QuadEdge.start h) es)) in *. set (inner := filter (fun p => negb (mem_point p bp)) (points_set points)) in *.
    assert (Ii : incl inner points) by (intros q Hq; apply filter_In in Hq; apply points_set_in, Hq).
    assert (Ni : NoDup inner) by (apply NoDup_filter, points_set_nodup).
    destruct (hole_loop_ok ctx (proj1 C) sizes choices None inner [] bp) as (new & bp' & E & F & Ln).
    + exact Hs.
    + unfold lenZ in *. lia.
    + exact Ni.
    + apply (no_three_incl points); assumption.
    + apply (enough_mono ctx (length points)); [|exact Fu]. apply NoDup_incl_length; assumption.
    + discriminate.
    + constructor.
    + constructor.
    + constructor.
    + specialize (H3 _ E). destruct H3 as (p & Hp & Eh). exists p. split; [exact Hp|]. rewrite Eh. auto.
Qed.
End P.

(** ** Without a bound on the number of iterations. *)
Section U.
Context (ctx : context) (C : contracts ctx).
Definition more (points : list point) : positive := Pos.max (ctx_fuel ctx) (Pos.of_nat (1 + (length points * length points + 4 * length points))).
Lemma more_fuel points : enough_fuel (with_fuel ctx (more points)) (length points).
Proof. unfold enough_fuel. cbn [with_fuel ctx_fuel]. unfold more. rewrite Pos2Nat.inj_max. rewrite Nat2Pos.id by lia. lia. Qed.
Lemma more_le points : (ctx_fuel ctx <= more points)%positive.
Proof. unfold more. lia. Qed.
Lemma sequence_always points size : NoDup points -> (3 <= length points)%nat -> no_three points ->
  match to_vertex_sequence ctx points size with
  | Ok vs => counterclockwise vs
  | Raise e => e = OutOfFuel
  end.
Proof.
  intros N L3 G. destruct (carve_ok (with_fuel ctx (more points)) (proj1 C) points size N L3 G (more_fuel points)) as (vs & H & Hc & _).
  destruct (upto_sequence ctx (more points) (more_le points) points size) as [U|U]; [rewrite U; reflexivity|rewrite U, H; exact Hc].
Qed.
Lemma multicontour_always points sizes choices : NoDup points -> no_three points -> (forall s, In s sizes -> 3 <= s) -> total sizes <= lenZ points ->
  match to_multicontour ctx points sizes choices with
  | Ok mc => Forall counterclockwise mc /\ length mc = Nat.min (length sizes) (length choices)
  | Raise e => e = OutOfFuel
  end.
Proof.
  intros N G Hs Ht. unfold to_multicontour.
  destruct (multicontour_loop_ok (with_fuel ctx (more points)) (proj1 C) sizes choices None points [] Hs Ht N G (more_fuel points)) as (mc & H & F & L).
  destruct (upto_multicontour ctx (more points) (more_le points) sizes choices None points []) as [U|U]; [rewrite U; reflexivity|rewrite U, H; auto].
Qed.
Lemma polygon_always points size sizes choices : NoDup points -> (3 <= length points)%nat -> no_three points -> (forall s, In s sizes -> 3 <= s) ->
  total sizes <= Z.max 0 (lenZ points - lenZ (to_max_convex_hull points)) ->
  match to_polygon ctx points size sizes choices with
  | Ok p => Forall clockwise (holes p) /\ length (holes p) = Nat.min (length sizes) (length choices)
  | Raise e => e = OutOfFuel
  end.
Proof.
  intros N L3 G Hs Ht.
  destruct (to_polygon_ok (with_fuel ctx (more points)) C points size sizes choices N L3 G (more_fuel points) Hs Ht) as (p & H & F & L).
  destruct (upto_polygon ctx (more points) (more_le points) points size sizes choices) as [U|U]; [rewrite U; reflexivity|rewrite U, H; auto].
Qed.
End U.
