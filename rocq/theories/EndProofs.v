(** Carving contours out of any points: the loop over the mouths ends, and so does all of the carving when nothing is left. *)
From Coq Require Import List Lia Permutation.
From Verif Require Import Base Utils Geometry Ctx Spec WindSpec QcTac QcFast GeomProofs ListProofs LoopProofs CycEdge
  QuadEdge Triangulation Factories QuadProofs QuadApiProofs TriProofs CarveProofs MultiProofs CompressProofs EdgeProofs ConvexProofs
  DelGeo DelCyc DelMap DelFan DelOps DelCand DelMerge DelStart DelHeap DelFind DelHull DelCarve DelFlip DelWind DelBorder DelMouth
  DelRim Jordan DelGreen DelPoly DelTotal DelPolyTotal DelContour SteerSpec SteerProofs CornerProofs DelLoose DelEnds CarveHull ValtrProofs LooseProofs.
Import ListNotations.
Open Scope nat_scope.

Section T.
Context (ctx : context) (points : list point) (N : NoDup points) (NC : spread points) (L2 : 2 <= length points).
Context (Coins : is_change (length points) (ctx_coins ctx (length points))).
Context (Fuel : 4 * (length points * length points) + 6 * length points + 1 < Pos.to_nat (ctx_fuel ctx)).
Let S := isort point_leb points.
Lemma carve_ends size :
  (mouths_left ctx points size = Raise AssertionError /\ to_vertex_sequence ctx points size = Raise AssertionError)
  \/ exists left, mouths_left ctx points size = Ok left /\ ((left <= 0)%Z -> exists vs, to_vertex_sequence ctx points size = Ok vs).
Proof.
  destruct (delaunay_total ctx points N L2 Coins) as (t & h & H1); [lia|].
  destruct (hull_state ctx points N (fun _ => Coins) t h NC H1) as (ep & P & m & Fa & inj & R & T & K & Rl & Rr & Hl & Hr). fold S in Fa, inj, R, T, K, Rl, Rr, Hl, Hr.
  pose proof (S_length points) as SL. fold S in SL. assert (Hf : length S < Pos.to_nat (ctx_fuel ctx)) by lia.
  destruct (boundary_done S h P m _ t (ctx_fuel ctx) R K Rl Hf) as (es & H2).
  unfold mouths_left, to_vertex_sequence. rewrite H1. cbn [rbind]. rewrite H2. cbn [rbind].
  pose proof (hull_cycle ctx points t h es ep P m inj NC R T K Rl Hl H2) as Cy. destruct (boundary_bd h P S m _ t _ es R K Rl H2) as (Nes & All & _).
  fold S in Cy. unfold to_vertex_sequence_. set (L := List.map (start h) es) in *.
  assert (Sh : shape S h t (points_set L) P m (hd S m) L).
  { split; auto; [|intros u Hu; apply points_set_in, Hu]. apply (triangulation_good ctx points t h). apply QuadSpec.triangulation_delaunay, H1. }
  pose proof (cycle_three S m _ K L Cy) as L3. pose proof (cycle_jordan S m _ K L Cy) as J. destruct (compress_jordan L L3 J) as (_ & J2 & _).
  assert (Hlt : (lenZ (compress_contour L) <? MIN_CONTOUR_SIZE)%Z = false) by (apply Z.ltb_ge; change MIN_CONTOUR_SIZE with 3%Z; unfold lenZ; lia).
  rewrite Hlt. destruct (fresh_total S (ctx_fuel ctx) Hf h t (points_set L) P m (hd S m) L es Sh All) as (sets & A1 & A2 & A3). rewrite A1. cbn [rbind].
  set (st0 := VState h t (points_set L) sets es _).
  pose proof (boundary_size S h t (points_set L) P m (hd S m) L Sh) as BL. assert (El : length es = length L) by (unfold L; rewrite map_length; reflexivity).
  pose proof (weight_most h (points_set L) es) as Wm.
  assert (A0 : ahead S ((length S - length L) * (4 * length S + 2) + 2 * weight h (points_set L) es + 0) st0).
  { exists P, m, (hd S m), L, 0. unfold st0. cbn [vs_heap vs_tri vs_points vs_sets vs_cands]. split; [exact Sh|]. split; [|auto].
    apply (fresh_kept S (ctx_fuel ctx) h t (points_set L) P m (hd S m) L es sets Sh Nes All A1). }
  assert (Hm : (length S - length L) * (4 * length S + 2) + 2 * weight h (points_set L) es + 0 < Pos.to_nat (ctx_fuel ctx)).
  { assert ((length S - length L) * (4 * length S + 2) <= length S * (4 * length S + 2)) by (apply Nat.mul_le_mono_r; lia). rewrite SL in *. lia. }
  pose proof (loop_ends S (ctx_fuel ctx) Hf st0 _ A0 Hm) as Tm.
  assert (Lo : forall st, while_ (ctx_fuel ctx) (mouth_step (ctx_fuel ctx)) st0 = Ok st -> loose S (vs_left st0 + corners L)%Z st).
  { intros st E. apply (loop_sound S (ctx_fuel ctx) (vs_left st0 + corners L) (vs_left st0) st0 st); [|exact E]. split; [|split; [right; reflexivity|lia]].
    exists P, m, (hd S m), L. split; [exact Sh|]. split; [|reflexivity]. apply (fresh_kept S (ctx_fuel ctx) h t (points_set L) P m (hd S m) L es sets Sh Nes All A1). }
  destruct (while_ (ctx_fuel ctx) (mouth_step (ctx_fuel ctx)) st0) as [st|e] eqn:Ew; cbn [rbind].
  2: { left. destruct e; try destruct Tm. split; reflexivity. }
  right. exists (vs_left st). split; [reflexivity|]. intros Le. destruct (Lo st eq_refl) as (P1 & m1 & bd1 & L1 & Sh1 & _).
  assert (Hg : (vs_left st >? 0)%Z = false) by (rewrite Z.gtb_ltb; apply Z.ltb_ge; lia). rewrite Hg. cbn [rbind to_ears_increments fold_increments].
  set (st1 := VState (vs_heap st) (vs_tri st) (vs_points st) _ [] (vs_left st)).
  assert (W1 : while_ (ctx_fuel ctx) (ear_step (ctx_fuel ctx)) st1 = Ok st1).
  { apply (while_ends (fun _ s => s = st1) (fun r => r = Ok st1) _ _ _ 0); [|reflexivity|lia].
    intros k s ->. unfold ear_step. assert (X1 : (vs_left st1 >? 0)%Z = false) by exact Hg. rewrite X1. reflexivity. }
  rewrite W1. cbn [rbind]. unfold triangulation_to_border_vertices. cbn [st1 vs_heap vs_tri].
  destruct (boundary_done S (vs_heap st) P1 m1 bd1 (vs_tri st) (ctx_fuel ctx) (s_rep _ _ _ _ _ _ _ _ Sh1) (s_car _ _ _ _ _ _ _ _ Sh1) (s_left _ _ _ _ _ _ _ _ Sh1) Hf) as (es1 & H6).
  rewrite H6. cbn [rbind]. eauto.
Qed.
(** ** Asked for no more vertices than the hull has, the carving yields the hull. *)
Lemma boundary_hull t h es : delaunay ctx points = Ok (t, h) -> to_boundary_edges (ctx_fuel ctx) h t = Ok es ->
  let vs := compress_contour (List.map (start h) es) in is_hull points vs /\ convex_ccw vs.
Proof.
  intros H1 H2. destruct (hull_state ctx points N (fun _ => Coins) t h NC H1) as (ep & P & m & Fa & inj & R & T & K & Rl & Rr & Hl1 & Hr1). fold S in Fa, inj, R, T, K, Rl, Rr, Hl1, Hr1.
  pose proof (hull_cycle ctx points t h es ep P m inj NC R T K Rl Hl1 H2) as Cy. fold S in Cy. set (L := List.map (start h) es) in *. cbv zeta.
  pose proof (cycle_three S m _ K L Cy) as L3. pose proof (cycle_jordan S m _ K L Cy) as J. destruct (compress_jordan L L3 J) as (J1 & J2 & J3 & _).
  assert (Hin : forall p, In p S -> In p points) by (intros p Hp; apply isort_in in Hp; exact Hp).
  assert (LS : incl L S) by (intros p Hp; destruct (ces_out _ _ Hp) as (q & Hq); apply Cy in Hq; apply (l_in _ _ (k_laws _ _ _ K) _ _ (k_bd _ _ _ K _ _ Hq))).
  assert (Sd : sided S (compress_contour L)).
  { apply (drops_sided S _ _ (compress_drops L) L3 J). intros a b Hab q Hq. apply Cy in Hab. destruct Hab as (_ & Hab). apply Hab, Hq. }
  assert (CL : incl (compress_contour L) S) by (intros p Hp; apply LS, compress_incl, Hp).
  assert (Ck : convex_ccw (compress_contour L)) by (apply sided_convex; auto; intros a b Hab q Hq; apply Sd; [exact Hab|apply CL, Hq]).
  split; [|exact Ck]. split; [apply J1|]. split; [intros p Hp; apply Hin, CL, Hp|]. split; [|intros _; exact Ck].
  intros a b Eab q Hq X. apply ces_edge in Eab. apply (Qcle_not_lt _ _ (Sd a b Eab q (proj2 (isort_in point_leb points q) Hq))), X.
Qed.
Lemma hull_asked size hull : is_hull points hull -> 3 <= length hull -> (size <= lenZ hull)%Z ->
  exists vs, to_vertex_sequence ctx points size = Ok vs /\ convex_ccw vs /\ incl vs hull /\ incl hull vs.
Proof.
  intros Hh H3 Hs. destruct (delaunay_total ctx points N L2 Coins) as (t & h & H1); [lia|].
  destruct (hull_state ctx points N (fun _ => Coins) t h NC H1) as (ep & P & m & Fa & inj & R & T & K & Rl & Rr & Hl & Hr). fold S in Fa, inj, R, T, K, Rl, Rr, Hl, Hr.
  pose proof (S_length points) as SL. fold S in SL. assert (Hf : length S < Pos.to_nat (ctx_fuel ctx)) by lia.
  destruct (boundary_done S h P m _ t (ctx_fuel ctx) R K Rl Hf) as (es & H2).
  destruct (boundary_hull t h es H1 H2) as (Hk & Ck).
  unfold to_vertex_sequence. rewrite H1. cbn [rbind]. rewrite H2. cbn [rbind].
  pose proof (hull_cycle ctx points t h es ep P m inj NC R T K Rl Hl H2) as Cy. destruct (boundary_bd h P S m _ t _ es R K Rl H2) as (_ & All & _).
  fold S in Cy. unfold to_vertex_sequence_. set (L := List.map (start h) es) in *.
  assert (Sh : shape S h t (points_set L) P m (hd S m) L).
  { split; auto; [|intros u Hu; apply points_set_in, Hu]. apply (triangulation_good ctx points t h). apply QuadSpec.triangulation_delaunay, H1. }
  pose proof (proj1 Ck) as J2.
  assert (Hlt : (lenZ (compress_contour L) <? MIN_CONTOUR_SIZE)%Z = false) by (apply Z.ltb_ge; change MIN_CONTOUR_SIZE with 3%Z; unfold lenZ; lia).
  rewrite Hlt. destruct (fresh_total S (ctx_fuel ctx) Hf h t (points_set L) P m (hd S m) L es Sh All) as (sets & A1 & _). rewrite A1. cbn [rbind].
  pose proof (hulls_agree _ _ _ Hh Hk H3 J2) as I1. pose proof (hulls_agree _ _ _ Hk Hh J2 H3) as I2.
  assert (El : lenZ hull = lenZ (compress_contour L)) by (unfold lenZ; f_equal; apply Nat.le_antisymm; apply NoDup_incl_length; [apply (proj1 Hh)|exact I1|apply (proj1 Hk)|exact I2]).
  set (st0 := VState h t (points_set L) sets es _). assert (Hg : (vs_left st0 >? 0)%Z = false) by (rewrite Z.gtb_ltb; apply Z.ltb_ge; unfold st0; cbn [vs_left]; lia).
  assert (W0 : while_ (ctx_fuel ctx) (mouth_step (ctx_fuel ctx)) st0 = Ok st0).
  { apply (while_ends (fun _ s => s = st0) (fun r => r = Ok st0) _ _ _ 0); [|reflexivity|lia]. intros k s ->. unfold mouth_step. rewrite Hg. reflexivity. }
  rewrite W0. cbn [rbind]. rewrite Hg. cbn [rbind to_ears_increments fold_increments].
  set (st1 := VState (vs_heap st0) (vs_tri st0) (vs_points st0) _ [] (vs_left st0)).
  assert (W1 : while_ (ctx_fuel ctx) (ear_step (ctx_fuel ctx)) st1 = Ok st1).
  { apply (while_ends (fun _ s => s = st1) (fun r => r = Ok st1) _ _ _ 0); [|reflexivity|lia].
    intros k s ->. unfold ear_step. assert (X1 : (vs_left st1 >? 0)%Z = false) by exact Hg. rewrite X1. reflexivity. }
  rewrite W1. cbn [rbind]. unfold triangulation_to_border_vertices. cbn [st1 st0 vs_heap vs_tri]. rewrite H2. cbn [rbind]. fold L. exists (compress_contour L). auto.
Qed.
Lemma border_asked size sizes choices p hull : to_polygon ctx points size sizes choices = Ok p -> is_hull points hull -> 3 <= length hull -> (size <= lenZ hull)%Z ->
  convex_ccw (border p) /\ incl (border p) hull /\ incl hull (border p).
Proof.
  clear Fuel L2. intros H Hh H3 Hs. unfold to_polygon in H. apply rbind_ok in H. destruct H as ((t & h) & H1 & H).
  apply rbind_ok in H. destruct H as (es & H2 & H). apply rbind_ok in H. destruct H as ((hs & bp) & _ & H).
  apply rbind_ok in H. destruct H as (cands & _ & H). apply rbind_ok in H. destruct H as (st & H5 & H).
  apply rbind_ok in H. destruct H as (vs & H6 & H). apply rbind_ok in H. destruct H as ([] & _ & H). injection H as <-. cbn [border].
  destruct (boundary_hull t h es H1 H2) as (Hk & Ck). set (L := List.map (start h) es) in *. pose proof (proj1 Ck) as J2.
  pose proof (hulls_agree _ _ _ Hh Hk H3 J2) as I1. pose proof (hulls_agree _ _ _ Hk Hh J2 H3) as I2.
  assert (El : lenZ hull = lenZ (compress_contour L)) by (unfold lenZ; f_equal; apply Nat.le_antisymm; apply NoDup_incl_length; [apply (proj1 Hh)|exact I1|apply (proj1 Hk)|exact I2]).
  set (st0 := PState h t bp cands _ _) in H5.
  assert (E0 : st = st0).
  { apply (while_ok (fun s => s = st0) (fun s => s = st0) _ _ st0 st) in H5; [exact H5| |reflexivity]. intros s ->. unfold border_step.
    assert (X : (p_size st0 <? size)%Z = false) by (apply Z.ltb_ge; unfold st0; cbn [p_size]; lia). rewrite X. reflexivity. }
  subst st. unfold triangulation_to_border_vertices in H6. unfold st0 in H6. cbn [p_heap p_tri] in H6. rewrite H2 in H6. cbn [rbind] in H6. injection H6 as <-. fold L. auto.
Qed.
End T.
