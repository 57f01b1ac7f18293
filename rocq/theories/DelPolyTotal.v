(** [to_polygon]: nothing but the drawing of a hole can fail. *)
From Coq Require Import List Lia Permutation Sorted.
From Verif Require Import Base Utils Geometry Ctx Spec WindSpec QcTac QcFast GeomProofs ListProofs LoopProofs CycEdge SeparationProofs SegmentProofs EdgeProofs
  QuadEdge Triangulation Factories QuadProofs TriProofs CarveProofs CyclicProofs CompressProofs SequenceProofs HullProofs MultiProofs
  DelGeo DelCyc DelMap DelFan DelOps DelCand DelMerge DelStart DelHeap DelFind DelAll DelHull DelCarve DelWind DelBorder DelRim Jordan DelGreen DelPoly DelTotal.
Import ListNotations.
Open Scope nat_scope.

(** A loop with a measure that may depend on more than its state. *)
Lemma while_ghost {S R} (I : nat -> S -> Prop) (Q : R -> Prop) (body : S -> res (S + R)) n s k :
  (forall k s, I k s -> match body s with
    | Ok (inl s') => exists k', k' < k /\ I k' s'
    | Ok (inr r) => Q r
    | Raise _ => False end) ->
  I k s -> k < Pos.to_nat n -> exists r, while_ n body s = Ok r /\ Q r.
Proof.
  intros Hb. unfold while_. rewrite loop_nloop. revert s k.
  induction (Pos.to_nat n) as [|j IH]; intros s k Hi Hm; [lia|].
  cbn [nloop]. specialize (Hb k s Hi). destruct (body s) as [[s'|r]|e]; [|exists r; auto|destruct Hb].
  destruct Hb as (k' & Hk & Hi'). apply (IH s' k' Hi'). lia.
Qed.

(** ** A walk along a cycle of darts ends. *)
Section Orbit.
Context (f : edge -> edge) (X : edge -> Prop) (N : nat).
Context (cl : forall e, X e -> X (f e)) (inj : forall a b, X a -> X b -> f a = f b -> a = b).
Context (few : forall l, NoDup l -> (forall e, In e l -> X e) -> length l <= N).
Lemma orbit_while {T R} (body : edge * T -> res (edge * T + R)) s t0 fuel :
  (forall c t, X c -> (f c = s -> exists r, body (c, t) = Ok (inr r)) /\ (f c <> s -> exists t', body (c, t) = Ok (inl (f c, t')))) ->
  X s -> N < Pos.to_nat fuel -> done (while_ fuel body (s, t0)).
Proof.
  intros Hb Xs Hf.
  destruct (while_ghost (fun k (st : edge * T) => exists acc, NoDup (fst st :: acc) /\ (forall e, In e (fst st :: acc) -> X e)
      /\ (forall e, In e (fst st :: acc) -> e = s \/ exists d, In d acc /\ e = f d) /\ k = N - length acc) (fun _ => True) body fuel (s, t0) N) as (r & Hr & _).
  - intros k (c & t) (acc & Nd & Al & Pr & Ek). cbn [fst] in *. assert (Xc : X c) by (apply Al; left; reflexivity).
    destruct (Hb c t Xc) as (B1 & B2). destruct (edge_eq_dec (f c) s) as [e|n].
    + destruct (B1 e) as (r & ->). exact I.
    + destruct (B2 n) as (t' & ->). pose proof (few _ Nd Al) as Lc. cbn [length] in Lc. exists (N - Datatypes.S (length acc)). split; [lia|].
      exists (c :: acc). cbn [fst length].
      assert (Nin : ~ In (f c) (c :: acc)).
      { intros h. destruct (Pr _ h) as [h'|(d & Hd & h')]; [contradiction|]. apply NoDup_cons_iff in Nd. destruct Nd as (Nd & _). apply Nd.
        rewrite (inj c d); auto. apply Al. right. exact Hd. }
      split; [constructor; assumption|]. split; [|split; [|reflexivity]].
      * intros e [<- |h]; [apply cl, Xc|apply Al, h].
      * intros e [<- |h]; [right; exists c; split; [left; reflexivity|reflexivity]|]. destruct (Pr e h) as [h'|(d & Hd & h')]; [auto|]. right. exists d. split; [right; exact Hd|exact h'].
  - exists []. cbn [fst length]. split; [constructor; [intros []|constructor]|]. split; [intros e [<- |[]]; exact Xs|]. split; [intros e [<- |[]]; auto|lia].
  - lia.
  - exists r. exact Hr.
Qed.
End Orbit.
Lemma few_by_key {K} (key : edge -> K) (X : edge -> Prop) (S : list K) : (forall e, X e -> In (key e) S) ->
  (forall a b, X a -> X b -> key a = key b -> a = b) -> forall l, NoDup l -> (forall e, In e l -> X e) -> length l <= length S.
Proof.
  intros Hi Hk l Nl Hl. rewrite <- (map_length key l). apply NoDup_incl_length; [|intros k h; apply in_map_iff in h; destruct h as (e & <- & h); apply Hi, Hl, h].
  induction l as [|e l IH]; [constructor|]. apply NoDup_cons_iff in Nl. destruct Nl as (N1 & N2). cbn [List.map]. constructor.
  - intros h. apply in_map_iff in h. destruct h as (d & E & h). apply N1. rewrite <- (Hk d e); auto; apply Hl; [right; exact h|left; reflexivity].
  - apply IH; [exact N2|]. intros d h. apply Hl. right. exact h.
Qed.

Section R.
Context (S : list point).
Lemma boundary_done h P m bd t fuel : rep h P S m -> carved S m bd -> rim h P bd (left_side t) -> length S < Pos.to_nat fuel ->
  done (to_boundary_edges fuel h t).
Proof.
  intros R K Rl Hf. unfold to_boundary_edges. apply done_bind; [|intros v _; eexists; reflexivity].
  assert (Step : forall e, rim h P bd e -> rim h P bd (right_from_end h e)).
  { intros e (Pe & Be). unfold right_from_end. change (left_from_start h (opposite e)) with (lfs h (opposite e)).
    destruct (rp_lfs _ _ _ _ R _ (rp_opp _ _ _ _ R _ Pe)) as (P1 & s1 & f1). rewrite start_opposite, end_opposite in *. split; [exact P1|].
    rewrite s1, f1. apply (k_next _ _ _ K), Be. }
  apply (orbit_while (right_from_end h) (rim h P bd) (length S)); auto.
  - intros a b (Pa & _) (Pb & _) E. apply (rfe_inj h (rp_wf _ _ _ _ R)); auto; apply (rp_live _ _ _ _ R); assumption.
  - apply (few_by_key (start h)).
    + intros e (Pe & _). apply (l_in _ _ (rp_laws _ _ _ _ R) _ _ (rp_me _ _ _ _ R _ Pe)).
    + intros a b (Pa & Ba) (Pb & Bb) E. apply (rp_uniq _ _ _ _ R); auto. rewrite <- E in Bb. apply (k_fun _ _ _ K (start h a)); assumption.
  - intros c acc _. split; intros E.
    + rewrite (proj2 (edge_eqb_eq _ _) E). eexists. reflexivity.
    + rewrite (proj2 (edge_eqb_neq _ _) E). eexists. reflexivity.
Qed.
Lemma edge_key_done h P m e fuel : rep h P S m -> P e -> length S < Pos.to_nat fuel -> done (edge_key fuel h e).
Proof.
  intros R Pe Hf. unfold edge_key. apply done_bind; [|intros v _; eexists; reflexivity].
  pose proof (rp_wf _ _ _ _ R) as W.
  apply (orbit_while (lfs h) (fun d => P d /\ start h d = start h e) (length S)); auto.
  - intros d (Pd & E). destruct (rp_lfs _ _ _ _ R _ Pd) as (P1 & s1 & _). split; [exact P1|congruence].
  - intros a b (Pa & _) (Pb & _) E. apply (lfs_inj h W); auto; apply (rp_live _ _ _ _ R); assumption.
  - apply (few_by_key (end_ h)).
    + intros d (Pd & _). pose proof (rp_opp _ _ _ _ R _ Pd) as Po. pose proof (l_in _ _ (rp_laws _ _ _ _ R) _ _ (rp_me _ _ _ _ R _ Po)) as I.
      rewrite start_opposite in I. exact I.
    + intros a b (Pa & Ea) (Pb & Eb) E. apply (rp_uniq _ _ _ _ R); auto. congruence.
  - intros c wt (Pc & _).
    assert (A : (negb (is_convex_quadrilateral_diagonal h (left_from_end h c)) || negb (edge_eqb (left_from_end h c) (right_from_end h c)))%bool = true).
    { destruct (edge_eqb _ _) eqn:Ee; [|apply orb_true_r]. apply edge_eqb_eq in Ee. rewrite orb_false_r. apply negb_true_iff.
      pose proof (live_opposite h c (rp_live _ _ _ _ R _ Pc)) as Lo. set (a := opposite c) in *. set (d := left_from_end h c) in *.
      assert (D1 : right_from_start h a = d) by (unfold d; rewrite lfe_spec; reflexivity).
      assert (D2 : left_from_start h a = d) by (symmetry; exact Ee).
      assert (D3 : left_from_start h d = a) by (rewrite <- D1; apply (lfs_rfs h W), Lo).
      assert (D4 : right_from_start h d = a) by (rewrite <- D2; apply (rfs_lfs h W), Lo).
      unfold is_convex_quadrilateral_diagonal. rewrite D3, D4. apply andb_false_iff. right.
      unfold orientation_of. destruct (orientation_eqb _ COUNTERCLOCKWISE) eqn:O; [|reflexivity]. exfalso. apply orientation_eqb_eq in O. apply orientation_ccw in O.
      rewrite (start_opposite h a), (end_opposite h a) in O. unfold left_turn in O. assert (Z : (cross (end_ h a) (start h a) (end_ h a) = 0)%Qc) by (unfold cross; ring). ql. }
    rewrite A. cbn [assert_ rbind]. change (left_from_start h c) with (lfs h c). split; intros E.
    + rewrite (proj2 (edge_eqb_eq _ _) E). eexists. reflexivity.
    + rewrite (proj2 (edge_eqb_neq _ _) E). eexists. reflexivity.
Qed.
Lemma kset_done h P m fuel es : rep h P S m -> length S < Pos.to_nat fuel -> forall s, (forall e, In e es -> P e) -> done (kset_of_list fuel h es s).
Proof.
  intros R Hf. induction es as [|e es IH]; intros s He; cbn [kset_of_list]; [eexists; reflexivity|].
  apply done_bind.
  - unfold kset_add. apply done_bind; [|intros v _; eexists; reflexivity]. apply (edge_key_done h P m); auto. apply He. left. reflexivity.
  - intros v _. apply IH. intros d Hd. apply He. right. exact Hd.
Qed.
End R.

Section T.
Context (ctx : context) (points : list point) (N : NoDup points).
Context (Coins : (2 <= length points)%nat -> is_change (length points) (ctx_coins ctx (length points))).
Context (Near : forall l s, l <> [] -> is_nearest l s (ctx_nearest ctx l s)).
Context (Fuel : length points * length points + 4 * length points < Pos.to_nat (ctx_fuel ctx)).
Let S := isort point_leb points.
Lemma S_length : length S = length points.
Proof. unfold S. apply Permutation_length, Permutation_sym, isort_perm. Qed.

(** After the triangulation, every failure is a failure of the drawing of the holes. *)
Lemma to_polygon_done size sizes choices : (forall s, In s sizes -> (1 <= s)%Z) -> spread points -> 2 <= length points ->
  exists t h es, delaunay ctx points = Ok (t, h) /\ to_boundary_edges (ctx_fuel ctx) h t = Ok es /\
  let bp := points_set (List.map (start h) es) in
  forall r, hole_loop ctx sizes choices None (filter (fun p => negb (mem_point p bp)) (points_set points)) [] bp = r ->
  match r with
  | Ok (hs, _) => exists p, to_polygon ctx points size sizes choices = Ok p /\ holes p = hs
  | Raise x => to_polygon ctx points size sizes choices = Raise x
  end.
Proof.
  intros Hs NC L2.
  destruct (delaunay_total ctx points N L2 (Coins L2)) as (t & h & H1); [lia|].
  destruct (hull_state ctx points N Coins t h NC H1) as (ep & P & m & Fa & inj & R & T & K & Rl & Rr & _). fold S in Fa, inj, R, T, K, Rl, Rr.
  destruct (boundary_done S h P m _ t (ctx_fuel ctx) R K Rl) as (es & H2); [rewrite S_length; lia|].
  exists t, h, es. split; [exact H1|]. split; [exact H2|]. intros bp r Er. unfold to_polygon. rewrite H1. cbn [rbind]. rewrite H2. cbn [rbind].
  fold bp. rewrite Er. destruct r as [(hs & bp')|x]; [|reflexivity]. cbn [rbind].
  destruct (boundary_bd h P S m _ t _ es R K Rl H2) as (Nes & All & NL & L2' & Il & In1 & Out).
  destruct (kset_done S h P m (ctx_fuel ctx) (filter (polygon_is_mouth ctx (flat_map contour_segments hs) h bp') es) R ltac:(rewrite S_length; lia) []) as (cands & H4).
  { intros e He. apply filter_In in He. apply (All e), He. }
  rewrite H4. cbn [rbind].
  destruct (border_start ctx points N Coins t h es hs bp' cands sizes choices Hs NC H1 H2 Er H4) as (Ends & Rest & HQS & P0 & m0 & bd0 & I0 & _).
  set (hes := flat_map contour_segments hs) in *. set (L := List.map (start h) es) in *. set (HQ := fun q => exists vs, In vs hs /\ In q vs) in *.
  fold S in I0.
  assert (Short : forall st P m bd L, binv hes S bp' HQ st P m bd L -> length L <= length S).
  { intros st P1 m1 bd1 L1 [R1 K1 Cy1 _ _ _ _ _ _ _ _ _]. apply NoDup_incl_length; [apply Cy1|]. intros x Hx. apply (cycle_vertex _ _ _ Cy1) in Hx. destruct Hx as (y & B).
    apply (l_in _ _ (rp_laws _ _ _ _ R1) _ y), (k_bd _ _ _ K1), B. }
  destruct (while_ghost (fun k st => exists P m bd L, binv hes S bp' HQ st P m bd L /\ k + 2 * length L = length (p_cands st) + 2 * length S)
    (fun st => exists P m bd L, binv hes S bp' HQ st P m bd L) (border_step (ctx_fuel ctx) ctx hes size) (ctx_fuel ctx)
    (PState h t bp' cands (List.map (fun e => (e, to_edge_neighbours h e)) es) (lenZ (compress_contour L))) (length cands + 2 * length S - 2 * length L)) as (st & H5 & Is).
  - intros k st (P1 & m1 & bd1 & L1 & I1 & Ek).
    pose proof (border_step_more ctx hes S bp' HQ Near Ends Rest HQS (ctx_fuel ctx) size st P1 m1 bd1 L1 I1) as X. destruct (border_step _ _ _ _ st) as [[st'|st']|x].
    + destruct X as (P2 & m2 & bd2 & L2'' & I2 & Lt & _). pose proof (Short _ _ _ _ _ I2). exists (length (p_cands st') + 2 * length S - 2 * length L2''). split; [lia|].
      exists P2, m2, bd2, L2''. split; [exact I2|lia].
    + subst st'. exists P1, m1, bd1, L1. exact I1.
    + destruct X as (h' & P' & m' & e' & R' & Pe' & X). destruct (edge_key_done S h' P' m' e' (ctx_fuel ctx) R' Pe') as (v & Hv); [rewrite S_length; lia|congruence].
  - exists P0, m0, bd0, L. split; [exact I0|]. cbn [p_cands]. pose proof (Short _ _ _ _ _ I0). lia.
  - pose proof (Short _ _ _ _ _ I0).
    assert (length cands <= length S).
    { transitivity (length (List.map snd cands)); [rewrite map_length; lia|]. apply kset_of_list_spec in H4; [|apply NoDup_filter, Nes|constructor|intros e _ []]. destruct H4 as (B1 & B2).
      transitivity (length es); [|unfold L in H; rewrite map_length in H; exact H]. apply NoDup_incl_length; [exact B1|].
      intros e He. apply in_map_iff in He. destruct He as ((k & e') & <- & He). destruct (B2 _ _ He) as [[]|Y]. apply filter_In in Y. apply Y. }
    pose proof S_length as SL. rewrite SL in *. lia.
  - rewrite H5. cbn [rbind]. destruct Is as (P1 & m1 & bd1 & L1 & I1). pose proof I1 as [R1 K1 Cy1 Lf1 _ _ _ _ _ _ _ _].
    unfold triangulation_to_border_vertices. destruct (boundary_done S (p_heap st) P1 m1 bd1 (p_tri st) (ctx_fuel ctx) R1 K1 Lf1) as (es' & H6); [rewrite S_length; lia|].
    rewrite H6. cbn [rbind].
    pose proof (boundary_again _ P1 S m1 bd1 _ _ es' L1 R1 K1 Lf1 H6 Cy1) as Cy2. set (L'' := List.map (start (p_heap st)) es') in *.
    pose proof (cycle_three S m1 bd1 K1 L'' Cy2) as L3'. pose proof (cycle_jordan S m1 bd1 K1 L'' Cy2) as J.
    destruct (compress_jordan L'' L3' J) as (_ & J2 & _).
    assert (E3 : (MIN_CONTOUR_SIZE <=? lenZ (compress_contour L''))%Z = true) by (apply Z.leb_le; change MIN_CONTOUR_SIZE with 3%Z; unfold lenZ; lia).
    rewrite E3. cbn [assert_ rbind]. eexists. split; [reflexivity|]. reflexivity.
Qed.
End T.
