(** Contours carved out of any points by cutting mouths alone. *)
From Coq Require Import List Lia Permutation.
From Verif Require Import Base Utils Geometry Ctx Spec WindSpec QcTac QcFast GeomProofs ListProofs LoopProofs CycEdge
  QuadEdge Triangulation Factories QuadProofs QuadApiProofs TriProofs CarveProofs MultiProofs CompressProofs EdgeProofs ConvexProofs
  DelGeo DelCyc DelMap DelFan DelOps DelCand DelMerge DelStart DelHeap DelFind DelHull DelCarve DelFlip DelWind DelBorder DelMouth
  DelRim Jordan DelGreen DelPoly DelTotal DelPolyTotal DelContour SteerSpec SteerProofs CornerProofs DelLoose CarveHull ValtrProofs.
Import ListNotations.
Open Scope nat_scope.

Lemma scaled_neg (k y : Qc) : (k < 0 -> 0 < y -> k * y < 0)%Qc.
Proof. intros K Y. assert (Z : (0 * y = 0)%Qc) by ring. rewrite <- Z. apply Qcmult_lt_compat_r; assumption. Qed.
(** A simple contour without straight angles all of whose vertices are on one side of every edge is convex. *)
Lemma sided_convex vs : jordan vs -> 3 <= length vs -> strict vs -> sided vs vs -> convex_ccw vs.
Proof.
  intros J L3 T Sd. pose proof (proj1 J) as N. split; [exact L3|]. split; [exact N|]. intros a b E c Ic n1 n2.
  pose proof (proj2 (ces_edge _ _ _) E) as Ee.
  destruct (Qcle_lt_or_eq _ _ (Sd a b Ee c Ic)) as [X|X]; [exact X|exfalso]. symmetry in X.
  destruct (ces_in _ _ _ Ee) as (Ia & Ib). destruct (edge_after vs b Ib) as (d & Ed). destruct (edge_before vs a Ia) as (o & Eo).
  assert (Tb : ~ collinear a b d) by (apply T, turn_edges; auto). assert (Ta : ~ collinear o a b) by (apply T, turn_edges; auto).
  assert (Nab : a <> b) by (intros ->; apply Tb; unfold collinear, cross; ring).
  assert (Hd : In d vs) by (apply ces_edge, ces_in in Ed; apply Ed).
  assert (Pb : (0 < cross a b d)%Qc) by (destruct (Qcle_lt_or_eq _ _ (Sd a b Ee d Hd)) as [Y|Y]; [exact Y|destruct Tb; symmetry; exact Y]).
  assert (Pa : (0 < cross o a b)%Qc) by (destruct (Qcle_lt_or_eq _ _ (Sd o a (proj2 (ces_edge _ _ _) Eo) b Ib)) as [Y|Y]; [exact Y|destruct Ta; symmetry; exact Y]).
  pose proof (Sd b d (proj2 (ces_edge _ _ _) Ed) c Ic) as Q1. pose proof (Sd o a (proj2 (ces_edge _ _ _) Eo) c Ic) as Q2.
  destruct (line_param a b c Nab X) as (s & sx & sy).
  destruct (Qclt_le_dec s 0) as [Hs|Hs]; [|destruct (Qclt_le_dec 1 s) as [Hs'|Hs']].
  - apply (Qcle_not_lt _ _ Q2). replace (cross o a c) with (s * cross o a b)%Qc by (unfold cross; rewrite sx, sy; ring). apply scaled_neg; assumption.
  - apply (Qcle_not_lt _ _ Q1). replace (cross b d c) with ((1 - s) * cross a b d)%Qc by (unfold cross; rewrite sx, sy; ring). apply scaled_neg; [ql|assumption].
  - destruct (edge_after vs c Ic) as (e & Ee'). destruct (proj2 J a b c e c E Ee') as [(Y & _)|(Y & _)]; try congruence.
    + exists s. auto.
    + apply on_left.
Qed.

Section T.
Context (ctx : context) (points : list point) (N : NoDup points) (NC : spread points).
Context (Coins : 2 <= length points -> is_change (length points) (ctx_coins ctx (length points))).
Let S := isort point_leb points.
Lemma mouths_carve size left vs hull : mouths_left ctx points size = Ok left -> (left <= 0)%Z -> to_vertex_sequence ctx points size = Ok vs ->
  is_hull points hull -> 3 <= length hull ->
  jordan vs /\ 3 <= length vs /\ strict vs /\ (0 < doubled_area vs)%Qc /\ incl vs points /\ lenZ vs = Z.max (lenZ hull) size /\ left = Z.min 0 (size - lenZ hull).
Proof.
  intros M Hl E Hh H3. unfold mouths_left in M. unfold to_vertex_sequence in E.
  destruct (delaunay ctx points) as [(t & h)|] eqn:H1; cbn [rbind] in M, E; [|discriminate].
  destruct (to_boundary_edges (ctx_fuel ctx) h t) as [es|] eqn:H2; cbn [rbind] in M, E; [|discriminate].
  destruct (hull_state ctx points N Coins t h NC H1) as (ep & P & m & Fa & inj & R & T & K & Rl & Rr & Hl1 & Hr1). fold S in Fa, inj, R, T, K, Rl, Rr, Hl1, Hr1.
  pose proof (hull_cycle ctx points t h es ep P m inj NC R T K Rl Hl1 H2) as Cy. destruct (boundary_bd h P S m _ t _ es R K Rl H2) as (Nes & All & _).
  fold S in Cy. set (L := List.map (start h) es) in *.
  assert (Sh : shape S h t (points_set L) P m (hd S m) L).
  { split; auto; [|intros u Hu; apply points_set_in, Hu]. apply (triangulation_good ctx points t h). apply QuadSpec.triangulation_delaunay, H1. }
  pose proof (cycle_three S m _ K L Cy) as L3. pose proof (cycle_jordan S m _ K L Cy) as J. destruct (compress_jordan L L3 J) as (J1 & J2 & J3 & _).
  pose proof (compress_corners L L3 J) as CC.
  assert (Hin : forall p, In p S -> In p points) by (intros p Hp; apply isort_in in Hp; exact Hp).
  assert (LS : incl L S) by (intros p Hp; destruct (ces_out _ _ Hp) as (q & Hq); apply Cy in Hq; apply (l_in _ _ (k_laws _ _ _ K) _ _ (k_bd _ _ _ K _ _ Hq))).
  assert (Sd : sided S (compress_contour L)).
  { apply (drops_sided S _ _ (compress_drops L) L3 J). intros a b Hab q Hq. apply Cy in Hab. destruct Hab as (_ & Hab). apply Hab, Hq. }
  assert (CL : incl (compress_contour L) S) by (intros p Hp; apply LS, compress_incl, Hp).
  assert (Ck : convex_ccw (compress_contour L)).
  { apply sided_convex; auto. intros a b Hab q Hq. apply Sd; [exact Hab|]. apply CL, Hq. }
  assert (Hk : is_hull points (compress_contour L)).
  { split; [apply J1|]. split; [intros p Hp; apply Hin, CL, Hp|]. split; [|intros _; exact Ck].
    intros a b Eab q Hq X. apply ces_edge in Eab. apply (Qcle_not_lt _ _ (Sd a b Eab q (proj2 (isort_in point_leb points q) Hq))), X. }
  assert (El : lenZ hull = corners L).
  { rewrite <- CC. unfold lenZ. f_equal. apply Nat.le_antisymm; apply NoDup_incl_length; [apply (proj1 Hh)|apply (hulls_agree _ _ _ Hh Hk H3 J2)|apply J1|apply (hulls_agree _ _ _ Hk Hh J2 H3)]. }
  unfold to_vertex_sequence_ in E. fold L in E.
  assert (Hlt : (lenZ (compress_contour L) <? MIN_CONTOUR_SIZE)%Z = false) by (apply Z.ltb_ge; change MIN_CONTOUR_SIZE with 3%Z; unfold lenZ; lia).
  rewrite Hlt in E. destruct (to_mouths_increments (ctx_fuel ctx) h es) as [sets|] eqn:Em; cbn [rbind] in M, E; [|discriminate].
  set (st0 := VState h t (points_set L) sets es _) in *.
  destruct (while_ (ctx_fuel ctx) (mouth_step (ctx_fuel ctx)) st0) as [st|] eqn:Ew; cbn [rbind] in M, E; [|discriminate]. injection M as M.
  assert (So : sound S size (size - corners L) st).
  { apply (loop_sound S (ctx_fuel ctx) size (size - corners L) st0 st); [|exact Ew]. split; [|unfold st0; cbn [vs_left]; rewrite CC; lia].
    exists P, m, (hd S m), L. unfold st0. cbn [vs_heap vs_tri vs_points vs_sets vs_cands vs_left]. split; [exact Sh|]. split; [|rewrite CC; lia].
    apply (fresh_kept S (ctx_fuel ctx) h t (points_set L) P m (hd S m) L es sets Sh Nes All Em). }
  destruct So as ((P1 & m1 & bd1 & L1 & Sh1 & _ & Led) & Lo1 & Lo2).
  assert (Hg : (vs_left st >? 0)%Z = false) by (rewrite Z.gtb_ltb; apply Z.ltb_ge; lia). rewrite Hg in E. cbn [rbind to_ears_increments fold_increments] in E.
  set (st1 := VState (vs_heap st) (vs_tri st) (vs_points st) _ [] (vs_left st)) in E.
  assert (W1 : while_ (ctx_fuel ctx) (ear_step (ctx_fuel ctx)) st1 = Ok st1 \/ exists e, while_ (ctx_fuel ctx) (ear_step (ctx_fuel ctx)) st1 = Raise e).
  { destruct (while_ (ctx_fuel ctx) (ear_step (ctx_fuel ctx)) st1) as [s'|e] eqn:X; [left|right; exists e; reflexivity].
    f_equal. apply (while_ok (fun s => s = st1) (fun s => s = st1) (ear_step (ctx_fuel ctx)) (ctx_fuel ctx) st1); [|reflexivity|exact X].
    intros s ->. unfold ear_step. assert (X1 : (vs_left st1 >? 0)%Z = false) by exact Hg. rewrite X1. reflexivity. }
  destruct W1 as [W1|(e & W1)]; rewrite W1 in E; cbn [rbind st1 vs_heap vs_tri] in E; [|discriminate].
  pose proof (s_rep _ _ _ _ _ _ _ _ Sh1) as R1. pose proof (s_car _ _ _ _ _ _ _ _ Sh1) as K1. pose proof (s_left _ _ _ _ _ _ _ _ Sh1) as Lf1.
  unfold triangulation_to_border_vertices in E. destruct (to_boundary_edges _ (vs_heap st) _) as [es1|] eqn:H6; cbn [rbind] in E; [|discriminate]. injection E as <-.
  pose proof (boundary_again _ P1 S m1 bd1 _ _ es1 L1 R1 K1 Lf1 H6 (s_cycle _ _ _ _ _ _ _ _ Sh1)) as Cy2. set (L2 := List.map (start (vs_heap st)) es1) in *.
  pose proof (cycle_three S m1 bd1 K1 L2 Cy2) as G3. pose proof (cycle_jordan S m1 bd1 K1 L2 Cy2) as GJ.
  destruct (compress_jordan L2 G3 GJ) as (Q1 & Q2 & Q3 & _).
  split; [exact Q1|]. split; [exact Q2|]. split; [exact Q3|]. split; [rewrite compress_area; apply (cycle_area S m1 bd1 K1 L2 Cy2)|].
  split; [|rewrite (compress_corners L2 G3 GJ), (corners_cycle _ _ _ Cy2 (s_cycle _ _ _ _ _ _ _ _ Sh1)); lia].
  intros p Hp. apply compress_incl in Hp. apply Hin.
  destruct (ces_out _ _ Hp) as (q & Hq). apply Cy2 in Hq. apply (l_in _ _ (k_laws _ _ _ K1) _ _ (k_bd _ _ _ K1 _ _ Hq)).
Qed.
End T.

(** ** The increment of an ear. *)
Lemma filter_out p l : ~ In p l -> filter (fun q => negb (point_eqb q p)) l = l.
Proof.
  induction l as [|x l IH]; intros H; [reflexivity|]. cbn [filter]. destruct (point_eqb x p) eqn:E.
  - apply point_eqb_eq in E. destruct H. left. exact E.
  - cbn [negb]. f_equal. apply IH. intros I. apply H. right. exact I.
Qed.
Lemma rotated (vs : contour) a b : NoDup vs -> In (a, b) (ces vs) -> a <> b -> exists l1 l2 r, vs = l1 ++ a :: l2 /\ l2 ++ l1 = b :: r.
Proof.
  intros N I n. apply ces_edge in I. destruct I as (i & A & B). destruct (nth_error_split _ _ A) as (l1 & l2 & E & Ei). exists l1, l2.
  assert (Lv : length vs = length l1 + Datatypes.S (length l2)) by (rewrite E, app_length; reflexivity).
  destruct l2 as [|x l2].
  - cbn [app]. cbn [length] in Lv. replace (Datatypes.S i mod length vs) with 0 in B by (replace (Datatypes.S i) with (length vs) by lia; symmetry; apply Nat.mod_same; lia).
    destruct l1 as [|y l1]; [rewrite E in B; cbn in B; congruence|]. exists l1. rewrite E in B. cbn in B. split; [exact E|congruence].
  - exists (l2 ++ l1). cbn [length] in Lv. rewrite Nat.mod_small in B by lia. rewrite E, nth_error_app2 in B by lia. replace (Datatypes.S i - length l1) with 1 in B by lia. cbn in B.
    split; [exact E|]. cbn [app]. congruence.
Qed.
Lemma corners_rot l m : NoDup (l ++ m) -> 2 <= length (l ++ m) -> corners (l ++ m) = corners (m ++ l).
Proof.
  intros N G. apply corners_same; auto.
  - apply (Permutation_NoDup (Permutation_app_comm l m)), N.
  - rewrite app_length in *. lia.
  - intros a b. split; apply Permutation_in; apply ces_rot.
Qed.
Lemma ear_corners S h t pts P m bd L e : shape S h t pts P m bd L -> 4 <= length L -> rim h P bd e ->
  ~ collinear (start h e) (end_ h e) (end_ h (right_from_end h e)) ->
  corners (filter (fun p => negb (point_eqb p (end_ h e))) L) = (corners L + ear_to_increment h e)%Z.
Proof.
  intros Sh L4 Re C. pose proof (s_car _ _ _ _ _ _ _ _ Sh) as K. pose proof (s_cycle _ _ _ _ _ _ _ _ Sh) as Cy. pose proof Cy as (N & _ & Ce). pose proof (proj2 Re) as Be.
  destruct (around S h t pts P m bd L Sh e Re) as (_ & _ & _ & _ & _ & _ & _ & (p & Bp & _ & C1 & C2) & _).
  destruct (next_rim S h t pts P m bd L e Sh Re) as (Rn & Sn). destruct (next_rim S h t pts P m bd L _ Sh Rn) as (Rm & Sm).
  set (n := right_from_end h e) in *. set (o := right_from_end h n) in *. pose proof (proj2 Rn) as Bn. pose proof (proj2 Rm) as Bm.
  set (u := start h e) in *. set (w := end_ h e) in *.
  assert (Nuw : u <> w) by (intros z; apply C; unfold collinear, cross; rewrite z; ring).
  destruct (rotated L u w N (proj1 (Ce _ _) Be) Nuw) as (l1 & l2 & r & EL & Er).
  assert (E2 : (u :: l2) ++ l1 = u :: w :: r) by (cbn [app]; rewrite Er; reflexivity).
  assert (NL : NoDup (l1 ++ u :: l2)) by (rewrite <- EL; exact N).
  assert (NR : NoDup (u :: w :: r)) by (rewrite <- E2; apply (Permutation_NoDup (Permutation_app_comm l1 (u :: l2))), NL).
  assert (Lr : length (u :: w :: r) = length L) by (rewrite <- E2, EL, !app_length; cbn [length]; lia).
  assert (CyR : cycle bd (u :: w :: r)).
  { split; [exact NR|]. split; [cbn [length]; lia|]. intros a b. rewrite Ce, EL, <- E2. split; apply Permutation_in; apply ces_rot. }
  pose proof (proj2 (proj2 CyR)) as CR. cbn [length] in Lr.
  destruct r as [|a r]; [cbn [length] in Lr; lia|]. destruct r as [|b r]; [cbn [length] in Lr; lia|].
  assert (Ea : a = end_ h n) by (apply (k_fun _ _ _ K w); [apply CR; right; left; reflexivity|rewrite <- Sn; exact Bn]). subst a.
  assert (Eb : b = end_ h o).
  { apply (k_fun _ _ _ K (end_ h n)); [apply CR; right; right; left; reflexivity|rewrite <- Sm; exact Bm]. } subst b.
  assert (Hl : end_ h o :: r <> []) by discriminate. destruct (exists_last Hl) as (r0 & p' & El).
  assert (Ep : p' = p).
  { apply (bd_inj S m bd K p' p u); [|exact Bp]. apply CR. rewrite El. clear.
    assert (X : Permutation (ces ((r0 ++ [p']) ++ [u; w; end_ h n])) (ces (u :: w :: end_ h n :: r0 ++ [p']))) by (apply Permutation_sym, (ces_rot [u; w; end_ h n] (r0 ++ [p']))).
    apply (Permutation_in _ X). rewrite <- app_assoc. cbn [app]. apply ces_edge. exists (length r0).
    split; [rewrite nth_error_app2, Nat.sub_diag by lia; reflexivity|].
    rewrite app_length. cbn [length]. rewrite Nat.mod_small by lia. rewrite nth_error_app2 by lia. replace (Datatypes.S (length r0) - length r0) with 1 by lia. reflexivity. }
  subst p'.
  assert (F : corners (filter (fun q => negb (point_eqb q w)) L) = corners (u :: end_ h n :: end_ h o :: r)).
  { assert (Fr : filter (fun q => negb (point_eqb q w)) (u :: w :: end_ h n :: end_ h o :: r) = u :: end_ h n :: end_ h o :: r).
    { cbn [filter]. rewrite (proj2 (point_eqb_neq u w) Nuw), (proj2 (point_eqb_eq w w) eq_refl). cbn [negb]. f_equal. apply (filter_out w (end_ h n :: end_ h o :: r)).
      apply NoDup_cons_iff in NR. destruct NR as (_ & NR). apply NoDup_cons_iff in NR. apply NR. }
    rewrite <- Fr, <- E2, EL, !filter_app. apply corners_rot.
    - rewrite <- filter_app. apply NoDup_filter, NL.
    - rewrite app_length, Nat.add_comm, <- app_length, <- filter_app, E2, Fr. cbn [length]. lia. }
  rewrite F, (corners_cycle _ _ _ Cy CyR).
  apply (ear_steers h e u w (end_ h n) (end_ h o) p r r0 eq_refl eq_refl Sn eq_refl Sm eq_refl C1 C2 El C).
Qed.
Lemma hull_ears ctx points t h es e : NoDup points -> spread points -> (2 <= length points -> is_change (length points) (ctx_coins ctx (length points))) ->
  delaunay ctx points = Ok (t, h) -> to_boundary_edges (ctx_fuel ctx) h t = Ok es -> In e es -> 4 <= length es ->
  ~ collinear (start h e) (end_ h e) (end_ h (right_from_end h e)) ->
  corners (filter (fun p => negb (point_eqb p (end_ h e))) (List.map (start h) es)) = (corners (List.map (start h) es) + ear_to_increment h e)%Z.
Proof.
  intros N NC Coins H1 H2 Ie L4 C.
  destruct (hull_state ctx points N Coins t h NC H1) as (ep & P & m & Fa & inj & R & T & K & Rl & Rr & Hl1 & Hr1). set (S := isort point_leb points) in *.
  pose proof (hull_cycle ctx points t h es ep P m inj NC R T K Rl Hl1 H2) as Cy. destruct (boundary_bd h P S m _ t _ es R K Rl H2) as (Nes & All & _).
  fold S in Cy. set (L := List.map (start h) es) in *.
  assert (Sh : shape S h t (points_set L) P m (hd S m) L).
  { split; auto; [|intros u Hu; apply points_set_in, Hu]. apply (triangulation_good ctx points t h). apply QuadSpec.triangulation_delaunay, H1. }
  apply (ear_corners S h t (points_set L) P m (hd S m) L e Sh); auto. unfold L. rewrite map_length. exact L4.
Qed.
