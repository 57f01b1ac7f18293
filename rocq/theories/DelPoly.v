(** [to_polygon]: the border is a closed curve that does not meet itself, counterclockwise, and
    the holes lie inside it. *)
From Coq Require Import List Lia Permutation Sorted.
From Verif Require Import Base Utils Geometry Ctx Spec WindSpec QcTac QcFast GeomProofs ListProofs LoopProofs CycEdge SeparationProofs SegmentProofs EdgeProofs
  QuadEdge Triangulation Factories QuadProofs TriProofs CarveProofs CyclicProofs CompressProofs SequenceProofs HullProofs MultiProofs
  DelGeo DelCyc DelMap DelFan DelOps DelCand DelMerge DelStart DelHeap DelFind DelAll DelHull DelCarve DelWind DelBorder DelRim Jordan DelGreen.
Import ListNotations.
Open Scope nat_scope.

(** ** Points that no hole uses are on no hole. *)
Lemma firstn_skipn_in {A} n (l : list A) x : In x l -> In x (firstn n l) \/ In x (skipn n l).
Proof. intros H. rewrite <- (firstn_skipn n l) in H. apply in_app_or, H. Qed.
Lemma skipn_more {A} (x : A) : forall j n l, j <= n -> In x (skipn n l) -> In x (skipn j l).
Proof.
  induction j as [|j IH]; intros n l Hj H; [cbn; rewrite <- (firstn_skipn n l); apply in_or_app; right; exact H|].
  destruct n as [|n]; [lia|]. destruct l as [|y l]; [destruct H|]. cbn [skipn] in *. apply (IH n); [lia|exact H].
Qed.
Lemma sorted_cut {A} (R : A -> A -> Prop) n l x y : StronglySorted R l -> In x (firstn n l) -> In y (skipn n l) -> R x y.
Proof.
  revert l. induction n as [|n IH]; intros l Hs Hx Hy; [destruct Hx|]. destruct l as [|z l]; [destruct Hx|].
  apply StronglySorted_inv in Hs. destruct Hs as (Hs & Hf). cbn [firstn skipn] in *. destruct Hx as [<- |Hx]; [|eapply IH; eassumption].
  rewrite Forall_forall in Hf. apply Hf. rewrite <- (firstn_skipn n l). apply in_or_app. right. exact Hy.
Qed.
Lemma hole_loop_clean ctx sizes : forall choices prior inner hs bp hs' bp',
  (forall s, In s sizes -> (1 <= s)%Z) -> (forall k, prior = Some k -> StronglySorted (kle k) inner) ->
  hole_loop ctx sizes choices prior inner hs bp = Ok (hs', bp') ->
  forall q, In q inner -> ~ In q bp' -> forall vs a b, In vs hs' -> In a vs -> In b vs -> In vs hs \/ ~ on_segment q a b.
Proof.
  induction sizes as [|size sizes IH]; intros choices prior inner hs bp hs' bp' Hs Hp H q Iq Nq vs a b Hv Ha Hb.
  { cbn in H. injection H as <- <-. auto. }
  destruct choices as [|k choices]; cbn [hole_loop] in H.
  { injection H as <- <-. auto. }
  destruct (resorted prior k inner Hp) as (S1 & I1 & _).
  set (inner' := if (_ : bool) then inner else sort_points k inner) in *. clearbody inner'.
  apply rbind_ok in H. destruct H as (ws & Hw & H). apply (proj2 (I1 q)) in Iq.
  destruct (MIN_CONTOUR_SIZE <=? lenZ ws)%Z eqn:E.
  - apply rbind_ok in H. destruct H as (u & _ & H). apply rbind_ok in H. destruct H as (touch & _ & H).
    assert (Hs' : forall s, In s sizes -> (1 <= s)%Z) by (intros s Hin; apply Hs; right; exact Hin).
    assert (H1 : (1 <= size)%Z) by (apply Hs; left; reflexivity).
    set (hp := py_take inner' size) in *.
    set (n := Z.to_nat size).
    assert (Et : hp = firstn n inner') by (unfold hp; rewrite take_pos by lia; reflexivity).
    assert (Len : (lenZ hp = Z.of_nat (length (firstn n inner')))%Z) by (rewrite <- Et; reflexivity).
    assert (Bp : incl hp bp').
    { pose proof H as H'. apply hole_loop_spec in H'; [|exact Hs'|intros k' Ek; injection Ek as <-; unfold py_drop; apply skipn_sorted, S1].
      destruct H' as (new & _ & _ & _ & _ & Hb1 & _). intros p Hin. apply Hb1. apply add_points_in. left. exact Hin. }
    assert (Nh : ~ In q hp) by (intros h; apply Nq, Bp, h).
    assert (Iq' : In q (skipn n inner')) by (destruct (firstn_skipn_in n _ _ Iq) as [h|h]; [rewrite <- Et in h; contradiction|exact h]).
    assert (Iq2 : In q (py_drop inner' (lenZ hp - b2z touch))).
    { assert (Hd : forall j, j <= n -> In q (skipn j inner')).
      { intros j Hj. apply (skipn_more q j n); assumption. }
      rewrite firstn_length in Len. pose proof (b2z_range touch) as Ht.
      destruct (Z_le_gt_dec 0 (lenZ hp - b2z touch)) as [h|h].
      - rewrite drop_pos by lia. apply Hd. lia.
      - assert (Hl : lenZ hp = 0%Z) by lia. exfalso. rewrite Hl in Len.
        assert (n0 : n = 0 \/ length inner' = 0) by lia. destruct n0 as [n0|n0]; [unfold n in n0; lia|]. destruct inner'; [destruct Iq|discriminate]. }
    assert (Sd : forall k', Some k = Some k' -> StronglySorted (kle k') (py_drop inner' (lenZ hp - b2z touch))).
    { intros k' Ek. injection Ek as <-. unfold py_drop. apply skipn_sorted, S1. }
    destruct (IH _ _ _ _ _ _ _ Hs' Sd H q Iq2 Nq vs a b Hv Ha Hb) as [K|K]; [|auto].
    apply in_app_or in K. destruct K as [K|[<- |[]]]; [auto|right].
    apply (proj1 (reverse_in _ _)) in Ha, Hb. apply (to_vertex_sequence_in _ _ _ _ _ Hw) in Ha, Hb.
    intros O. destruct (on_segment_cases _ _ _ O) as [e|[e|I]]; [subst a; contradiction|subst b; contradiction|].
    assert (L : forall x, In x hp -> kle k x q).
    { intros x Hx. rewrite Et in Hx. apply (sorted_cut (kle k) n inner'); assumption. }
    pose proof (inside_lt _ _ _ (kpt k q) (kpt_inside k _ _ _ I) (L a Ha) (L b Hb)) as F. apply (plt_irrefl _ F).
  - eapply IH; [| |exact H|exact Iq|exact Nq|exact Hv|exact Ha|exact Hb]; [intros s Hin; apply Hs; right; exact Hin|].
    intros k' Ek. injection Ek as <-. exact S1.
Qed.

(** ** The list of boundary edges is the boundary. *)
Lemma boundary_bd h P S m bd t fuel es : rep h P S m -> carved S m bd -> rim h P bd (left_side t) -> to_boundary_edges fuel h t = Ok es ->
  let L := List.map (start h) es in
  NoDup es /\ (forall e, In e es -> rim h P bd e) /\ NoDup L /\ 2 <= length L /\ In (left_side t) es
  /\ (forall a b, In (a, b) (ces L) -> exists e, In e es /\ start h e = a /\ end_ h e = b)
  /\ (forall e, In e es -> In (start h e, end_ h e) (ces L)).
Proof.
  intros R K (Pl & Bl) H L. destruct (boundary_cycle h (rp_wf _ _ _ _ R) t fuel es (rp_live _ _ _ _ R _ Pl) H) as (Ne & N & _ & H0 & Hn).
  assert (Step : forall e, rim h P bd e -> rim h P bd (right_from_end h e) /\ start h (right_from_end h e) = end_ h e).
  { intros e (Pe & Be). unfold right_from_end. change (left_from_start h (opposite e)) with (lfs h (opposite e)).
    destruct (rp_lfs _ _ _ _ R _ (rp_opp _ _ _ _ R _ Pe)) as (P1 & s1 & f1). rewrite start_opposite, end_opposite in *. split; [split; [exact P1|]|exact s1].
    rewrite s1, f1. apply (k_next _ _ _ K), Be. }
  assert (All : forall i e, nth_error es i = Some e -> rim h P bd e).
  { induction i as [|i IH]; intros e He; [rewrite H0 in He; injection He as <-; split; assumption|].
    destruct (nth_error es i) as [e'|] eqn:Ei.
    - pose proof (Hn i e' Ei) as Hs. assert (Hl : Datatypes.S i < length es) by (apply nth_error_Some; congruence).
      rewrite Nat.mod_small in Hs by exact Hl. rewrite He in Hs. injection Hs as ->. apply Step, (IH _ eq_refl).
    - exfalso. apply nth_error_None in Ei. assert (Datatypes.S i < length es) by (apply nth_error_Some; congruence). lia. }
  assert (All' : forall e, In e es -> rim h P bd e) by (intros e He; apply In_nth_error in He; destruct He as (i & Hi); apply (All i), Hi).
  assert (Uniq : forall e e', In e es -> In e' es -> start h e = start h e' -> e = e').
  { intros e e' He He' E. destruct (All' e He) as (Pe & Be). destruct (All' e' He') as (Pe' & Be'). apply (rp_uniq _ _ _ _ R); auto.
    rewrite <- E in Be'. apply (k_fun _ _ _ K (start h e)); assumption. }
  assert (NL : NoDup L).
  { unfold L. clear -N Uniq. induction es as [|e es IH]; [constructor|]. apply NoDup_cons_iff in N. destruct N as (N1 & N). cbn [List.map]. constructor.
    - intros h'. apply in_map_iff in h'. destruct h' as (e' & E & He'). apply N1. rewrite (Uniq e e'); auto; [left; reflexivity|right; exact He'].
    - apply IH; [exact N|]. intros x y Hx Hy. apply Uniq; right; assumption. }
  assert (Lm : length L = length es) by apply map_length.
  assert (Out : forall e, In e es -> In (start h e, end_ h e) (ces L)).
  { intros e He. apply ces_edge. pose proof (All' e He) as Re. apply In_nth_error in He. destruct He as (i & Hi). exists i. unfold L. rewrite map_length.
    rewrite !nth_error_map, Hi, (Hn i e Hi). cbn [option_map]. split; [reflexivity|]. f_equal. apply Step, Re. }
  split; [exact N|]. split; [exact All'|]. split; [exact NL|]. split; [|split; [apply (nth_error_In _ 0), H0|split; [|exact Out]]].
  - rewrite Lm. destruct es as [|e [|e' es]]; [congruence| |cbn; lia]. exfalso.
    pose proof (Hn 0 e eq_refl) as Hs. cbn in Hs. injection Hs as Hs. destruct (Step e (All 0 e eq_refl)) as (_ & Es). rewrite <- Hs in Es.
    destruct (All 0 e eq_refl) as (Pe & _). apply (l_ne _ _ (rp_laws _ _ _ _ R) _ _ (rp_me _ _ _ _ R _ Pe)). symmetry. exact Es.
  - intros a b Hab. destruct (ces_in _ _ _ Hab) as (Ha & _). unfold L in Ha. apply in_map_iff in Ha. destruct Ha as (e & <- & He).
    exists e. split; [exact He|]. split; [reflexivity|]. apply (ces_fun L (start h e)); auto.
Qed.
Lemma boundary_again h P S m bd t fuel es L0 : rep h P S m -> carved S m bd -> rim h P bd (left_side t) -> to_boundary_edges fuel h t = Ok es ->
  cycle bd L0 -> cycle bd (List.map (start h) es).
Proof.
  intros R K Rl H Cy. destruct (boundary_bd h P S m bd t fuel es R K Rl H) as (N & All & NL & L2 & Il & In1 & Out).
  set (L := List.map (start h) es) in *. split; [exact NL|]. split; [exact L2|]. pose proof Cy as (N0 & _ & C0).
  assert (Sub : forall a b, In (a, b) (ces L) -> bd a b) by (intros a b Hab; destruct (In1 _ _ Hab) as (e & He & <- & <-); apply All, He).
  intros a b. split; [|apply Sub]. intros B.
  assert (Ia : In a L).
  { apply (ces_closed (fun x => In x L) L0 (start h (left_side t)) a).
    - intros x y Hxy Hx. apply C0 in Hxy. destruct (ces_out _ _ Hx) as (z & Hz). rewrite (k_fun _ _ _ K _ _ _ Hxy (Sub _ _ Hz)). apply (ces_in _ _ _ Hz).
    - apply (cycle_vertex _ _ _ Cy). eexists. apply Rl.
    - apply in_map, Il.
    - apply (cycle_vertex _ _ _ Cy). eexists. exact B. }
  destruct (ces_out _ _ Ia) as (z & Hz). rewrite (k_fun _ _ _ K _ _ _ B (Sub _ _ Hz)). exact Hz.
Qed.
Lemma kset_of_list_spec fuel h es : forall s s', NoDup es -> NoDup (List.map snd s) -> (forall e, In e es -> ~ In e (List.map snd s)) ->
  kset_of_list fuel h es s = Ok s' -> NoDup (List.map snd s') /\ forall k d, In (k, d) s' -> In (k, d) s \/ In d es.
Proof.
  induction es as [|e es IH]; intros s s' N Ns D H; cbn [kset_of_list] in H; [injection H as <-; auto|].
  apply rbind_ok in H. destruct H as (s1 & H1 & H). apply NoDup_cons_iff in N. destruct N as (Ne & N).
  destruct (kset_add_spec _ _ _ _ _ Ns (D e (or_introl eq_refl)) H1) as (A1 & A2 & _).
  destruct (IH s1 s' N A1) with (2 := H) as (B1 & B2).
  - intros x Hx I. apply in_map_iff in I. destruct I as ((k & y) & <- & I). cbn [snd] in *. destruct (A2 _ _ I) as [J|J].
    + apply (D y); [right; exact Hx|apply (in_map snd _ _ J)].
    + subst y. contradiction.
  - split; [exact B1|]. intros k d Hd. destruct (B2 _ _ Hd) as [X|X]; [|right; right; exact X]. destruct (A2 _ _ X) as [Y| ->]; [auto|right; left; reflexivity].
Qed.

(** ** Collinear points make no border. *)
Lemma some_dec {A} (Q : A -> Prop) (l : list A) : (forall x, {Q x} + {~ Q x}) -> {exists x, In x l /\ Q x} + {~ exists x, In x l /\ Q x}.
Proof. intros D. destruct (ex_in_dec Q l D) as [h|h]; [left; exact h|right]. intros (x & Hx & q). apply (h x Hx q). Qed.
Lemma all_collinear S : (forall a b, In a S -> In b S -> a <> b -> exists c, In c S /\ cross a b c <> 0%Qc) \/
  (forall a b c, In a S -> In b S -> In c S -> cross a b c = 0%Qc).
Proof.
  destruct (ex_in_dec (fun a => exists b, In b S /\ exists c, In c S /\ cross a b c <> 0%Qc) S) as [(p & Ip & q & Iq & r & Ir & Npqr)|F].
  { intros a. apply some_dec. intros b. apply some_dec. intros c. destruct (Qc_eq_dec (cross a b c) 0); [right; tauto|left; assumption]. }
  - left. intros a b Ia Ib n. destruct (Qc_eq_dec (cross a b p) 0) as [z1|]; [|exists p; auto]. destruct (Qc_eq_dec (cross a b q) 0) as [z2|]; [|exists q; auto].
    destruct (Qc_eq_dec (cross a b r) 0) as [z3|]; [|exists r; auto]. exfalso. apply Npqr.
    destruct (line_param a b p n z1) as (s & s1 & s2). destruct (line_param a b q n z2) as (t & t1 & t2). destruct (line_param a b r n z3) as (u & u1 & u2).
    unfold cross. rewrite s1, s2, t1, t2, u1, u2. ring.
  - right. intros a b c Ia Ib Ic. destruct (Qc_eq_dec (cross a b c) 0) as [z|z]; [exact z|]. exfalso. apply (F a Ia). exists b. split; [exact Ib|]. exists c. auto.
Qed.
Lemma flat_segments hs s : In s (flat_map contour_segments hs) <-> exists vs, In vs hs /\ contour_edge vs (seg_start s) (seg_end s).
Proof.
  rewrite in_flat_map. split; intros (vs & H1 & H2); exists vs; (split; [exact H1|]); apply contour_segment_edge, H2.
Qed.
Lemma edge_vertices vs a b : contour_edge vs a b -> In a vs /\ In b vs.
Proof. intros H. apply ces_edge in H. apply ces_in, H. Qed.

(** ** The state in which the border loop starts, and what it ends with. *)
Section T.
Context (ctx : context) (points : list point) (N : NoDup points).
Context (Coins : (2 <= length points)%nat -> is_change (length points) (ctx_coins ctx (length points))).
Context (Near : forall l s, l <> [] -> is_nearest l s (ctx_nearest ctx l s)).
Let S := isort point_leb points.
Lemma sorted_in p : In p S <-> In p points.
Proof. apply isort_in. Qed.

Definition border_of (p : polygon) : Prop :=
  jordan (border p) /\ 3 <= length (border p) /\ strict (border p) /\ (0 < doubled_area (border p))%Qc /\ incl (border p) points
  /\ (forall vs q, In vs (holes p) -> on_contour q vs -> ~ on_contour q (border p))
  /\ (forall vs q, In vs (holes p) -> In q vs -> winding q (border p) = 1%Z).

Definition spread : Prop := forall a b, In a S -> In b S -> a <> b -> exists c, In c S /\ cross a b c <> 0%Qc.
Lemma hull_state t h : spread -> delaunay ctx points = Ok (t, h) -> exists ep P m,
  faithful ep S /\ (forall a b, In a S -> In b S -> phi ep a = phi ep b -> a = b) /\ rep h P S m /\ DT S m /\ carved S m (hd S m)
  /\ rim h P (hd S m) (left_side t) /\ rim h P (hd S m) (opposite (right_side t))
  /\ (forall q, In q S -> q <> start h (left_side t) -> (phi ep (start h (left_side t)) < phi ep q)%Qc)
  /\ (forall q, In q S -> q <> start h (right_side t) -> (phi ep q < phi ep (start h (right_side t)))%Qc).
Proof.
  intros NC H1.
  destruct (delaunay_spec ctx points t h N Coins H1) as (ep & P & m & A & [R T (Pl & Hl1 & Hl2 & Hl3) (Pr & Hr1 & Hr2 & Hr3)]). fold S in A, R, T, Hl1, Hl2, Hl3, Hr1, Hr2, Hr3.
  assert (W : laws S m) by apply T.
  assert (Fa : faithful ep S).
  { assert (St : StronglySorted plt S) by (apply isort_points_strict, N). intros a b Ia Ib' Lt.
    clear -A St Ia Ib' Lt. clearbody S. unfold asc in A. induction S as [|z l IH]; [destruct Ia|].
    apply StronglySorted_inv in A, St. destruct A as (A1 & A2), St as (St1 & St2). rewrite Forall_forall in A2, St2.
    destruct Ia as [<- |Ia]; destruct Ib' as [<- |Ib'].
    - destruct (plt_irrefl _ Lt).
    - apply A2, Ib'.
    - exfalso. apply (plt_irrefl z). apply plt_trans with a; [apply St2, Ia|exact Lt].
    - apply IH; assumption. }
  assert (inj : forall a b, In a S -> In b S -> phi ep a = phi ep b -> a = b).
  { intros a b Ia Ib' e. destruct (plt_total a b) as [h'|[h'|h']]; [pose proof (Fa a b Ia Ib' h') as F; rewrite e in F; ql|exact h'|pose proof (Fa b a Ib' Ia h') as F; rewrite e in F; ql]. }
  pose proof (hull_carved S m T NC) as K. set (bd := hd S m) in *.
  assert (Rl : rim h P bd (left_side t)) by (split; [exact Pl|]; split; [exact Hl1|exact Hl3]).
  assert (Rr : rim h P bd (opposite (right_side t))).
  { split; [apply (rp_opp _ _ _ _ R), Pr|]. rewrite start_opposite, end_opposite. split; [apply (l_sym _ _ W), Hr1|].
    intros q Hq. rewrite cross_flip. pose proof (Hr3 q Hq). ql. }
  exists ep, P, m. do 8 (split; [assumption|]). exact Hr2.
Qed.
Definition ends_in (hes : list segment) : Prop := forall s, In s hes -> In (seg_start s) S /\ In (seg_end s) S.
Definition rest_clean (hes : list segment) (bp : list point) : Prop := forall v, In v S -> ~ In v bp -> clean hes v.
Definition on_holes (hes : list segment) (bp : list point) (HQ : point -> Prop) : Prop :=
  forall q, HQ q -> In q S /\ In q bp /\ exists s, In s hes /\ (q = seg_start s \/ q = seg_end s).
Lemma border_start t h es hs bp cands sizes choices : (forall s, In s sizes -> (1 <= s)%Z) -> spread ->
  delaunay ctx points = Ok (t, h) -> to_boundary_edges (ctx_fuel ctx) h t = Ok es ->
  hole_loop ctx sizes choices None (filter (fun p => negb (mem_point p (points_set (List.map (start h) es)))) (points_set points)) []
    (points_set (List.map (start h) es)) = Ok (hs, bp) ->
  kset_of_list (ctx_fuel ctx) h (filter (polygon_is_mouth ctx (flat_map contour_segments hs) h bp) es) [] = Ok cands ->
  let hes := flat_map contour_segments hs in let L := List.map (start h) es in let HQ := fun q => exists vs, In vs hs /\ In q vs in
  ends_in hes /\ rest_clean hes bp /\ on_holes hes bp HQ /\ exists P m bd,
  binv hes S bp HQ (PState h t bp cands (List.map (fun e => (e, to_edge_neighbours h e)) es) (lenZ (compress_contour L))) P m bd L /\ (forall a b, bd a b -> forall q, In q S -> (0 <= cross a b q)%Qc).
Proof.
  intros Hs NC H1 H2 H3 H4 hes0 L0 HQ0. unfold hes0, L0, HQ0. clear hes0 L0 HQ0.
  destruct (hull_state t h NC H1) as (ep & P & m & Fa & inj & R & T & K & Rl & Rr & Hl2 & Hr2).
  pose proof (proj1 Rl) as Pl. pose proof (proj1 Rr) as Pr. assert (W : laws S m) by apply T. set (bd := hd S m) in *.
  destruct (boundary_bd h P S m bd t _ es R K Rl H2) as (Nes & All & NL & L2 & Il & In1 & Out).
  set (L := List.map (start h) es) in *.
  assert (Cy : cycle bd L).
  { split; [exact NL|]. split; [exact L2|]. intros a b. split.
    - intros B. refine (one_cycle S m T NC ep (fun a b => In (a, b) (ces L)) (start h (left_side t)) (end_ h (left_side t)) inj _ _ (Out _ Il) _ a b B).
      + intros x y Hxy. destruct (In1 _ _ Hxy) as (e & He & <- & <-). apply (All e He).
      + intros x y Hxy. destruct (In1 _ _ Hxy) as (e & He & <- & <-). pose proof (proj2 (All e He)) as Be. pose proof (k_next _ _ _ K _ _ Be) as Bn.
        destruct (ces_in _ _ _ Hxy) as (_ & Hy). destruct (ces_out _ _ Hy) as (z & Hz).
        assert (Bz : bd (end_ h e) z) by (destruct (In1 _ _ Hz) as (e' & He' & <- & <-); apply (All e' He')).
        rewrite (k_fun _ _ _ K _ _ _ Bn Bz). exact Hz.
      + intros q Hq. destruct (point_eq_dec q (start h (left_side t))) as [-> |n]; [ql|]. pose proof (Hl2 q Hq n). ql.
    - intros Hab. destruct (In1 _ _ Hab) as (e & He & <- & <-). apply (All e He). }
  set (bp1 := points_set L) in *. set (inner := filter (fun p => negb (mem_point p bp1)) (points_set points)) in *.
  assert (InL : forall q, In q inner <-> In q S /\ forall c, ~ bd q c).
  { intros q. unfold inner. rewrite filter_In, points_set_in, <- sorted_in. split; intros (I1 & I2); (split; [exact I1|]).
    - intros c B. apply negb_true_iff in I2. apply mem_point_false in I2. apply I2. unfold bp1. apply points_set_in. apply (cycle_vertex _ _ _ Cy). exists c. exact B.
    - apply negb_true_iff. destruct (mem_point q bp1) eqn:E; [|reflexivity]. exfalso. apply mem_point_in in E. unfold bp1 in E. apply (proj1 (points_set_in _ _)) in E.
      apply (cycle_vertex _ _ _ Cy) in E. destruct E as (c & E). apply (I2 c E). }
  pose proof (hole_loop_clean ctx sizes choices None inner [] bp1 hs bp Hs ltac:(discriminate) H3) as Cln.
  pose proof H3 as H3'. apply hole_loop_spec in H3'; [|exact Hs|discriminate]. destruct H3' as (new & En & Hn & _ & Hb & Hb1 & Hb2). cbn [app] in En. subst new.
  set (hes := flat_map contour_segments hs) in *.
  set (HQ := fun q => exists vs, In vs hs /\ In q vs).
  assert (Vin : forall vs q, In vs hs -> In q vs -> In q S /\ forall c, ~ bd q c).
  { intros vs q Hv Hq. apply InL. apply (Hn vs Hv), Hq. }
  assert (Hes : forall s, In s hes -> exists vs, In vs hs /\ In (seg_start s) vs /\ In (seg_end s) vs).
  { intros s I. apply (proj1 (flat_segments _ _)) in I. destruct I as (vs & Hv & E). exists vs. split; [exact Hv|]. apply edge_vertices, E. }
  assert (Rest : forall v, In v S -> ~ In v bp -> clean hes v).
  { intros v Iv Nv s I O. destruct (Hes s I) as (vs & Hv & Ha & Hb'). assert (Ii : In v inner).
    { apply InL. split; [exact Iv|]. intros c B. apply Nv, Hb1. unfold bp1. apply points_set_in. apply (cycle_vertex _ _ _ Cy). exists c. exact B. }
    destruct (Cln v Ii Nv vs _ _ Hv Ha Hb') as [[]|X]. apply X, O. }
  assert (HQS : forall q, HQ q -> In q S /\ In q bp /\ exists s, In s hes /\ (q = seg_start s \/ q = seg_end s)).
  { intros q (vs & Hv & Hq). split; [apply (Vin vs q Hv Hq)|]. split; [eapply Hb; eassumption|].
    destruct (ces_out vs q Hq) as (b & Hb'). apply ces_edge in Hb'. exists (Seg q b). split; [|left; reflexivity]. apply flat_segments. exists vs. auto. }
  assert (Ends : forall s, In s hes -> In (seg_start s) S /\ In (seg_end s) S).
  { intros s I. destruct (Hes s I) as (vs & Hv & Ha & Hb'). split; [apply (Vin _ _ Hv Ha)|apply (Vin _ _ Hv Hb')]. }
  assert (I0 : binv hes S bp HQ (PState h t bp cands (List.map (fun e => (e, to_edge_neighbours h e)) es) (lenZ (compress_contour L))) P m bd L).
  { split; cbn [p_heap p_tri p_points p_cands p_neighbours]; auto.
    - intros x Hx. apply Hb1. unfold bp1. apply points_set_in, Hx.
    - apply incl_refl.
    - intros x y B s I (p & O1 & O2). cbn [seg_start seg_end] in O2. destruct (Hes s I) as (vs & Hv & Ha & Hb').
      destruct (Vin _ _ Hv Ha) as (Sa & Na). destruct (Vin _ _ Hv Hb') as (Sb & Nb).
      pose proof (inner_left S m T x y _ B Sa Na) as p1. pose proof (inner_left S m T x y _ B Sb Nb) as p2.
      destruct O1 as (s1 & s10 & s11 & X & Y). destruct O2 as (s2 & s20 & s21 & X' & Y').
      assert (e1 : (cross x y p = (1 - s1) * cross x y (seg_start s) + s1 * cross x y (seg_end s))%Qc) by (unfold cross; rewrite X, Y; ring).
      assert (e2 : (cross x y p = 0)%Qc) by (unfold cross; rewrite X', Y'; ring).
      destruct (Qcle_lt_or_eq _ _ s10) as [z|z].
      + pose proof (mul_pos _ _ z p2). pose proof (mul_nonneg (1 - s1) (cross x y (seg_start s)) ltac:(ql) ltac:(ql)). ql.
      + rewrite <- z in e1. assert (e3 : ((1 - Q2Qc 0) * cross x y (seg_start s) + Q2Qc 0 * cross x y (seg_end s) = cross x y (seg_start s))%Qc) by ring. ql.
    - intros q Hq. destruct Hq as (vs & Hv & Hq). destruct (Vin _ _ Hv Hq) as (Sq & Nq).
      apply (hull_winding S m T ep L (start h (left_side t)) (end_ h (left_side t)) (start h (right_side t)) q Fa Cy); auto.
      + apply Rl.
      + intros p Hp. destruct (point_eq_dec p (start h (left_side t))) as [-> |n]; [ql|]. pose proof (Hl2 p Hp n). ql.
      + exists (end_ h (right_side t)). pose proof (proj2 Rr) as X. rewrite start_opposite, end_opposite in X. exact X.
      + intros p Hp. destruct (point_eq_dec p (start h (right_side t))) as [-> |n]; [ql|]. pose proof (Hr2 p Hp n). ql.
    - apply kset_of_list_spec in H4; [|apply NoDup_filter, Nes|constructor|intros e _ []]. destruct H4 as (B1 & B2). split; [|exact B1].
      intros k e He. destruct (B2 _ _ He) as [[]|X]. apply filter_In in X. apply All, X.
    - intros e nb He. apply in_map_iff in He. destruct He as (e' & X & He). injection X as <- <-. pose proof (All _ He) as Re. split; [exact Re|].
      apply (nb_edges S h P m bd e' R K Re).
    - intros e Re. pose proof (proj2 Re) as Be. apply Cy in Be. destruct (In1 _ _ Be) as (e' & He & s' & f'). exists (to_edge_neighbours h e).
      assert (e' = e) by (apply (rp_uniq _ _ _ _ R); auto; [apply (All _ He)|apply Re]). subst e'. apply in_map_iff. exists e. auto. }
  split; [exact Ends|]. split; [exact Rest|]. split; [exact HQS|]. exists P, m, bd. split; [exact I0|]. intros a b B. apply B.
Qed.
Lemma to_polygon_border size sizes choices p : (forall s, In s sizes -> (1 <= s)%Z) ->
  to_polygon ctx points size sizes choices = Ok p -> border_of p.
Proof.
  intros Hs H. pose proof (to_polygon_spec _ _ _ _ _ _ Hs H) as (Ib & L3 & _).
  unfold to_polygon in H. apply rbind_ok in H. destruct H as ((t & h) & H1 & H).
  apply rbind_ok in H. destruct H as (es & H2 & H). apply rbind_ok in H. destruct H as ((hs & bp) & H3 & H).
  apply rbind_ok in H. destruct H as (cands & H4 & H). apply rbind_ok in H. destruct H as (st & H5 & H).
  apply rbind_ok in H. destruct H as (bv & H6 & H). apply rbind_ok in H. destruct H as (u & _ & H). injection H as <-.
  cbn [border holes] in *.
  unfold triangulation_to_border_vertices in H6. apply rbind_ok in H6. destruct H6 as (es' & H6 & H7). injection H7 as <-.
  destruct (all_collinear S) as [NC|Col].
  2: { exfalso. remember (compress_contour (List.map (start (p_heap st)) es')) as l eqn:El. assert (E : exists a b c r, l = a :: b :: c :: r).
       { destruct l as [|a [|b [|c r]]]; cbn [length] in L3; try lia. exists a, b, c, r. reflexivity. }
       destruct E as (a & b & c & r & E). apply (compressed_inner (List.map (start (p_heap st)) es') a b c 0); rewrite <- ?El; try (rewrite E; reflexivity); [exact L3|].
       rewrite E in Ib. apply Col; apply sorted_in, Ib; cbn; auto. }
  destruct (border_start t h es hs bp cands sizes choices Hs NC H1 H2 H3 H4) as (Ends & Rest & HQS & P & m & bd & I0 & _).
  set (hes := flat_map contour_segments hs) in *. set (L := List.map (start h) es) in *. set (HQ := fun q => exists vs, In vs hs /\ In q vs) in *.
  apply (while_ok (fun st => exists P m bd L, binv hes S bp HQ st P m bd L) (fun st => exists P m bd L, binv hes S bp HQ st P m bd L)) in H5.
  2: { intros s Is. pose proof (border_step_keeps ctx hes S bp HQ Near Ends Rest HQS (ctx_fuel ctx) size s Is) as X. destruct (border_step _ _ _ _ s) as [[?|?]|?]; auto. }
  2: { exists P, m, bd, L. exact I0. }
  destruct H5 as (P' & m' & bd' & L' & [R' K' Cy' Lf' _ _ _ Cl' Wi' _ _ _]).
  pose proof (boundary_again _ P' S m' bd' _ _ es' L' R' K' Lf' H6 Cy') as Cy2. set (L'' := List.map (start (p_heap st)) es') in *.
  pose proof (cycle_three S m' bd' K' L'' Cy2) as L3'. pose proof (cycle_jordan S m' bd' K' L'' Cy2) as J. pose proof (cycle_area S m' bd' K' L'' Cy2) as Ar.
  destruct (compress_jordan L'' L3' J) as (J1 & J2 & J3 & J4 & J5).
  split; [exact J1|]. split; [exact J2|]. split; [exact J3|]. split; [cbn [border]; rewrite compress_area; exact Ar|]. split; [exact Ib|].
  cbn [border holes]. split.
  - intros vs q Hv O O'. apply J4 in O'. destruct O as (a & b & E & O). destruct O' as (c & d & E' & O').
    apply ces_edge in E'. apply Cy2 in E'. apply (Cl' _ _ E' (Seg a b)); [apply flat_segments; exists vs; auto|]. exists q. auto.
  - intros vs q Hv Hq. rewrite J5, winding_wsum.
    assert (Pm : Permutation (ces L'') (ces L')).
    { apply NoDup_Permutation; [apply ces_nodup, Cy2|apply ces_nodup, Cy'|]. intros (a & b). rewrite <- (proj2 (proj2 Cy2)), <- (proj2 (proj2 Cy')). reflexivity. }
    rewrite (wsum_perm q _ _ Pm). apply Wi'. exists vs. auto.
Qed.
End T.
