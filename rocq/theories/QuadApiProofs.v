(** The quad-edge operations on every structure that can be built. *)
From Verif Require Import Base Geometry Ctx QuadEdge Utils Triangulation Factories Spec QuadSpec LoopProofs ListProofs
  QcTac GeomProofs QuadProofs TriProofs CarveProofs MultiProofs.

Lemma directed_live h e : directed_in h e <-> live h e.
Proof.
  unfold directed_in, live, exists_in, valid. destruct e as (i, r). cbn. destruct r; cbn; split; intros (H1 & H2);
  split; auto; try (destruct H2; discriminate); discriminate.
Qed.

Lemma built_wf h : built h -> wf h.
Proof.
  induction 1 as [|h s e _ IH|h a b _ IH Ha Hb|h e o _ IH He Ho|h e _ IH He|h e _ IH He].
  - apply wf_empty.
  - apply from_endpoints_wf, IH.
  - apply splice_wf'; [exact IH|apply directed_live, Ha|apply directed_live, Hb].
  - pose proof (connect_wf h e o IH (proj1 (directed_live _ _) He) (proj1 (directed_live _ _) Ho)) as C.
    destruct (connect h e o) as (r & h'). apply C.
  - apply delete_wf; [exact IH|apply directed_live, He].
  - apply flip_wf; [exact IH|apply directed_live, He].
Qed.

(** *** [_is_convex_quadrilateral_diagonal] implies what [flip] needs. *)
Lemma orientation_same_end a b : orientation_eqb (angle_orientation a b b) COUNTERCLOCKWISE = false.
Proof.
  destruct (orientation_eqb _ _) eqn:E; [|reflexivity]. apply orientation_eqb_eq, orientation_ccw in E.
  exfalso. unfold left_turn, cross in E. qcn.
Qed.
Lemma orientation_same_start a b : orientation_eqb (angle_orientation a b a) COUNTERCLOCKWISE = false.
Proof.
  destruct (orientation_eqb _ _) eqn:E; [|reflexivity]. apply orientation_eqb_eq, orientation_ccw in E.
  exfalso. unfold left_turn, cross in E. qcn.
Qed.
Lemma convex_diagonal_flip h e : good h -> live h e -> is_convex_quadrilateral_diagonal h e = true ->
  start h e <> end_ h e /\ right_from_start h e <> e /\ right_from_start h (opposite e) <> opposite e.
Proof.
  intros Hg L H. unfold is_convex_quadrilateral_diagonal in H. rewrite !andb_true_iff in H. destruct H as (((H1 & _) & H3) & _).
  assert (S1 : start h (right_from_start h e) = start h e) by (apply rings_rfs; try apply Hg; apply L).
  assert (S3 : start h (left_from_end h e) = end_ h e) by (apply start_lfe; try apply Hg; apply L).
  unfold orientation_of in *. rewrite S1 in H1. rewrite S3 in H3. split; [|split].
  - intros E. rewrite <- E, orientation_same_start in H1. discriminate.
  - intros E. rewrite E, orientation_same_end in H1. discriminate.
  - intros E. rewrite lfe_spec, E in H3. unfold end_ in H3. rewrite opposite_opposite, orientation_same_end in H3. discriminate.
Qed.
Lemma flip_good h e : good h -> live h e -> is_convex_quadrilateral_diagonal h e = true -> good (flip h e).
Proof. intros Hg L H. destruct (convex_diagonal_flip h e Hg L H) as (H1 & H2 & H3). apply flip_spec; assumption. Qed.

Lemma drawn_good h : drawn_built h -> good h.
Proof.
  induction 1 as [|h s e _ IH|h a b _ IH Ha Hb E|h e o _ IH He Ho|h e _ IH He|h e _ IH He Hf].
  - apply good_empty.
  - apply from_endpoints_good, IH.
  - apply directed_live in Ha, Hb. apply splice_good; try assumption; try apply Ha; apply Hb.
  - apply directed_live in He, Ho. destruct He as (V1 & P1), Ho as (V2 & P2).
    pose proof (connect_spec h e o IH V1 V2 P1 P2) as C. destruct (connect h e o) as (r & h'). apply C.
  - apply directed_live in He. destruct He. apply delete_spec; assumption.
  - apply flip_good; [exact IH|apply directed_live, He|exact Hf].
Qed.

(** ** C41 *)
Lemma left_from_start_inverse h e : built h -> exists_in h e ->
  exists_in h (left_from_start h e) /\ exists_in h (right_from_start h e) /\
  right_from_start h (left_from_start h e) = e /\ left_from_start h (right_from_start h e) = e.
Proof.
  intros Hb V. pose proof (built_wf h Hb) as W. split; [apply (wf_valid h W), V|]. split; [apply (valid_rfs h W), V|].
  split; [apply (rfs_lfs h W), V|apply (lfs_rfs h W), V].
Qed.
Lemma navigation_directed h e : built h -> directed_in h e ->
  directed_in h (opposite e) /\ directed_in h (left_from_start h e) /\ directed_in h (right_from_start h e) /\
  directed_in h (left_from_end h e) /\ directed_in h (right_from_end h e).
Proof. intros Hb He. pose proof (built_wf h Hb). apply directed_live in He. rewrite !directed_live. auto 6 with live. Qed.
Lemma splice_involutive h a b : built h -> directed_in h a -> directed_in h b -> forall e,
  left_from_start (splice (splice h a b) a b) e = left_from_start h e /\ start (splice (splice h a b) a b) e = start h e.
Proof.
  intros Hb Ha Hb' e. apply directed_live in Ha, Hb'. destruct Ha as (V1 & P1), Hb' as (V2 & P2). split; [|reflexivity].
  apply splice_splice; try assumption; [apply built_wf, Hb|congruence].
Qed.
Lemma connect_delete h e o : built h -> directed_in h e -> directed_in h o -> forall x, exists_in h x ->
  left_from_start (delete (snd (connect h e o)) (fst (connect h e o))) x = left_from_start h x /\
  start (delete (snd (connect h e o)) (fst (connect h e o))) x = start h x.
Proof.
  intros Hb He Ho. apply directed_live in He, Ho. pose proof (delete_connect h e o (built_wf h Hb) He Ho) as C.
  destruct (connect h e o) as (r & h'). exact C.
Qed.
Lemma connect_ends h e o : built h -> directed_in h e -> directed_in h o ->
  start (snd (connect h e o)) (fst (connect h e o)) = end_ h e /\
  end_ (snd (connect h e o)) (fst (connect h e o)) = start h o /\
  ~ exists_in h (fst (connect h e o)) /\ directed_in (snd (connect h e o)) (fst (connect h e o)) /\
  forall x, exists_in h x -> start (snd (connect h e o)) x = start h x.
Proof.
  intros Hb He Ho. apply directed_live in He, Ho. pose proof (connect_wf h e o (built_wf h Hb) He Ho) as C.
  destruct (connect h e o) as (r & h'). cbn [fst snd]. destruct C as (W & -> & Hc & _ & _ & _ & S1 & S2 & S3).
  split; [exact S1|]. split; [exact S2|]. split; [unfold exists_in; cbn; lia|]. split; [|exact S3].
  split; [unfold exists_in; rewrite Hc; cbn; lia|left; reflexivity].
Qed.
(** A deleted edge is alone at its ends; splicing it back restores the structure. *)
Lemma delete_alone h e : built h -> directed_in h e ->
  left_from_start (delete h e) e = e /\ left_from_start (delete h e) (opposite e) = opposite e.
Proof.
  intros Hb He. apply directed_live in He. pose proof (built_wf h Hb) as W.
  rewrite !delete_lfs by auto with live. unfold skip. rewrite !edge_eqb_refl.
  assert (edge_eqb e (opposite e) = false) as -> by (apply edge_eqb_neq; intros E; symmetry in E; revert E; apply opposite_neq).
  split; reflexivity.
Qed.
Lemma delete_undo h e : built h -> directed_in h e -> let h1 := splice h e (right_from_start h e) in forall x,
  left_from_start (splice (splice (delete h e) (opposite e) (right_from_start h1 (opposite e))) e (right_from_start h e)) x
  = left_from_start h x.
Proof.
  intros Hb He h1 x. apply directed_live in He. pose proof (built_wf h Hb) as W.
  assert (W1 : wf h1) by (apply splice_wf'; auto with live).
  assert (L1 : live h1 (opposite e)) by (apply splice_live; auto with live).
  assert (L2 : live h1 (right_from_start h1 (opposite e))) by auto with live.
  set (s := right_from_start h1 (opposite e)) in *. set (h2 := splice h1 (opposite e) s).
  assert (E : forall y, left_from_start (splice h2 (opposite e) s) y = left_from_start h1 y).
  { intros y. apply splice_splice; [exact W1|apply L1|apply L2|]. destruct L1, L2; congruence. }
  change (delete h e) with h2.
  transitivity (left_from_start (splice h1 e (right_from_start h e)) x).
  - rewrite (splice_lfs (splice h2 (opposite e) s)), (splice_lfs h1). unfold turn. rewrite !E. reflexivity.
  - apply splice_splice; [exact W|apply He|apply (live_rfs h e W He)|].
    destruct (live_rfs h e W He) as (_ & P2). destruct He as (_ & P1). congruence.
Qed.

(** ** C42 *)
Lemma ring_start h e : drawn_built h -> directed_in h e ->
  start h (left_from_start h e) = start h e /\ start h (right_from_start h e) = start h e /\
  start h (left_from_end h e) = end_ h e /\ start h (right_from_end h e) = end_ h e.
Proof.
  intros Hb He. apply directed_live in He. destruct He as (V & P). destruct (drawn_good h Hb) as (W & R).
  split; [apply R; assumption|]. split; [apply rings_rfs; assumption|].
  split; [apply start_lfe; assumption|apply start_rfe; assumption].
Qed.
Lemma flip_diagonal h e : drawn_built h -> directed_in h e -> is_convex_quadrilateral_diagonal h e = true ->
  start (flip h e) e = end_ h (right_from_start h e) /\ end_ (flip h e) e = end_ h (left_from_end h e) /\
  (forall x, x <> e -> x <> opposite e -> start (flip h e) x = start h x) /\
  forall x, directed_in (flip h e) x -> start (flip h e) (left_from_start (flip h e) x) = start (flip h e) x.
Proof.
  intros Hb He Hc. pose proof (proj1 (directed_live _ _) He) as L. pose proof (drawn_good h Hb) as G.
  destruct (convex_diagonal_flip h e G L Hc) as (H1 & H2 & H3).
  destruct (flip_spec h G e L H1 H2 H3) as (G' & _ & S1 & S2 & S3).
  split; [exact S1|]. split; [exact S2|]. split; [exact S3|].
  intros x Hx. apply directed_live in Hx. apply G'; apply Hx.
Qed.

(** ** C43 *)
Lemma triangulation_wf ctx pts t h : triangulation_of any_flip ctx pts t h -> wf h /\ live_tri h t.
Proof.
  induction 1 as [t h H|t h e t' h' _ (W & L) He H|t h e _ (W & L) He _].
  - destruct (delaunay_inv (fun _ => True) ctx pts t h (fun _ _ => Logic.I) H) as ((Hg & _) & HL). split; [apply Hg|exact HL].
  - apply directed_live in He. destruct (tri_delete_ok h t e t' h' W L H) as (-> & L'). split; [apply delete_wf; assumption|].
    exact L'.
  - apply directed_live in He. split; [apply flip_wf; assumption|exact L].
Qed.
Lemma triangulation_good ctx pts t h : triangulation_of convex_flip ctx pts t h -> good h /\ live_tri h t.
Proof.
  induction 1 as [t h H|t h e t' h' _ (G & L) He H|t h e _ (G & L) He Hc].
  - destruct (delaunay_inv (fun _ => True) ctx pts t h (fun _ _ => Logic.I) H) as ((Hg & _) & HL). split; [apply Hg|exact HL].
  - apply directed_live in He. destruct (tri_delete_ok h t e t' h' (good_wf h G) L H) as (-> & L'). split; [|exact L'].
    destruct He. apply delete_spec; assumption.
  - apply directed_live in He. split; [apply flip_good; assumption|exact L].
Qed.
Lemma boundary_terminates ctx pts t h fuel : triangulation_of any_flip ctx pts t h -> 2 * h_count h < Pos.to_nat fuel ->
  exists es, to_boundary_edges fuel h t = Ok es.
Proof.
  intros H Hf. destruct (triangulation_wf _ _ _ _ H) as (W & L & _). apply (boundary_walk h W t fuel L). exact Hf.
Qed.
Lemma boundary_is_cycle ctx pts t h fuel es : triangulation_of any_flip ctx pts t h -> to_boundary_edges fuel h t = Ok es ->
  edge_cycle (right_from_end h) es /\ nth_error es 0 = Some (left_side t) /\ forall e, In e es -> directed_in h e.
Proof.
  intros H He. destruct (triangulation_wf _ _ _ _ H) as (W & L & _).
  destruct (boundary_cycle h W t fuel es L He) as (H1 & H2 & H3 & H4 & H5).
  split; [split; [exact H1|split; assumption]|]. split; [exact H4|]. intros e Hin. apply directed_live, H3, Hin.
Qed.
Lemma boundary_joined ctx pts t h fuel es : triangulation_of convex_flip ctx pts t h -> to_boundary_edges fuel h t = Ok es ->
  forall i e, nth_error es i = Some e -> exists e', nth_error es (S i mod length es) = Some e' /\ start h e' = end_ h e.
Proof.
  intros H He i e Hi. destruct (triangulation_good _ _ _ _ H) as (G & L & _).
  destruct (boundary_cycle h (good_wf h G) t fuel es L He) as (H1 & H2 & H3 & H4 & H5).
  exists (right_from_end h e). split; [apply H5, Hi|]. assert (Le : live h e) by (apply H3; eapply nth_error_In, Hi).
  apply start_rfe; try apply G; apply Le.
Qed.

(** ** C44 *)
Lemma delaunay_points ctx pts t h e : delaunay ctx pts = Ok (t, h) -> directed_in h e ->
  In (start h e) pts /\ In (end_ h e) pts.
Proof.
  intros H He. apply directed_live in He.
  destruct (delaunay_inv (fun p => In p pts) ctx pts t h (fun _ H => H) H) as ((_ & S) & _).
  split; [apply S, He|apply S; auto with live].
Qed.

(** ** More of C41 *)
Lemma rotated_order e :
  rotated (rotated (rotated (rotated e))) = e /\ rotated e <> e /\ rotated (rotated e) <> e.
Proof.
  split; [apply rotated4|]. split; [|apply opposite_neq].
  destruct e as (i, []); discriminate.
Qed.
Lemma rotation_compatible h e : built h -> exists_in h e ->
  rotated (left_from_start h (rotated (left_from_start h e))) = e.
Proof. intros Hb V. apply (wf_turn h (built_wf h Hb) e V). Qed.
Lemma connect_face h e o : built h -> directed_in h e -> directed_in h o ->
  left_from_end (snd (connect h e o)) e = fst (connect h e o) /\
  left_from_end (snd (connect h e o)) (fst (connect h e o)) = o.
Proof.
  intros Hb He Ho. pose proof (built_wf h Hb) as W. apply directed_live in He, Ho.
  pose proof (connect_wf h e o W He Ho) as C.
  destruct (connect h e o) as (r & h'). cbn [fst snd]. destruct C as (W' & -> & Hc & F & Fr & Fo & _).
  assert (Lr : live h' (h_count h, R0)) by (split; [unfold valid; rewrite Hc; cbn; lia|reflexivity]).
  assert (Lo : live h' o) by (apply (live_more h); [lia|exact Ho]).
  rewrite !lfe_spec. split.
  - rewrite <- (rfs_lfs h' W' (h_count h, R0)) by apply Lr. f_equal. rewrite Fr, lfe_spec.
    symmetry. apply (lfs_rfs h W). apply (live_opposite h e He).
  - rewrite <- (rfs_lfs h' W' o) by apply Lo. f_equal. rewrite (F o Ho), edge_eqb_refl. reflexivity.
Qed.
Lemma delete_others h e x : built h -> directed_in h e -> directed_in h x ->
  x <> e -> x <> opposite e ->
  let next := left_from_start h in
  (next x <> e -> next x <> opposite e -> left_from_start (delete h e) x = next x) /\
  (next x = e -> next e <> opposite e -> left_from_start (delete h e) x = next e) /\
  (next x = opposite e -> next (opposite e) <> e -> left_from_start (delete h e) x = next (opposite e)).
Proof.
  intros Hb He Hx N1 N2 next. apply directed_live in He, Hx. rewrite (delete_lfs h e x (built_wf h Hb) He Hx).
  fold next. unfold skip. rewrite (proj2 (edge_eqb_neq _ _) N1), (proj2 (edge_eqb_neq _ _) N2).
  assert (No : edge_eqb (opposite e) e = false) by (apply edge_eqb_neq, opposite_neq).
  rewrite No. split; [|split].
  - intros H1 H2. rewrite (proj2 (edge_eqb_neq _ _) H1), (proj2 (edge_eqb_neq _ _) H2). reflexivity.
  - intros H1 H2. rewrite H1, edge_eqb_refl, (proj2 (edge_eqb_neq _ _) H2). reflexivity.
  - intros H1 H2. rewrite H1, No, edge_eqb_refl, (proj2 (edge_eqb_neq _ _) H2). reflexivity.
Qed.

(** ** More of C44 *)
Lemma triangulation_points ctx pts t h e : triangulation_of any_flip ctx pts t h -> directed_in h e ->
  In (start h e) pts /\ In (end_ h e) pts.
Proof.
  intros H He. assert (K : winv (fun p => In p pts) (h_count h) h).
  { clear He e. induction H as [t h H|t h e t' h' H IH He Hd|t h e H IH He _].
    - apply (delaunay_winv ctx pts t h (fun p => In p pts) (fun _ H => H) H).
    - destruct (triangulation_wf _ _ _ _ H) as (W & L). destruct (tri_delete_ok h t e t' h' W L Hd) as (-> & _).
      change (h_count (delete h e)) with (h_count h). apply delete_winv; [exact IH|].
      apply directed_live in He. exact He.
    - change (h_count (flip h e)) with (h_count h). apply flip_winv; [exact IH|]. apply directed_live in He. exact He. }
  apply directed_live in He. split; [apply K, He|apply K, live_opposite, He].
Qed.
Lemma multicontour_points ctx pts sizes choices mc : (forall s, In s sizes -> (1 <= s)%Z) ->
  to_multicontour ctx pts sizes choices = Ok mc -> forall vs p, In vs mc -> In p vs -> In p pts.
Proof. intros Hs H vs p Hv Hp. apply to_multicontour_spec in H; [|exact Hs]. apply H in Hv. apply Hv, Hp. Qed.
Lemma polygon_points ctx pts size sizes choices poly : (forall s, In s sizes -> (1 <= s)%Z) ->
  to_polygon ctx pts size sizes choices = Ok poly ->
  (forall p, In p (border poly) -> In p pts) /\ forall vs p, In vs (holes poly) -> In p vs -> In p pts.
Proof.
  intros Hs H. apply to_polygon_spec in H; [|exact Hs]. destruct H as (H1 & _ & H2 & _). split; [exact H1|].
  intros vs p Hv Hp. apply (H2 vs Hv), Hp.
Qed.
Lemma drawn_is_built h : drawn_built h -> built h.
Proof. induction 1; [apply built_empty|apply built_from_endpoints|apply built_splice|apply built_connect|apply built_delete|apply built_flip]; assumption. Qed.
