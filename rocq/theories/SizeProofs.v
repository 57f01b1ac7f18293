(** Convex contours of every size. *)
From Coq Require Import List Lia Permutation Sorted Znumtheory.
From Verif Require Import Base Prog Geometry Ctx Utils Contracts Spec Factories Strategies StarSpec QcTac QcFast ProgProofs GeomProofs ListProofs GridProofs
  ConvexProofs SequenceProofs ValtrProofs FanCount.
Import List ListNotations.
Open Scope Qc_scope.

Lemma combine_maps {A B} (V : list (A * B)) : combine (map fst V) (map snd V) = V.
Proof. induction V as [|(a, b) V IH]; cbn [map combine fst snd]; [reflexivity|]. rewrite IH. reflexivity. Qed.
Lemma isort_sorted_id {A} (leb : A -> A -> bool) l : StronglySorted (fun a b => leb a b = true) l -> isort leb l = l.
Proof.
  induction 1 as [|x l S IH F]; [reflexivity|]. cbn [isort]. rewrite IH. destruct l as [|y l]; [reflexivity|]. cbn [insert].
  inversion F as [|? ? H _]; subst. rewrite H. reflexivity.
Qed.

Section Run.
  Variables (ctx : context).
  Hypotheses (directions : orders_directions ctx) (total : forall y x, exists a, ctx_atan2 ctx y x = Ok a).
  Lemma keyed_id V : StronglySorted (fun v w => ~ smaller_direction (fst w) (snd w) (fst v) (snd v)) V ->
    exists keyed, mapM (fun v : Qc * Qc => let* a := ctx_atan2 ctx (snd v) (fst v) in Ok (a, v)) V = Ok keyed /\
      map snd (isort (fun a b : Qc * (Qc * Qc) => qleb (fst a) (fst b)) keyed) = V.
  Proof.
    intros S.
    assert (G : exists keyed, mapM (fun v : Qc * Qc => let* a := ctx_atan2 ctx (snd v) (fst v) in Ok (a, v)) V = Ok keyed /\ map snd keyed = V /\
      forall k, In k keyed -> ctx_atan2 ctx (snd (snd k)) (fst (snd k)) = Ok (fst k)).
    { clear S. induction V as [|v V IH]; [exists []; repeat split; intros k []|]. destruct IH as (keyed & E1 & E2 & E3).
      destruct (total (snd v) (fst v)) as (a & Ea). exists ((a, v) :: keyed). cbn [mapM]. rewrite Ea. cbn [rbind]. rewrite E1. cbn [rbind map snd]. rewrite E2.
      split; [reflexivity|]. split; [reflexivity|]. intros k [<-|Hk]; [exact Ea|apply E3, Hk]. }
    destruct G as (keyed & E1 & E2 & E3). exists keyed. split; [exact E1|]. rewrite isort_sorted_id; [exact E2|].
    rewrite <- E2 in S. clear E1 E2. induction keyed as [|k keyed IH]; [constructor|]. cbn [map] in S. inversion S as [|? ? S' F]; subst.
    constructor; [apply IH; [exact S'|intros j Hj; apply E3; right; exact Hj]|]. rewrite Forall_forall in F. apply Forall_forall. intros j Hj.
    apply qleb_le. apply Qcnot_lt_le. intros L. apply (F (snd j)); [apply in_map, Hj|].
    eapply directions; [apply E3; right; exact Hj|apply E3; left; reflexivity|exact L].
  Qed.
  Lemma convex_run points bx by_ sh V x0 xm x1 y0 ym y1 : points <> [] ->
    split_ends (isort qleb (map px points)) = Some (x0, xm, x1) -> split_ends (isort qleb (map py points)) = Some (y0, ym, y1) ->
    map fst V = to_vectors_coordinates xm bx x0 x1 -> Permutation (to_vectors_coordinates ym by_ y0 y1) (map snd V) ->
    sh (to_vectors_coordinates ym by_ y0 y1) = map snd V ->
    StronglySorted (fun v w => ~ smaller_direction (fst w) (snd w) (fst v) (snd v)) V -> StronglySorted turned V ->
    exists cx cy, to_convex_vertex_sequence ctx points bx by_ sh =
      Ok (ctx_hull ctx (map (fun xy => Pt (fst xy + cx) (snd xy + cy)) (combine (befores 0 (map fst V)) (befores 0 (map snd V))))).
  Proof.
    intros Npts Ex Ey Vx Py Vy Sd T. unfold to_convex_vertex_sequence. rewrite Ex, Ey.
    destruct (steps_spec _ _ _ _ bx Ex) as (Lx & Zx & Cx & Ix0 & Ix1 & Hx). destruct (steps_spec _ _ _ _ by_ Ey) as (Ly & Zy & Cy & Iy0 & Iy1 & Hy).
    rewrite Vy, <- Vx, combine_maps. destruct (keyed_id V Sd) as (keyed & -> & E). cbn [rbind]. rewrite E.
    destruct (walk V 0 0 0 0) as (pairs & (mx & my)) eqn:Ew. exists (x0 - mx), (y0 - my). f_equal. f_equal.
    rewrite <- Vx in Lx, Zx, Cx. rewrite map_length in Lx, Ly. rewrite map_length in Lx.
    destruct (walk_spec _ _ _ _ _ _ _ _ Ew) as (E1 & E2 & X1 & X2 & X3 & Y1 & Y2 & Y3).
    assert (Np : length points <> 0%nat) by (destruct points; [contradiction|discriminate]).
    assert (Key : forall s lo hi m l, Permutation s l -> down_up_down l -> length s <> 0%nat -> qsum s = 0 -> climb s = hi - lo -> lo <= hi ->
      (m = 0 \/ In m (afters 0 l)) -> m <= 0 -> (forall t, In t (afters 0 l) -> m <= t) ->
      forall t, In t (befores 0 l) -> lo <= t + (lo - m) /\ t + (lo - m) <= hi).
    { intros s lo hi m l Pl Dl Ns Zs Cs Hlh M1 M2 M3. assert (Nl : l <> []) by (intros ->; apply Permutation_length in Pl; cbn in Pl; contradiction).
      assert (Zl : qsum l = 0) by (rewrite <- Zs; symmetry; apply qsum_perm, Pl).
      destruct (down_up_down_range l Dl Nl Zl) as (b & B1 & B2 & B3). rewrite <- (climb_perm _ _ Pl), Cs in B2, B3.
      assert (Em : m = b) by (eapply least_before; try eassumption; intros t Ht; apply B3, Ht). subst m.
      intros t Ht. destruct (B3 t Ht) as (G1 & G2). clear - G1 G2. split; qcl. }
    pose proof (Key _ x0 x1 mx _ (Permutation_refl (map fst V)) (turned_abscissas _ T) ltac:(rewrite map_length; congruence) Zx Cx Hx X1 X2 X3) as KX.
    pose proof (Key _ y0 y1 my _ Py (turned_ordinates _ T) ltac:(congruence) Zy Cy Hy Y1 Y2 Y3) as KY.
    rewrite <- E1 in *. rewrite <- E2 in *. rewrite combine_maps. apply map_ext_in. intros xy I.
    rewrite !clamp_id; [reflexivity|apply KY, in_map, I|apply KY, in_map, I|apply KX, in_map, I|apply KX, in_map, I].
  Qed.
End Run.

(** Any rearrangement can be had by shuffling. *)
Lemma shuffle_reaches l l' : Permutation l l' -> exists perm, Permutation (seq 0 (length l)) perm /\ shuffle_by perm l = l'.
Proof.
  intros P. apply Permutation_sym in P.
  assert (G : exists perm, Permutation (seq 0 (length l)) perm /\ map (fun i => nth i l 0) perm = l').
  { apply Permutation_sym in P. set (f := fun i => nth i l (Q2Qc 0)).
    assert (E : l = map f (seq 0 (length l))).
    { unfold f. clear. induction l as [|x l IH]; [reflexivity|]. cbn [length seq map nth]. f_equal. rewrite <- seq_shift, map_map. cbn [nth]. exact IH. }
    rewrite E in P at 1. apply Permutation_sym, Permutation_map_inv in P. destruct P as (perm & -> & P). exists perm. split; [exact P|reflexivity]. }
  exact G.
Qed.
