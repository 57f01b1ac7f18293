(** Quad-edge structures: the invariants of [splice], [connect], [delete], [flip]. *)
From Verif Require Import Base Geometry QuadEdge.

(** ** References. *)
Lemma rot_eqb_eq a b : rot_eqb a b = true <-> a = b.
Proof. destruct a, b; cbn; split; congruence. Qed.
Lemma edge_eqb_eq (a b : edge) : edge_eqb a b = true <-> a = b.
Proof.
  destruct a as (i, r), b as (j, s). unfold edge_eqb. cbn [fst snd]. rewrite andb_true_iff, Nat.eqb_eq, rot_eqb_eq.
  split; [intros (-> & ->); reflexivity|intros H; injection H as -> ->; auto].
Qed.
Lemma edge_eqb_refl e : edge_eqb e e = true.
Proof. apply edge_eqb_eq. reflexivity. Qed.
Lemma edge_eqb_neq (a b : edge) : edge_eqb a b = false <-> a <> b.
Proof. rewrite <- edge_eqb_eq. destruct (edge_eqb a b); split; congruence. Qed.
Lemma edge_eq_dec (a b : edge) : {a = b} + {a <> b}.
Proof. destruct (edge_eqb a b) eqn:E; [left; apply edge_eqb_eq, E|right; apply edge_eqb_neq, E]. Qed.
Lemma upd_same {B} (f : edge -> B) e v : upd f e v e = v.
Proof. unfold upd. rewrite edge_eqb_refl. reflexivity. Qed.
Lemma upd_other {B} (f : edge -> B) e v x : x <> e -> upd f e v x = f x.
Proof. intros H. unfold upd. apply edge_eqb_neq in H. rewrite H. reflexivity. Qed.

Lemma rotated4 e : rotated (rotated (rotated (rotated e))) = e.
Proof. destruct e as (i, r); destruct r; reflexivity. Qed.
Lemma rotated_inj a b : rotated a = rotated b -> a = b.
Proof. destruct a as (i, []), b as (j, []); unfold rotated; cbn; congruence. Qed.
Lemma rotated_fst e : fst (rotated e) = fst e.
Proof. reflexivity. Qed.
Lemma opposite_opposite e : opposite (opposite e) = e.
Proof. apply rotated4. Qed.
Lemma opposite_inj a b : opposite a = opposite b -> a = b.
Proof. intros H. apply rotated_inj, rotated_inj. exact H. Qed.
Lemma opposite_neq e : opposite e <> e.
Proof. destruct e as (i, []); discriminate. Qed.

Definition primal (e : edge) : bool := match snd e with R0 | R2 => true | _ => false end.
Lemma primal_rotated e : primal (rotated e) = negb (primal e).
Proof. destruct e as (i, []); reflexivity. Qed.
Lemma primal_opposite e : primal (opposite e) = primal e.
Proof. destruct e as (i, []); reflexivity. Qed.

(** ** Well-formed heaps. *)
Definition valid (h : heap) (e : edge) : Prop := fst e < h_count h.
Lemma valid_rotated h e : valid h (rotated e) <-> valid h e.
Proof. reflexivity. Qed.
Lemma valid_opposite h e : valid h (opposite e) <-> valid h e.
Proof. reflexivity. Qed.

(** [turn h]: the composition of [left_from_start] and [rotated]; an involution on
    well-formed heaps. *)
Definition turn (h : heap) (e : edge) : edge := rotated (left_from_start h e).
Record wf (h : heap) : Prop := Wf {
  wf_valid : forall e, valid h e -> valid h (left_from_start h e);
  wf_class : forall e, valid h e -> primal (left_from_start h e) = primal e;
  wf_turn : forall e, valid h e -> turn h (turn h e) = e
}.

Section Wf.
  Context (h : heap) (Hwf : wf h).
  Lemma lfs_rfs e : valid h e -> left_from_start h (right_from_start h e) = e.
  Proof.
    intros H. apply rotated_inj. change (turn h (right_from_start h e) = rotated e).
    change (turn h (turn h (rotated e)) = rotated e). apply (wf_turn h Hwf). exact H.
  Qed.
  Lemma rfs_lfs e : valid h e -> right_from_start h (left_from_start h e) = e.
  Proof. intros H. apply (wf_turn h Hwf e H). Qed.
  Lemma valid_rfs e : valid h e -> valid h (right_from_start h e).
  Proof. intros H. unfold right_from_start. apply valid_rotated. apply (wf_valid h Hwf). exact H. Qed.
  Lemma class_rfs e : valid h e -> primal (right_from_start h e) = primal e.
  Proof.
    intros H. unfold right_from_start. rewrite primal_rotated, (wf_class h Hwf) by exact H.
    rewrite primal_rotated, negb_involutive. reflexivity.
  Qed.
  Lemma lfs_inj a b : valid h a -> valid h b -> left_from_start h a = left_from_start h b -> a = b.
  Proof. intros Ha Hb E. rewrite <- (rfs_lfs a Ha), <- (rfs_lfs b Hb), E. reflexivity. Qed.
  Lemma lfe_spec e : left_from_end h e = right_from_start h (opposite e).
  Proof. reflexivity. Qed.
  Lemma valid_lfe e : valid h e -> valid h (left_from_end h e).
  Proof. intros H. rewrite lfe_spec. apply valid_rfs. exact H. Qed.
  Lemma class_lfe e : valid h e -> primal (left_from_end h e) = primal e.
  Proof. intros H. rewrite lfe_spec, class_rfs by exact H. apply primal_opposite. Qed.
  Lemma valid_rfe e : valid h e -> valid h (right_from_end h e).
  Proof. intros H. apply (wf_valid h Hwf). exact H. Qed.
  Lemma class_rfe e : valid h e -> primal (right_from_end h e) = primal e.
  Proof. intros H. unfold right_from_end. rewrite (wf_class h Hwf) by exact H. apply primal_opposite. Qed.
  Lemma rfe_inj a b : valid h a -> valid h b -> right_from_end h a = right_from_end h b -> a = b.
  Proof. intros Ha Hb E. apply opposite_inj, lfs_inj; assumption. Qed.
End Wf.

Lemma wf_empty p : wf (empty_heap p).
Proof. split; intros e H; unfold valid in H; cbn in H; lia. Qed.

(** ** [from_endpoints] *)
Lemma from_endpoints_lfs h s e x : let '(q, h') := from_endpoints h s e in
  left_from_start h' x =
  if Nat.eqb (fst x) (h_count h) then match snd x with R0 => (h_count h, R0) | R2 => (h_count h, R2)
                                        | R1 => (h_count h, R3) | R3 => (h_count h, R1) end
  else left_from_start h x.
Proof.
  unfold from_endpoints, left_from_start. cbn [h_lfs]. unfold upd, edge_eqb. destruct x as (i, r). cbn [fst snd].
  destruct (Nat.eqb_spec i (h_count h)) as [-> |Hne]; destruct r; cbn [andb rot_eqb]; reflexivity.
Qed.
Lemma from_endpoints_start h s e x : let '(q, h') := from_endpoints h s e in
  start h' x =
  if Nat.eqb (fst x) (h_count h) then match snd x with R0 => s | R2 => e | _ => start h x end else start h x.
Proof.
  unfold from_endpoints, start. cbn [h_org]. unfold upd, edge_eqb. destruct x as (i, r). cbn [fst snd].
  destruct (Nat.eqb_spec i (h_count h)) as [-> |Hne]; destruct r; cbn [andb rot_eqb]; reflexivity.
Qed.
Lemma from_endpoints_wf h s e : wf h -> wf (snd (from_endpoints h s e)).
Proof.
  intros Hwf. pose proof (from_endpoints_lfs h s e) as Hl. destruct (from_endpoints h s e) as (q & h') eqn:E. cbn [snd].
  assert (Hc : h_count h' = S (h_count h)) by (unfold from_endpoints in E; injection E as _ <-; reflexivity).
  assert (Hv : forall x, valid h' x -> fst x = h_count h \/ (fst x <> h_count h /\ valid h x)).
  { intros x H. unfold valid in *. rewrite Hc in H. destruct (Nat.eq_dec (fst x) (h_count h)); [auto|right; split; [assumption|lia]]. }
  split.
  - intros x H. unfold valid. rewrite Hc, Hl. destruct (Hv x H) as [E1|(E1 & V)].
    + rewrite E1, Nat.eqb_refl. destruct (snd x); cbn; lia.
    + apply Nat.eqb_neq in E1. rewrite E1. pose proof (wf_valid h Hwf x V) as V'. unfold valid in V'. lia.
  - intros x H. rewrite Hl. destruct (Hv x H) as [E1|(E1 & V)].
    + rewrite E1, Nat.eqb_refl. destruct x as (i, []); reflexivity.
    + apply Nat.eqb_neq in E1. rewrite E1. apply (wf_class h Hwf x V).
  - intros x H. unfold turn. rewrite !Hl. destruct (Hv x H) as [E1|(E1 & V)].
    + rewrite E1, Nat.eqb_refl. destruct x as (i, []); cbn [fst snd] in *; subst i; cbn [rotated fst snd rot_succ]; rewrite ?Nat.eqb_refl; reflexivity.
    + apply Nat.eqb_neq in E1. rewrite E1. cbn [rotated fst].
      pose proof (wf_valid h Hwf x V) as V'. unfold valid in V'.
      destruct (Nat.eqb_spec (fst (left_from_start h x)) (h_count h)); [lia|].
      apply (wf_turn h Hwf x V).
Qed.

(** ** [splice] *)
(** The exchange performed on the arguments of [left_from_start]. *)
Definition exchange (a b x : edge) : edge := if edge_eqb x a then b else if edge_eqb x b then a else x.
Lemma exchange_l a b : exchange a b a = b.
Proof. unfold exchange. rewrite edge_eqb_refl. reflexivity. Qed.
Lemma exchange_r a b : exchange a b b = a.
Proof. unfold exchange. destruct (edge_eqb b a) eqn:E; [apply edge_eqb_eq in E; exact E|]. rewrite edge_eqb_refl. reflexivity. Qed.
Lemma exchange_other a b x : x <> a -> x <> b -> exchange a b x = x.
Proof. intros Ha Hb. unfold exchange. apply edge_eqb_neq in Ha, Hb. rewrite Ha, Hb. reflexivity. Qed.
Lemma exchange_invol a b x : exchange a b (exchange a b x) = x.
Proof.
  destruct (edge_eq_dec x a) as [-> |Ha]; [rewrite exchange_l; apply exchange_r|].
  destruct (edge_eq_dec x b) as [-> |Hb]; [rewrite exchange_r; apply exchange_l|].
  rewrite !exchange_other by (rewrite ?exchange_other; assumption). reflexivity.
Qed.
Lemma exchange_eq a x : exchange a a x = x.
Proof.
  destruct (edge_eq_dec x a) as [-> |Ha]; [apply exchange_l|]. apply exchange_other; assumption.
Qed.
Lemma swap_lfs_spec h a b x : left_from_start (swap_lfs h a b) x = left_from_start h (exchange a b x).
Proof.
  unfold swap_lfs, left_from_start. cbn [h_lfs]. unfold upd, exchange.
  destruct (edge_eqb x b) eqn:Eb; destruct (edge_eqb x a) eqn:Ea; try reflexivity.
  apply edge_eqb_eq in Ea, Eb. subst. reflexivity.
Qed.
Lemma splice_lfs h a b x : left_from_start (splice h a b) x
  = left_from_start h (exchange a b (exchange (turn h a) (turn h b) x)).
Proof. unfold splice. rewrite !swap_lfs_spec. reflexivity. Qed.
Lemma splice_count h a b : h_count (splice h a b) = h_count h.
Proof. reflexivity. Qed.
Lemma splice_start h a b x : start (splice h a b) x = start h x.
Proof. reflexivity. Qed.
Lemma splice_valid h a b x : valid (splice h a b) x <-> valid h x.
Proof. reflexivity. Qed.

Section Splice.
  Context (h : heap) (Hwf : wf h) (a b : edge) (Ha : valid h a) (Hb : valid h b) (Hab : primal a = primal b).
  Let alpha := turn h a.
  Let beta := turn h b.
  Lemma turn_valid x : valid h x -> valid h (turn h x).
  Proof. intros H. unfold turn. apply valid_rotated, (wf_valid h Hwf), H. Qed.
  Lemma turn_class x : valid h x -> primal (turn h x) = negb (primal x).
  Proof. intros H. unfold turn. rewrite primal_rotated, (wf_class h Hwf x H). reflexivity. Qed.
  Lemma ab_distinct : a <> alpha /\ a <> beta /\ b <> alpha /\ b <> beta.
  Proof.
    pose proof (turn_class a Ha) as C1. pose proof (turn_class b Hb) as C2. fold alpha in C1. fold beta in C2.
    repeat split; intros E; rewrite <- E in *; revert C1 C2; rewrite ?Hab; destruct (primal b); cbn; congruence.
  Qed.
  Let sigma x := exchange a b (exchange alpha beta x).
  Lemma sigma_a : sigma a = b.
  Proof. unfold sigma. destruct ab_distinct as (H1 & H2 & H3 & H4). rewrite (exchange_other alpha beta) by assumption. apply exchange_l. Qed.
  Lemma sigma_b : sigma b = a.
  Proof. unfold sigma. destruct ab_distinct as (H1 & H2 & H3 & H4). rewrite (exchange_other alpha beta) by assumption. apply exchange_r. Qed.
  Lemma sigma_alpha : sigma alpha = beta.
  Proof. unfold sigma. destruct ab_distinct as (H1 & H2 & H3 & H4). rewrite exchange_l. apply exchange_other; congruence. Qed.
  Lemma sigma_beta : sigma beta = alpha.
  Proof. unfold sigma. destruct ab_distinct as (H1 & H2 & H3 & H4). rewrite exchange_r. apply exchange_other; congruence. Qed.
  Lemma sigma_other x : x <> a -> x <> b -> x <> alpha -> x <> beta -> sigma x = x.
  Proof. intros. unfold sigma. rewrite !exchange_other by (rewrite ?exchange_other; assumption). reflexivity. Qed.
  Lemma sigma_cases x :
    (x = a /\ sigma x = b) \/ (x = b /\ sigma x = a) \/ (x = alpha /\ sigma x = beta) \/ (x = beta /\ sigma x = alpha)
    \/ (x <> a /\ x <> b /\ x <> alpha /\ x <> beta /\ sigma x = x).
  Proof.
    destruct (edge_eq_dec x a) as [-> |N1]; [left; split; [reflexivity|apply sigma_a]|].
    destruct (edge_eq_dec x b) as [-> |N2]; [right; left; split; [reflexivity|apply sigma_b]|].
    destruct (edge_eq_dec x alpha) as [-> |N3]; [right; right; left; split; [reflexivity|apply sigma_alpha]|].
    destruct (edge_eq_dec x beta) as [-> |N4]; [right; right; right; left; split; [reflexivity|apply sigma_beta]|].
    right; right; right; right. repeat (split; [assumption|]). apply sigma_other; assumption.
  Qed.
  Lemma sigma_valid x : valid h x -> valid h (sigma x).
  Proof.
    pose proof (turn_valid a Ha) as V1. pose proof (turn_valid b Hb) as V2. fold alpha in V1. fold beta in V2. intros V.
    destruct (sigma_cases x) as [(_ & ->)|[(_ & ->)|[(_ & ->)|[(_ & ->)|(_ & _ & _ & _ & ->)]]]]; assumption.
  Qed.
  Lemma sigma_class x : primal (sigma x) = primal x.
  Proof.
    pose proof (turn_class a Ha) as C1. pose proof (turn_class b Hb) as C2. fold alpha in C1. fold beta in C2.
    destruct (sigma_cases x) as [(-> & ->)|[(-> & ->)|[(-> & ->)|[(-> & ->)|(_ & _ & _ & _ & ->)]]]]; congruence.
  Qed.
  Lemma sigma_invol x : sigma (sigma x) = x.
  Proof.
    destruct (sigma_cases x) as [(-> & ->)|[(-> & ->)|[(-> & ->)|[(-> & ->)|(N1 & N2 & N3 & N4 & ->)]]]];
    [apply sigma_b|apply sigma_a|apply sigma_beta|apply sigma_alpha|apply sigma_other; assumption].
  Qed.
  Lemma turn_sigma x : valid h x -> turn h (sigma x) = sigma (turn h x).
  Proof.
    intros V.
    assert (Ia : turn h alpha = a) by (apply (wf_turn h Hwf), Ha).
    assert (Ib : turn h beta = b) by (apply (wf_turn h Hwf), Hb).
    destruct (sigma_cases x) as [(-> & ->)|[(-> & ->)|[(-> & ->)|[(-> & ->)|(N1 & N2 & N3 & N4 & ->)]]]].
    - fold alpha beta. rewrite sigma_alpha. reflexivity.
    - fold alpha beta. rewrite sigma_beta. reflexivity.
    - rewrite Ia, Ib, sigma_a. reflexivity.
    - rewrite Ia, Ib, sigma_b. reflexivity.
    - symmetry. apply sigma_other; intros E.
      + apply N3. rewrite <- (wf_turn h Hwf x V), E. reflexivity.
      + apply N4. rewrite <- (wf_turn h Hwf x V), E. reflexivity.
      + apply N1. rewrite <- (wf_turn h Hwf x V), E. exact Ia.
      + apply N2. rewrite <- (wf_turn h Hwf x V), E. exact Ib.
  Qed.
  Lemma splice_turn x : turn (splice h a b) x = turn h (sigma x).
  Proof. unfold turn. rewrite splice_lfs. reflexivity. Qed.
  Lemma splice_wf : wf (splice h a b).
  Proof.
    split.
    - intros x V. rewrite splice_lfs. apply splice_valid. apply (wf_valid h Hwf). apply sigma_valid. exact V.
    - intros x V. rewrite splice_lfs. fold alpha beta. change (primal (left_from_start h (sigma x)) = primal x).
      rewrite (wf_class h Hwf) by (apply sigma_valid; exact V). apply sigma_class.
    - intros x V. rewrite !splice_turn, (turn_sigma x) by exact V.
      rewrite sigma_invol. apply (wf_turn h Hwf). exact V.
  Qed.
  Lemma splice_lfs_a : left_from_start (splice h a b) a = left_from_start h b.
  Proof. rewrite splice_lfs. change (left_from_start h (sigma a) = left_from_start h b). rewrite sigma_a. reflexivity. Qed.
  Lemma splice_lfs_b : left_from_start (splice h a b) b = left_from_start h a.
  Proof. rewrite splice_lfs. change (left_from_start h (sigma b) = left_from_start h a). rewrite sigma_b. reflexivity. Qed.
  (** Among the edges of the same class as [a] only [a] and [b] change. *)
  Lemma splice_lfs_other x : primal x = primal a -> x <> a -> x <> b ->
    left_from_start (splice h a b) x = left_from_start h x.
  Proof.
    intros C N1 N2. rewrite splice_lfs. change (left_from_start h (sigma x) = left_from_start h x).
    rewrite sigma_other; [reflexivity|exact N1|exact N2| |]; intros ->.
    - unfold alpha in C. rewrite (turn_class a Ha) in C. destruct (primal a); discriminate.
    - unfold beta in C. rewrite (turn_class b Hb), Hab in C. destruct (primal b); discriminate.
  Qed.
  (** [splice] is an involution. *)
  Lemma splice_splice x : left_from_start (splice (splice h a b) a b) x = left_from_start h x.
  Proof.
    rewrite splice_lfs, splice_lfs, !splice_turn, sigma_a, sigma_b. fold alpha beta.
    change (left_from_start h (sigma (exchange a b (exchange beta alpha x))) = left_from_start h x).
    f_equal. transitivity (sigma (sigma x)); [|apply sigma_invol]. f_equal.
    unfold sigma. f_equal. unfold exchange.
    destruct (edge_eqb x beta) eqn:E1, (edge_eqb x alpha) eqn:E2; try reflexivity.
    apply edge_eqb_eq in E1, E2. congruence.
  Qed.
End Splice.

(** ** Vertex rings. *)
Definition rings (h : heap) : Prop :=
  forall e, valid h e -> primal e = true -> start h (left_from_start h e) = start h e.
Lemma rings_empty p : rings (empty_heap p).
Proof. intros e H. unfold valid in H. cbn in H. lia. Qed.
Lemma rings_rfs h e : wf h -> rings h -> valid h e -> primal e = true -> start h (right_from_start h e) = start h e.
Proof.
  intros Hwf Hr V P. rewrite <- (Hr (right_from_start h e)).
  - rewrite (lfs_rfs h Hwf) by exact V. reflexivity.
  - apply (valid_rfs h Hwf), V.
  - rewrite (class_rfs h Hwf) by exact V. exact P.
Qed.
Lemma start_lfe h e : wf h -> rings h -> valid h e -> primal e = true -> start h (left_from_end h e) = end_ h e.
Proof.
  intros Hwf Hr V P. rewrite lfe_spec. apply rings_rfs; try assumption. rewrite primal_opposite. exact P.
Qed.
Lemma start_rfe h e : wf h -> rings h -> valid h e -> primal e = true -> start h (right_from_end h e) = end_ h e.
Proof.
  intros Hwf Hr V P. unfold right_from_end, end_. apply Hr; [exact V|]. rewrite primal_opposite. exact P.
Qed.
Lemma from_endpoints_rings h s e : wf h -> rings h -> rings (snd (from_endpoints h s e)).
Proof.
  intros Hwf Hr. pose proof (from_endpoints_lfs h s e) as Hl. pose proof (from_endpoints_start h s e) as Hs.
  destruct (from_endpoints h s e) as (q & h') eqn:E. cbn [snd].
  assert (Hc : h_count h' = S (h_count h)) by (unfold from_endpoints in E; injection E as _ <-; reflexivity).
  intros x V P. rewrite Hl. destruct (Nat.eqb_spec (fst x) (h_count h)) as [E1|E1].
  - destruct x as (i, []); cbn [fst snd] in *; subst i; try discriminate; reflexivity.
  - assert (V' : valid h x) by (unfold valid in *; lia).
    pose proof (wf_valid h Hwf x V') as V''. unfold valid in V''.
    rewrite !Hs. destruct (Nat.eqb_spec (fst (left_from_start h x)) (h_count h)); [lia|].
    destruct (Nat.eqb_spec (fst x) (h_count h)); [lia|]. apply Hr; assumption.
Qed.
Lemma splice_rings h a b : wf h -> rings h -> valid h a -> valid h b -> primal a = true -> primal b = true ->
  start h a = start h b -> rings (splice h a b).
Proof.
  intros Hwf Hr Va Vb Pa Pb E x V P. rewrite !splice_start.
  assert (Hab : primal a = primal b) by congruence.
  destruct (edge_eq_dec x a) as [-> |N1].
  { rewrite (splice_lfs_a h Hwf a b Va Vb Hab), Hr by assumption. congruence. }
  destruct (edge_eq_dec x b) as [-> |N2].
  { rewrite (splice_lfs_b h Hwf a b Va Vb Hab), Hr by assumption. exact E. }
  rewrite (splice_lfs_other h Hwf a b Va Vb Hab) by congruence. apply Hr; assumption.
Qed.

(** ** [connect], [delete]: the invariants, and what happens to starts. *)
Record good (h : heap) : Prop := Good { good_wf : wf h; good_rings : rings h }.
Lemma good_empty p : good (empty_heap p).
Proof. split; [apply wf_empty|apply rings_empty]. Qed.
Lemma from_endpoints_good h s e : good h -> good (snd (from_endpoints h s e)).
Proof. intros (Hwf & Hr). split; [apply from_endpoints_wf, Hwf|apply from_endpoints_rings; assumption]. Qed.
Lemma splice_good h a b : good h -> valid h a -> valid h b -> primal a = true -> primal b = true ->
  start h a = start h b -> good (splice h a b).
Proof.
  intros (Hwf & Hr) Va Vb Pa Pb E. split; [apply splice_wf; try assumption; congruence|apply splice_rings; assumption].
Qed.

Lemma connect_spec h e o : good h -> valid h e -> valid h o -> primal e = true -> primal o = true ->
  let '(r, h') := connect h e o in
  good h' /\ r = (h_count h, R0) /\ h_count h' = S (h_count h)
  /\ start h' r = end_ h e /\ end_ h' r = start h o
  /\ (forall x, valid h x -> start h' x = start h x)
  /\ (forall x, valid h x -> valid h' x).
Proof.
  intros Hg Ve Vo Pe Po. unfold connect.
  pose proof (from_endpoints_good h (end_ h e) (start h o) Hg) as G1.
  pose proof (from_endpoints_start h (end_ h e) (start h o)) as S1.
  pose proof (from_endpoints_lfs h (end_ h e) (start h o)) as L1.
  destruct (from_endpoints h (end_ h e) (start h o)) as (r & h1) eqn:E1. cbn [snd] in G1.
  assert (Hc : h_count h1 = S (h_count h) /\ r = (h_count h, R0)).
  { unfold from_endpoints in E1. injection E1 as <- <-. auto. }
  destruct Hc as (Hc & ->). set (r := (h_count h, R0)) in *.
  assert (Vr : valid h1 r) by (unfold valid; rewrite Hc; cbn; lia).
  assert (Hv1 : forall x, valid h x -> valid h1 x) by (intros x H; unfold valid in *; lia).
  assert (Hs1 : forall x, valid h x -> start h1 x = start h x).
  { intros x H. rewrite S1. unfold valid in H. destruct (Nat.eqb_spec (fst x) (h_count h)); [lia|reflexivity]. }
  assert (Sr : start h1 r = end_ h e) by (rewrite S1; cbn [fst snd r]; rewrite Nat.eqb_refl; reflexivity).
  assert (Sr' : start h1 (opposite r) = start h o).
  { rewrite S1. unfold opposite, rotated. cbn [fst snd r rot_succ]. rewrite Nat.eqb_refl. reflexivity. }
  assert (Vl : valid h1 (left_from_end h1 e)) by (apply (valid_lfe h1 (good_wf _ G1)), Hv1, Ve).
  assert (Pl : primal (left_from_end h1 e) = true) by (rewrite (class_lfe h1 (good_wf _ G1)) by (apply Hv1, Ve); exact Pe).
  assert (G2 : good (splice h1 r (left_from_end h1 e))).
  { apply splice_good; try assumption; [reflexivity|].
    rewrite (start_lfe h1 e (good_wf _ G1) (good_rings _ G1)) by (try apply Hv1; assumption).
    rewrite Sr. unfold end_. rewrite Hs1 by exact Ve. reflexivity. }
  set (h2 := splice h1 r (left_from_end h1 e)) in *.
  assert (G3 : good (splice h2 (opposite r) o)).
  { apply splice_good; try assumption; [apply Hv1, Vo|reflexivity|]. unfold h2. rewrite !splice_start, Sr', Hs1 by exact Vo. reflexivity. }
  split; [exact G3|]. split; [reflexivity|]. split; [exact Hc|]. unfold end_. rewrite !splice_start. unfold h2. rewrite !splice_start.
  split; [exact Sr|]. split; [exact Sr'|]. split; [|exact Hv1].
  intros x H. rewrite !splice_start. apply Hs1, H.
Qed.
Lemma delete_spec h e : good h -> valid h e -> primal e = true ->
  good (delete h e) /\ h_count (delete h e) = h_count h /\ forall x, start (delete h e) x = start h x.
Proof.
  intros Hg V P. unfold delete. set (h1 := splice h e (right_from_start h e)).
  assert (G1 : good h1).
  { apply splice_good; try assumption.
    - apply (valid_rfs h (good_wf _ Hg)), V.
    - rewrite (class_rfs h (good_wf _ Hg)) by exact V. exact P.
    - symmetry. apply rings_rfs; try assumption; apply Hg. }
  assert (V1 : valid h1 (opposite e)) by exact V.
  assert (P1 : primal (opposite e) = true) by (rewrite primal_opposite; exact P).
  split; [|split; [reflexivity|intros x; reflexivity]].
  apply splice_good; try assumption.
  - apply (valid_rfs h1 (good_wf _ G1)), V1.
  - rewrite (class_rfs h1 (good_wf _ G1)) by exact V1. exact P1.
  - symmetry. apply rings_rfs; try assumption; apply G1.
Qed.

(** ** Created primal edges. *)
Definition live (h : heap) (e : edge) : Prop := valid h e /\ primal e = true.
Lemma live_opposite h e : live h e -> live h (opposite e).
Proof. intros (V & P). split; [exact V|rewrite primal_opposite; exact P]. Qed.
Lemma live_lfs h e : wf h -> live h e -> live h (left_from_start h e).
Proof. intros Hwf (V & P). split; [apply (wf_valid h Hwf), V|rewrite (wf_class h Hwf) by exact V; exact P]. Qed.
Lemma live_rfs h e : wf h -> live h e -> live h (right_from_start h e).
Proof. intros Hwf (V & P). split; [apply (valid_rfs h Hwf), V|rewrite (class_rfs h Hwf) by exact V; exact P]. Qed.
Lemma live_lfe h e : wf h -> live h e -> live h (left_from_end h e).
Proof. intros Hwf (V & P). split; [apply (valid_lfe h Hwf), V|rewrite (class_lfe h Hwf) by exact V; exact P]. Qed.
Lemma live_rfe h e : wf h -> live h e -> live h (right_from_end h e).
Proof. intros Hwf (V & P). split; [apply (valid_rfe h Hwf), V|rewrite (class_rfe h Hwf) by exact V; exact P]. Qed.
#[export] Hint Resolve live_opposite live_lfs live_rfs live_lfe live_rfe : live.

Lemma splice_live h a b e : live (splice h a b) e <-> live h e.
Proof. reflexivity. Qed.
Lemma splice_wf' h a b : wf h -> live h a -> live h b -> wf (splice h a b).
Proof. intros Hwf (Va & Pa) (Vb & Pb). apply splice_wf; try assumption. congruence. Qed.
Lemma delete_wf h e : wf h -> live h e -> wf (delete h e).
Proof.
  intros Hwf L. unfold delete. assert (W1 : wf (splice h e (right_from_start h e))) by (apply splice_wf'; auto with live).
  apply splice_wf'; [exact W1| |].
  - apply splice_live. auto with live.
  - apply live_rfs; [exact W1|]. apply splice_live. auto with live.
Qed.
Lemma set_start_wf h e p : wf h -> wf (set_start h e p).
Proof. intros [H1 H2 H3]. split; assumption. Qed.
Lemma flip_wf h e : wf h -> live h e -> wf (flip h e).
Proof.
  intros Hwf L. unfold flip.
  set (side := right_from_start h e). set (opp := opposite e). set (os := right_from_start h opp).
  assert (Ls : live h side) by (unfold side; auto with live).
  assert (Lo : live h opp) by (unfold opp; auto with live).
  assert (Los : live h os) by (unfold os, opp; auto with live).
  set (h1 := splice h e side). assert (W1 : wf h1) by (apply splice_wf'; assumption).
  set (h2 := splice h1 opp os). assert (W2 : wf h2) by (apply splice_wf'; assumption).
  set (h3 := splice h2 e (left_from_end h2 side)).
  assert (W3 : wf h3) by (apply splice_wf'; [exact W2|exact L|apply live_lfe; [exact W2|exact Ls]]).
  set (h4 := splice h3 opp (left_from_end h3 os)).
  assert (W4 : wf h4) by (apply splice_wf'; [exact W3|exact Lo|apply live_lfe; [exact W3|exact Los]]).
  apply set_start_wf, set_start_wf, W4.
Qed.

(** The primal edges determine the dual ones. *)
Lemma dual_determined h h' : wf h -> wf h' -> h_count h <= h_count h' ->
  (forall e, live h e -> left_from_start h' e = left_from_start h e) ->
  forall e, valid h e -> left_from_start h' e = left_from_start h e.
Proof.
  intros Hwf Hwf' Hc Hp e V. destruct (primal e) eqn:P; [apply Hp; split; assumption|].
  set (y := turn h e).
  assert (Vy : valid h y) by (apply turn_valid; assumption).
  assert (Py : primal y = true) by (unfold y; rewrite turn_class by assumption; rewrite P; reflexivity).
  assert (E : turn h' y = e).
  { unfold turn. rewrite Hp by (split; assumption). apply (wf_turn h Hwf e V). }
  apply rotated_inj. change (turn h' e = y). rewrite <- E. apply (wf_turn h' Hwf').
  unfold valid in *. lia.
Qed.

(** [f] without [e]. *)
Definition skip (f : edge -> edge) (e x : edge) : edge :=
  if edge_eqb x e then e else if edge_eqb (f x) e then f e else f x.
Lemma detach_lfs h e x : wf h -> live h e -> live h x ->
  left_from_start (splice h e (right_from_start h e)) x = skip (left_from_start h) e x.
Proof.
  intros Hwf (Ve & Pe) (Vx & Px). set (s := right_from_start h e).
  assert (Ls : live h s) by (apply live_rfs; [exact Hwf|split; assumption]). destruct Ls as (Vs & Ps).
  assert (Hes : primal e = primal s) by congruence.
  assert (Fs : left_from_start h s = e) by (apply lfs_rfs; assumption).
  unfold skip. destruct (edge_eqb x e) eqn:E1.
  { apply edge_eqb_eq in E1. subst x. rewrite (splice_lfs_a h Hwf e s Ve Vs Hes). exact Fs. }
  apply edge_eqb_neq in E1. destruct (edge_eqb (left_from_start h x) e) eqn:E2.
  - apply edge_eqb_eq in E2. assert (x = s) as -> by (apply (lfs_inj h Hwf); [assumption..|congruence]).
    apply (splice_lfs_b h Hwf e s Ve Vs Hes).
  - apply edge_eqb_neq in E2. apply (splice_lfs_other h Hwf e s Ve Vs Hes); [congruence|exact E1|].
    intros ->. apply E2. exact Fs.
Qed.
Lemma delete_lfs h e x : wf h -> live h e -> live h x ->
  left_from_start (delete h e) x = skip (skip (left_from_start h) e) (opposite e) x.
Proof.
  intros Hwf Le Lx. unfold delete. set (h1 := splice h e (right_from_start h e)).
  assert (W1 : wf h1) by (apply splice_wf'; auto with live).
  rewrite (detach_lfs h1 (opposite e) x W1); [|apply splice_live; auto with live|exact Lx].
  unfold skip at 1 2. rewrite !(detach_lfs h e) by auto with live. reflexivity.
Qed.
(** [f] with [r] inserted after [l]. *)
Lemma insert_lfs h r a x : wf h -> live h r -> live h a -> live h x -> r <> a -> left_from_start h r = r ->
  left_from_start (splice h r a) x =
  if edge_eqb x a then r else if edge_eqb x r then left_from_start h a else left_from_start h x.
Proof.
  intros Hwf (Vr & Pr) (Va & Pa) (Vx & Px) N F. assert (Hra : primal r = primal a) by congruence.
  destruct (edge_eqb x a) eqn:E1.
  { apply edge_eqb_eq in E1. subst x. rewrite (splice_lfs_b h Hwf r a Vr Va Hra). exact F. }
  destruct (edge_eqb x r) eqn:E2.
  { apply edge_eqb_eq in E2. subst x. apply (splice_lfs_a h Hwf r a Vr Va Hra). }
  apply edge_eqb_neq in E1, E2. apply (splice_lfs_other h Hwf r a Vr Va Hra); congruence.
Qed.

Lemma connect_wf h e o : wf h -> live h e -> live h o ->
  let '(r, h') := connect h e o in
  wf h' /\ r = (h_count h, R0) /\ h_count h' = S (h_count h) /\
  (forall x, live h x -> left_from_start h' x =
     if edge_eqb x o then opposite r else if edge_eqb x (left_from_end h e) then r else left_from_start h x) /\
  left_from_start h' r = left_from_start h (left_from_end h e) /\
  left_from_start h' (opposite r) = (if edge_eqb o (left_from_end h e) then r else left_from_start h o) /\
  start h' r = end_ h e /\ start h' (opposite r) = start h o /\ (forall x, valid h x -> start h' x = start h x).
Proof.
  intros Hwf Le Lo. unfold connect.
  pose proof (from_endpoints_wf h (end_ h e) (start h o) Hwf) as W1.
  pose proof (from_endpoints_lfs h (end_ h e) (start h o)) as L1.
  pose proof (from_endpoints_start h (end_ h e) (start h o)) as S1.
  destruct (from_endpoints h (end_ h e) (start h o)) as (r & h1) eqn:E1. cbn [snd] in W1.
  assert (Hc : h_count h1 = S (h_count h) /\ r = (h_count h, R0)).
  { unfold from_endpoints in E1. injection E1 as <- <-. auto. }
  destruct Hc as (Hc & ->). set (r := (h_count h, R0)) in *.
  assert (Hv1 : forall x, valid h x -> valid h1 x) by (intros x H; unfold valid in *; lia).
  assert (Hl1 : forall x, live h x -> live h1 x) by (intros x (H & H'); split; auto).
  assert (F1 : forall x, valid h x -> left_from_start h1 x = left_from_start h x).
  { intros x V. rewrite L1. unfold valid in V. destruct (Nat.eqb_spec (fst x) (h_count h)); [lia|reflexivity]. }
  assert (Fr : left_from_start h1 r = r) by (rewrite L1; cbn [fst snd r]; rewrite Nat.eqb_refl; reflexivity).
  assert (Fo : left_from_start h1 (opposite r) = opposite r).
  { rewrite L1. unfold opposite, rotated. cbn [fst snd r rot_succ]. rewrite Nat.eqb_refl. reflexivity. }
  assert (Lr : live h1 r) by (split; [unfold valid; rewrite Hc; cbn; lia|reflexivity]).
  assert (Nr : forall x, valid h x -> x <> r /\ x <> opposite r).
  { intros x V. unfold valid in V. split; intros ->; cbn in V; lia. }
  assert (El : left_from_end h1 e = left_from_end h e).
  { unfold left_from_end. rewrite F1; [reflexivity|apply Le]. }
  rewrite El. set (a := left_from_end h e) in *.
  assert (La : live h a) by (unfold a; auto with live).
  pose proof (Nr a (proj1 La)) as (Na1 & Na2). pose proof (Nr o (proj1 Lo)) as (No1 & No2).
  set (h2 := splice h1 r a).
  assert (W2 : wf h2) by (apply splice_wf'; auto).
  assert (I2 : forall x, live h1 x -> left_from_start h2 x =
     if edge_eqb x a then r else if edge_eqb x r then left_from_start h1 a else left_from_start h1 x).
  { intros x Lx. apply insert_lfs; auto. }
  assert (Lo2 : live h2 (opposite r)) by (apply live_opposite; exact Lr).
  assert (Fo2 : left_from_start h2 (opposite r) = opposite r).
  { rewrite I2 by exact Lo2.
    assert (edge_eqb (opposite r) a = false) as -> by (apply edge_eqb_neq; congruence).
    rewrite (proj2 (edge_eqb_neq (opposite r) r) (opposite_neq r)). exact Fo. }
  assert (I3 : forall x, live h1 x -> left_from_start (splice h2 (opposite r) o) x =
     if edge_eqb x o then opposite r else if edge_eqb x (opposite r) then left_from_start h2 o else left_from_start h2 x).
  { intros x Lx. apply insert_lfs; [exact W2|exact Lo2|apply Hl1, Lo|exact Lx|congruence|exact Fo2]. }
  split; [apply splice_wf'; [exact W2|exact Lo2|apply Hl1, Lo]|]. split; [reflexivity|]. split; [exact Hc|].
  split; [|split; [|split; [|split; [|split]]]].
  - intros x Lx. rewrite I3 by auto. destruct (Nr x (proj1 Lx)) as (N1 & N2).
    apply edge_eqb_neq in N1, N2. rewrite N2, I2, N1, F1 by (auto; apply Lx). reflexivity.
  - rewrite I3 by exact Lr.
    assert (edge_eqb r o = false) as -> by (apply edge_eqb_neq; congruence).
    rewrite (proj2 (edge_eqb_neq r (opposite r)) (not_eq_sym (opposite_neq r))).
    rewrite I2 by exact Lr. assert (edge_eqb r a = false) as -> by (apply edge_eqb_neq; congruence).
    rewrite edge_eqb_refl. apply F1, La.
  - rewrite I3 by exact Lo2.
    assert (edge_eqb (opposite r) o = false) as -> by (apply edge_eqb_neq; congruence).
    rewrite edge_eqb_refl, I2 by auto. apply edge_eqb_neq in No1. rewrite No1, F1 by apply Lo. reflexivity.
  - rewrite splice_start. unfold h2. rewrite splice_start, S1. cbn [fst snd r]. rewrite Nat.eqb_refl. reflexivity.
  - rewrite splice_start. unfold h2. rewrite splice_start, S1. unfold opposite, rotated. cbn [fst snd r rot_succ].
    rewrite Nat.eqb_refl. reflexivity.
  - intros x V. rewrite splice_start. unfold h2. rewrite splice_start, S1. unfold valid in V.
    destruct (Nat.eqb_spec (fst x) (h_count h)); [lia|reflexivity].
Qed.

(** Deleting a just connected edge gives the old structure back. *)
Lemma delete_connect h e o : wf h -> live h e -> live h o ->
  let '(r, h') := connect h e o in
  forall x, valid h x -> left_from_start (delete h' r) x = left_from_start h x /\ start (delete h' r) x = start h x.
Proof.
  intros Hwf Le Lo. pose proof (connect_wf h e o Hwf Le Lo) as C. destruct (connect h e o) as (r & h').
  destruct C as (W & -> & Hc & F & Fr & Fo & Sr & So & Ss). set (r := (h_count h, R0)) in *.
  set (a := left_from_end h e) in *. assert (La : live h a) by (unfold a; auto with live).
  assert (Lr : live h' r) by (split; [unfold valid; rewrite Hc; cbn; lia|reflexivity]).
  assert (Hv1 : forall x, valid h x -> valid h' x) by (intros x H; unfold valid in *; lia).
  assert (Nr : forall x, valid h x -> edge_eqb x r = false /\ edge_eqb x (opposite r) = false).
  { intros x V. unfold valid in V. split; apply edge_eqb_neq; intros ->; cbn in V; lia. }
  assert (W' : wf (delete h' r)) by (apply delete_wf; assumption).
  intros x V. split; [|unfold delete; rewrite !splice_start; apply Ss, V]. revert x V.
  apply (dual_determined h (delete h' r) Hwf W'); [unfold delete; rewrite !splice_count; lia|].
  intros x (Vx & Px). rewrite delete_lfs; [|exact W|exact Lr|split; [apply Hv1, Vx|exact Px]].
  destruct (Nr x Vx) as (N1 & N2).
  assert (Lx : live h x) by (split; assumption).
  assert (Hn : forall y, valid h y -> edge_eqb (left_from_start h y) r = false /\ edge_eqb (left_from_start h y) (opposite r) = false).
  { intros y Vy. apply Nr, (wf_valid h Hwf), Vy. }
  unfold skip. rewrite N2, N1, (F x Lx), Fr, Fo.
  rewrite (proj2 (edge_eqb_neq (opposite r) r) (opposite_neq r)).
  destruct (edge_eqb x o) eqn:E1.
  - apply edge_eqb_eq in E1. subst x.
    rewrite (proj2 (edge_eqb_neq (opposite r) r) (opposite_neq r)). rewrite edge_eqb_refl.
    destruct (edge_eqb o a) eqn:E2.
    + rewrite edge_eqb_refl. apply edge_eqb_eq in E2. rewrite E2. reflexivity.
    + destruct (Hn o Vx) as (-> & _). reflexivity.
  - destruct (edge_eqb x a) eqn:E2.
    + rewrite edge_eqb_refl. apply edge_eqb_eq in E2. subst x.
      destruct (Hn a Vx) as (_ & ->). reflexivity.
    + destruct (Hn x Vx) as (-> & ->). reflexivity.
Qed.

(** ** [flip] *)
Lemma set_start_same h e p : start (set_start h e p) e = p.
Proof. apply upd_same. Qed.
Lemma set_start_other h e p x : x <> e -> start (set_start h e p) x = start h x.
Proof. apply upd_other. Qed.

Section Flip.
  Context (h : heap) (Hg : good h) (e : edge) (Le : live h e)
          (Hne : start h e <> end_ h e)
          (Hs : right_from_start h e <> e) (Ho : right_from_start h (opposite e) <> opposite e).
  Let side := right_from_start h e.
  Let opp := opposite e.
  Let os := right_from_start h opp.
  Let h1 := splice h e side.
  Let h2 := splice h1 opp os.
  Let a := left_from_end h2 side.
  Let h3 := splice h2 e a.
  Let b := left_from_end h3 os.
  Let h4 := splice h3 opp b.

  Let Hwf : wf h := good_wf h Hg.
  Let Hr : rings h := good_rings h Hg.
  Lemma flip_facts :
    live h opp /\ live h side /\ live h os /\ live h a /\ live h b /\
    side <> opp /\ os <> e /\ side <> os /\ a <> e /\ a <> opp /\ b <> e /\ b <> opp /\ a <> b /\
    wf h4 /\
    start h a = end_ h side /\ start h b = end_ h os /\
    left_from_start h4 e = opposite side /\ left_from_start h4 a = e /\
    left_from_start h4 opp = opposite os /\ left_from_start h4 b = opp /\
    (forall x, live h x -> x <> e -> x <> opp -> x <> a -> x <> b ->
       live h (left_from_start h4 x) /\ left_from_start h4 x <> e /\ left_from_start h4 x <> opp /\
       start h (left_from_start h4 x) = start h x) /\
    h2 = delete h e /\ left_from_start h2 a = opposite side /\ left_from_start h2 b = opposite os /\
    (forall x, live h x -> x <> e -> x <> opp -> x <> a -> x <> b -> left_from_start h4 x = left_from_start h2 x).
  Proof.
    assert (Lo : live h opp) by (unfold opp; auto with live).
    assert (Ls : live h side) by (unfold side; auto with live).
    assert (Los : live h os) by (unfold os; auto with live).
    assert (Ss : start h side = start h e) by (apply rings_rfs; try assumption; apply Le).
    assert (Sos : start h os = end_ h e) by (unfold os; rewrite (rings_rfs h opp Hwf Hr) by apply Lo; reflexivity).
    assert (N1 : side <> opp).
    { intros E. apply Hne. rewrite <- Ss, E. reflexivity. }
    assert (N2 : os <> e) by (intros E; apply Hne; rewrite <- Sos, E; reflexivity).
    assert (N3 : side <> os) by (intros E; apply Hne; rewrite <- Ss, <- Sos, E; reflexivity).
    assert (Noe : opp <> e) by apply opposite_neq.
    assert (G1 : good h1).
    { apply splice_good; try apply Le; try apply Ls; try exact Hg. symmetry. exact Ss. }
    assert (F1 : forall x, live h x -> left_from_start h1 x = skip (left_from_start h) e x).
    { intros x Lx. apply detach_lfs; assumption. }
    assert (Os1 : right_from_start h1 opp = os).
    { apply (lfs_inj h1 (good_wf _ G1)).
      - apply (valid_rfs h1 (good_wf _ G1)), Lo.
      - apply Los.
      - rewrite (lfs_rfs h1 (good_wf _ G1)) by apply Lo. rewrite F1 by exact Los. unfold skip.
        apply edge_eqb_neq in N2. rewrite N2. unfold os. rewrite (lfs_rfs h Hwf) by apply Lo.
        assert (edge_eqb opp e = false) as -> by (apply edge_eqb_neq; exact Noe). reflexivity. }
    assert (G2 : good h2).
    { apply splice_good; try apply Lo; try apply Los; try exact G1. unfold h1. rewrite !splice_start, Sos. reflexivity. }
    assert (F2 : forall x, live h x -> left_from_start h2 x = skip (skip (left_from_start h) e) opp x).
    { intros x Lx. unfold h2. rewrite <- Os1. rewrite detach_lfs; [|apply G1|exact Lo|exact Lx].
      unfold skip at 1 2. rewrite !F1 by assumption. reflexivity. }
    assert (F2e : left_from_start h2 e = e).
    { rewrite F2 by exact Le. unfold skip. rewrite edge_eqb_refl.
      assert (edge_eqb e opp = false) as -> by (apply edge_eqb_neq; auto). reflexivity. }
    assert (F2o : left_from_start h2 opp = opp).
    { rewrite F2 by exact Lo. unfold skip. rewrite edge_eqb_refl. reflexivity. }
    assert (La : live h a) by (change (live h2 a); apply live_lfe; [apply G2|exact Ls]).
    assert (F2a : left_from_start h2 a = opposite side).
    { unfold a. rewrite lfe_spec. apply (lfs_rfs h2 (good_wf _ G2)). apply Ls. }
    assert (Na1 : a <> e) by (intros E; rewrite E, F2e in F2a; apply N1; unfold opp; rewrite F2a, opposite_opposite; reflexivity).
    assert (Na2 : a <> opp) by (intros E; rewrite E, F2o in F2a; apply Hs; apply opposite_inj in F2a; symmetry; exact F2a).
    assert (W3 : wf h3) by (apply splice_wf'; [apply G2|exact Le|exact La]).
    assert (F3 : forall x, live h x -> left_from_start h3 x =
      if edge_eqb x a then e else if edge_eqb x e then opposite side else left_from_start h2 x).
    { intros x Lx. rewrite <- F2a. apply insert_lfs; try assumption; [apply G2|congruence]. }
    assert (F3o : left_from_start h3 opp = opp).
    { rewrite F3 by exact Lo. assert (edge_eqb opp a = false) as -> by (apply edge_eqb_neq; congruence).
      assert (edge_eqb opp e = false) as -> by (apply edge_eqb_neq; auto). exact F2o. }
    assert (Lb : live h b) by (change (live h3 b); apply live_lfe; [exact W3|exact Los]).
    assert (F3b : left_from_start h3 b = opposite os).
    { unfold b. rewrite lfe_spec. apply (lfs_rfs h3 W3). apply Los. }
    assert (Nb2 : b <> opp).
    { intros E. rewrite E, F3o in F3b. apply N2. apply opposite_inj in F3b. symmetry. exact F3b. }
    assert (Nab : a <> b).
    { intros E. rewrite <- E, F3 in F3b by exact La. rewrite edge_eqb_refl in F3b.
      apply Ho. change (os = opp). rewrite <- (opposite_opposite os), <- F3b. reflexivity. }
    assert (Nb1 : b <> e).
    { intros E. rewrite E, F3 in F3b by exact Le.
      assert (edge_eqb e a = false) as Ea by (apply edge_eqb_neq; congruence). rewrite Ea, edge_eqb_refl in F3b.
      apply N3, opposite_inj, F3b. }
    assert (F2b : left_from_start h2 b = opposite os).
    { rewrite <- F3b, F3 by exact Lb.
      assert (edge_eqb b a = false) as -> by (apply edge_eqb_neq; congruence).
      assert (edge_eqb b e = false) as -> by (apply edge_eqb_neq; congruence). reflexivity. }
    assert (W4 : wf h4) by (apply splice_wf'; [exact W3|exact Lo|exact Lb]).
    assert (F4 : forall x, live h x -> left_from_start h4 x =
      if edge_eqb x b then opp else if edge_eqb x opp then opposite os else left_from_start h3 x).
    { intros x Lx. rewrite <- F3b. apply insert_lfs; try assumption; congruence. }
    assert (Sa : start h a = end_ h side).
    { change (start h2 a = end_ h2 side). apply start_lfe; [apply G2|apply G2|apply Ls|apply Ls]. }
    assert (Sb : start h b = end_ h os).
    { change (start h2 b = end_ h2 os). rewrite <- (good_rings _ G2 b) by apply Lb. rewrite F2b. reflexivity. }
    assert (F4x : forall x, live h x -> x <> e -> x <> opp -> x <> a -> x <> b -> left_from_start h4 x = left_from_start h2 x).
    { intros x Lx X1 X2 X3 X4. rewrite F4, F3 by exact Lx. apply edge_eqb_neq in X1, X2, X3, X4. rewrite X4, X2, X3, X1. reflexivity. }
    assert (Ed : h2 = delete h e) by (unfold h2; rewrite <- Os1; reflexivity).
    repeat (split; [assumption|]). split; [|split; [|split; [|split; [|split; [|split; [exact Ed|split; [exact F2a|split; [exact F2b|exact F4x]]]]]]]].
    - rewrite F4, F3 by exact Le.
      assert (edge_eqb e b = false) as -> by (apply edge_eqb_neq; congruence).
      assert (edge_eqb e opp = false) as -> by (apply edge_eqb_neq; congruence).
      assert (edge_eqb e a = false) as -> by (apply edge_eqb_neq; congruence). rewrite edge_eqb_refl. reflexivity.
    - rewrite F4, F3 by exact La.
      assert (edge_eqb a b = false) as -> by (apply edge_eqb_neq; congruence).
      assert (edge_eqb a opp = false) as -> by (apply edge_eqb_neq; congruence). rewrite edge_eqb_refl. reflexivity.
    - rewrite F4 by exact Lo. assert (edge_eqb opp b = false) as -> by (apply edge_eqb_neq; congruence).
      rewrite edge_eqb_refl. reflexivity.
    - rewrite F4 by exact Lb. rewrite edge_eqb_refl. reflexivity.
    - intros x Lx X1 X2 X3 X4.
      assert (E : left_from_start h4 x = left_from_start h2 x).
      { rewrite F4, F3 by exact Lx. apply edge_eqb_neq in X1, X2, X3, X4. rewrite X4, X2, X3, X1. reflexivity. }
      rewrite E. split; [change (live h2 (left_from_start h2 x)); apply live_lfs; [apply G2|exact Lx]|].
      split; [|split].
      + intros E'. apply X1. apply (lfs_inj h2 (good_wf _ G2)); [apply Lx|apply Le|congruence].
      + intros E'. apply X2. apply (lfs_inj h2 (good_wf _ G2)); [apply Lx|apply Lo|congruence].
      + apply (good_rings _ G2 x); apply Lx.
  Qed.

  Lemma flip_spec :
    good (flip h e) /\ h_count (flip h e) = h_count h /\
    start (flip h e) e = end_ h (right_from_start h e) /\
    end_ (flip h e) e = end_ h (left_from_end h e) /\
    (forall x, x <> e -> x <> opposite e -> start (flip h e) x = start h x).
  Proof.
    destruct flip_facts as (Lo & Ls & Los & La & Lb & N1 & N2 & N3 & Na1 & Na2 & Nb1 & Nb2 & Nab & W4 & Sa & Sb & Fe & Fa & Fo & Fb & Fx & _).
    assert (Noe : opp <> e) by apply opposite_neq.
    assert (Es : flip h e = set_start (set_start h4 e (end_ h side)) opp (end_ h os)).
    { unfold flip. fold side opp os h1 h2. fold a. fold h3. fold b. fold h4. f_equal.
      unfold end_. rewrite set_start_other; [reflexivity|].
      intros E. apply Ho. change (os = opp). rewrite <- (opposite_opposite os), E. reflexivity. }
    rewrite Es.
    assert (S1 : forall x, x <> e -> x <> opp -> start (set_start (set_start h4 e (end_ h side)) opp (end_ h os)) x = start h x).
    { intros x X1 X2. rewrite !set_start_other by assumption. reflexivity. }
    assert (S2 : start (set_start (set_start h4 e (end_ h side)) opp (end_ h os)) e = end_ h side).
    { rewrite set_start_other by auto. apply set_start_same. }
    assert (S3 : start (set_start (set_start h4 e (end_ h side)) opp (end_ h os)) opp = end_ h os) by apply set_start_same.
    split; [|split; [reflexivity|split; [exact S2|split; [exact S3|exact S1]]]].
    split; [apply set_start_wf, set_start_wf, W4|].
    intros x V P. assert (Lx : live h x) by (split; assumption).
    change (left_from_start (set_start (set_start h4 e (end_ h side)) opp (end_ h os)) x) with (left_from_start h4 x).
    destruct (edge_eq_dec x e) as [-> |X1].
    { rewrite Fe, S2, S1; [reflexivity| |].
      - intros E. apply N1. unfold opp. rewrite <- E, opposite_opposite. reflexivity.
      - intros E. apply Hs. apply opposite_inj, E. }
    destruct (edge_eq_dec x opp) as [-> |X2].
    { rewrite Fo, S3, S1; [reflexivity| |].
      - intros E. apply Ho. change (os = opp). unfold opp. rewrite <- E, opposite_opposite. reflexivity.
      - intros E. apply N2. apply opposite_inj, E. }
    destruct (edge_eq_dec x a) as [-> |X3].
    { rewrite Fa, S2, S1 by assumption. symmetry. exact Sa. }
    destruct (edge_eq_dec x b) as [-> |X4].
    { rewrite Fb, S3, S1 by assumption. symmetry. exact Sb. }
    destruct (Fx x Lx X1 X2 X3 X4) as (L & Y1 & Y2 & E). rewrite !S1 by assumption. exact E.
  Qed.
End Flip.
