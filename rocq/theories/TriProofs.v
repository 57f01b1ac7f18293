(** Triangulations: heap invariants through [delaunay], the points used, the boundary walk. *)
From Verif Require Import Base Geometry Ctx QuadEdge Utils Triangulation LoopProofs ListProofs QuadProofs.

Lemma rbind_ok {A B} (m : res A) (f : A -> res B) b : rbind m f = Ok b -> exists a, m = Ok a /\ f a = Ok b.
Proof. destruct m as [a|e]; cbn; [eauto|discriminate]. Qed.

Section Support.
  Context (P : point -> Prop).
  (** Every created edge joins points of [P]. *)
  Definition supp (h : heap) : Prop := forall e, live h e -> P (start h e).
  Record inv (h : heap) : Prop := Inv { inv_good : good h; inv_supp : supp h }.

  Lemma inv_empty p : inv (empty_heap p).
  Proof. split; [apply good_empty|]. intros e (V & _). unfold valid in V. cbn in V. lia. Qed.
  Lemma supp_end h e : supp h -> live h e -> P (end_ h e).
  Proof. intros Hs L. apply Hs. auto with live. Qed.
  Lemma from_endpoints_inv h s e : inv h -> P s -> P e ->
    let '(q, h') := from_endpoints h s e in
    inv h' /\ live h' q /\ h_count h' = S (h_count h) /\ start h' q = s /\ end_ h' q = e
    /\ (forall x, valid h x -> start h' x = start h x).
  Proof.
    intros (Hg & Hs) Ps Pe. pose proof (from_endpoints_good h s e Hg) as G. pose proof (from_endpoints_start h s e) as S1.
    destruct (from_endpoints h s e) as (q & h') eqn:E. cbn [snd] in G.
    assert (Hc : h_count h' = S (h_count h) /\ q = (h_count h, R0)) by (unfold from_endpoints in E; injection E as <- <-; auto).
    destruct Hc as (Hc & ->).
    split; [split; [exact G|]|].
    - intros x (V & Px). rewrite S1. unfold valid in V. rewrite Hc in V.
      destruct (Nat.eqb_spec (fst x) (h_count h)) as [E1|E1].
      + destruct x as (i, []); cbn [snd] in *; try discriminate; assumption.
      + apply Hs. split; [unfold valid; lia|exact Px].
    - split; [split; [unfold valid; rewrite Hc; cbn; lia|reflexivity]|]. split; [exact Hc|].
      unfold end_. rewrite !S1. unfold opposite, rotated. cbn [fst snd rot_succ]. rewrite Nat.eqb_refl.
      split; [reflexivity|]. split; [reflexivity|]. intros x V. rewrite S1. unfold valid in V.
      destruct (Nat.eqb_spec (fst x) (h_count h)); [lia|reflexivity].
  Qed.
  Lemma live_more h h' e : h_count h <= h_count h' -> live h e -> live h' e.
  Proof. intros Hc (V & Pr). split; [unfold valid in *; lia|exact Pr]. Qed.
  Lemma connect_inv h e o : inv h -> live h e -> live h o ->
    let '(r, h') := connect h e o in
    inv h' /\ live h' r /\ h_count h' = S (h_count h) /\ start h' r = end_ h e /\ end_ h' r = start h o
    /\ (forall x, valid h x -> start h' x = start h x).
  Proof.
    intros (Hg & Hs) (Ve & Pe) (Vo & Po). pose proof (connect_spec h e o Hg Ve Vo Pe Po) as C.
    destruct (connect h e o) as (r & h'). destruct C as (G & -> & Hc & S1 & S2 & S3 & _).
    split; [split; [exact G|]|].
    - intros x (V & Px). unfold valid in V. rewrite Hc in V.
      destruct (Nat.eq_dec (fst x) (h_count h)) as [E1|E1].
      + destruct x as (i, []); cbn [fst] in E1; subst i; try discriminate.
        * rewrite S1. apply supp_end; [exact Hs|split; assumption].
        * change (P (end_ h' (h_count h, R0))). rewrite S2. apply Hs. split; assumption.
      + assert (V' : valid h x) by (unfold valid; lia). rewrite S3 by exact V'. apply Hs. split; assumption.
    - split; [split; [unfold valid; rewrite Hc; cbn; lia|reflexivity]|]. auto.
  Qed.
  Lemma delete_inv h e : inv h -> live h e -> inv (delete h e).
  Proof.
    intros (Hg & Hs) (V & Pe). destruct (delete_spec h e Hg V Pe) as (G & Hc & S1). split; [exact G|].
    intros x (Vx & Px). rewrite S1. apply Hs. split; [unfold valid in *; lia|exact Px].
  Qed.
  Lemma splice_inv h a b : inv h -> live h a -> live h b -> start h a = start h b -> inv (splice h a b).
  Proof.
    intros (Hg & Hs) (Va & Pa) (Vb & Pb) E. split; [apply splice_good; assumption|]. exact Hs.
  Qed.
  Lemma delete_live h e x : live (delete h e) x <-> live h x.
  Proof. reflexivity. Qed.

  (** ** The merge loops. *)
  Lemma left_candidate_inv fuel h base o h' : inv h -> live h base -> to_left_candidate fuel h base = Ok (o, h') ->
    inv h' /\ h_count h' = h_count h /\ (forall x, start h' x = start h x) /\ (forall l, o = Some l -> live h' l).
  Proof.
    intros Hi L. unfold to_left_candidate.
    destruct (negb _).
    { intros H. injection H as <- <-. split; [exact Hi|]. split; [reflexivity|]. split; [reflexivity|]. discriminate. }
    intros H.
    apply (while_ok (fun st : edge * heap => inv (snd st) /\ h_count (snd st) = h_count h /\ (forall x, start (snd st) x = start h x) /\ live (snd st) (fst st))
             (fun r : option edge * heap => inv (snd r) /\ h_count (snd r) = h_count h /\ (forall x, start (snd r) x = start h x) /\ forall l, fst r = Some l -> live (snd r) l)) in H.
    - exact H.
    - intros (e & h0) (I0 & C0 & S0 & L0). cbn [fst snd] in *.
      destruct (_ && _)%bool; cbn [fst snd].
      + split; [apply delete_inv; assumption|]. split; [exact C0|]. split; [exact S0|].
        apply delete_live. apply live_lfs; [apply I0|exact L0].
      + split; [exact I0|]. split; [exact C0|]. split; [exact S0|]. intros l E. injection E as <-. exact L0.
    - cbn [fst snd]. split; [exact Hi|]. split; [reflexivity|]. split; [reflexivity|]. apply live_lfs; [apply Hi|auto with live].
  Qed.
  Lemma right_candidate_inv fuel h base o h' : inv h -> live h base -> to_right_candidate fuel h base = Ok (o, h') ->
    inv h' /\ h_count h' = h_count h /\ (forall x, start h' x = start h x) /\ (forall l, o = Some l -> live h' l).
  Proof.
    intros Hi L. unfold to_right_candidate.
    destruct (negb _).
    { intros H. injection H as <- <-. split; [exact Hi|]. split; [reflexivity|]. split; [reflexivity|]. discriminate. }
    intros H.
    apply (while_ok (fun st : edge * heap => inv (snd st) /\ h_count (snd st) = h_count h /\ (forall x, start (snd st) x = start h x) /\ live (snd st) (fst st))
             (fun r : option edge * heap => inv (snd r) /\ h_count (snd r) = h_count h /\ (forall x, start (snd r) x = start h x) /\ forall l, fst r = Some l -> live (snd r) l)) in H.
    - exact H.
    - intros (e & h0) (I0 & C0 & S0 & L0). cbn [fst snd] in *.
      destruct (_ && _)%bool; cbn [fst snd].
      + split; [apply delete_inv; assumption|]. split; [exact C0|]. split; [exact S0|].
        apply delete_live. apply live_rfs; [apply I0|exact L0].
      + split; [exact I0|]. split; [exact C0|]. split; [exact S0|]. intros l E. injection E as <-. exact L0.
    - cbn [fst snd]. split; [exact Hi|]. split; [reflexivity|]. split; [reflexivity|]. apply live_rfs; [apply Hi|exact L].
  Qed.
  Lemma connect_parts_inv fuel h base h' : inv h -> live h base -> connect_parts fuel h base = Ok h' ->
    inv h' /\ h_count h <= h_count h'.
  Proof.
    intros Hi L H. unfold connect_parts in H.
    apply (while_ok (fun st : edge * heap => inv (snd st) /\ h_count h <= h_count (snd st) /\ live (snd st) (fst st))
             (fun r : heap => inv r /\ h_count h <= h_count r)) in H.
    - exact H.
    - intros (e & h0) (I0 & C0 & L0). cbn [fst snd] in *.
      destruct (to_left_candidate fuel h0 e) as [(lc & h1)|] eqn:E1; cbn [rbind]; [|exact I].
      destruct (left_candidate_inv _ _ _ _ _ I0 L0 E1) as (I1 & C1 & S1 & L1).
      assert (Le1 : live h1 e) by (apply (live_more h0); [lia|exact L0]).
      destruct (to_right_candidate fuel h1 e) as [(rc & h2)|] eqn:E2; cbn [rbind]; [|exact I].
      destruct (right_candidate_inv _ _ _ _ _ I1 Le1 E2) as (I2 & C2 & S2 & L2).
      assert (Le2 : live h2 e) by (apply (live_more h0); [lia|exact L0]).
      assert (Ll2 : forall l, lc = Some l -> live h2 l) by (intros l El; apply (live_more h1); [lia|apply L1, El]).
      assert (K : forall a b, live h2 a -> live h2 b ->
        let '(e', h3) := connect h2 a b in inv h3 /\ h_count h <= h_count h3 /\ live h3 e').
      { intros a b La Lb. pose proof (connect_inv h2 a b I2 La Lb) as C. destruct (connect h2 a b) as (e' & h3).
        destruct C as (I3 & L3 & C3 & _). split; [exact I3|]. split; [lia|exact L3]. }
      destruct lc as [l|], rc as [r|].
      + destruct (in_circle_interior _ _ _ _).
        * specialize (K r (opposite e) (L2 r eq_refl) (live_opposite _ _ Le2)). destruct (connect h2 _ _). exact K.
        * specialize (K (opposite e) (opposite l) (live_opposite _ _ Le2) (live_opposite _ _ (Ll2 l eq_refl))). destruct (connect h2 _ _). exact K.
      + specialize (K (opposite e) (opposite l) (live_opposite _ _ Le2) (live_opposite _ _ (Ll2 l eq_refl))). destruct (connect h2 _ _). exact K.
      + specialize (K r (opposite e) (L2 r eq_refl) (live_opposite _ _ Le2)). destruct (connect h2 _ _). exact K.
      + split; [exact I2|lia].
    - cbn [fst snd]. split; [exact Hi|]. split; [lia|exact L].
  Qed.

  Definition live_tri (h : heap) (t : tri) : Prop := live h (left_side t) /\ live h (right_side t).
  Lemma live_tri_more h h' t : h_count h <= h_count h' -> live_tri h t -> live_tri h' t.
  Proof. intros Hc (L1 & L2). split; eapply live_more; eassumption. Qed.
  Lemma find_base_inv fuel h self other b s' o' h' : inv h -> live_tri h self -> live_tri h other ->
    find_base_edge fuel h self other = Ok (b, s', o', h') ->
    inv h' /\ h_count h <= h_count h' /\ live h' b /\ live_tri h' s' /\ live_tri h' o'.
  Proof.
    intros Hi (Ls1 & Ls2) (Lo1 & Lo2) H. unfold find_base_edge in H. apply rbind_ok in H. destruct H as ((rs & ls) & Hw & H).
    apply (while_ok (fun st : edge * edge => live h (fst st) /\ live h (snd st)) (fun r : edge * edge => live h (fst r) /\ live h (snd r))) in Hw.
    - destruct Hw as (Lr & Ll). cbn [fst snd] in *.
      pose proof (connect_inv h (opposite ls) rs Hi (live_opposite _ _ Ll) Lr) as C.
      destruct (connect h (opposite ls) rs) as (base & h1). destruct C as (I1 & L1 & C1 & _).
      injection H as <- <- <- <-. split; [exact I1|]. split; [lia|]. split; [exact L1|].
      assert (Hc : h_count h <= h_count h1) by lia.
      split; destruct (point_eqb _ _); split; cbn [left_side right_side]; auto with live; eapply live_more; eassumption.
    - intros (a & b0) (La & Lb). cbn [fst snd] in *.
      destruct (orientation_eqb _ _); cbn [fst snd].
      + split; [apply live_lfe; [apply Hi|exact La]|exact Lb].
      + destruct (orientation_eqb _ _); cbn [fst snd]; split; try assumption. apply live_rfe; [apply Hi|exact Lb].
    - cbn [fst snd]. auto.
  Qed.
  Lemma merge_inv fuel h a b t h' : inv h -> live_tri h a -> live_tri h b -> merge fuel h a b = Ok (t, h') ->
    inv h' /\ h_count h <= h_count h' /\ live_tri h' t.
  Proof.
    intros Hi La Lb H. unfold merge in H. apply rbind_ok in H. destruct H as ((((base & s') & o') & h1) & H1 & H).
    destruct (find_base_inv _ _ _ _ _ _ _ _ Hi La Lb H1) as (I1 & C1 & Lbase & Ls & Lo).
    apply rbind_ok in H. destruct H as (h2 & H2 & H). injection H as <- <-.
    destruct (connect_parts_inv _ _ _ _ I1 Lbase H2) as (I2 & C2).
    split; [exact I2|]. split; [lia|]. split; cbn [left_side right_side].
    - apply (live_more h1); [lia|apply Ls].
    - apply (live_more h1); [lia|apply Lo].
  Qed.
  Lemma two_points_inv h p q : inv h -> P p -> P q ->
    let '(t, h') := triangulate_two_points h p q in inv h' /\ h_count h <= h_count h' /\ live_tri h' t.
  Proof.
    intros Hi Pp Pq. unfold triangulate_two_points. pose proof (from_endpoints_inv h p q Hi Pp Pq) as F.
    destruct (from_endpoints h p q) as (e & h'). destruct F as (I1 & L1 & C1 & _).
    split; [exact I1|]. split; [lia|]. split; cbn [left_side right_side]; auto with live.
  Qed.
  Lemma three_points_inv h p q r : inv h -> P p -> P q -> P r ->
    let '(t, h') := triangulate_three_points h p q r in inv h' /\ h_count h <= h_count h' /\ live_tri h' t.
  Proof.
    intros Hi Pp Pq Pr. unfold triangulate_three_points. pose proof (from_endpoints_inv h p q Hi Pp Pq) as F.
    destruct (from_endpoints h p q) as (e1 & h1). destruct F as (I1 & L1 & C1 & S1 & E1 & _).
    pose proof (from_endpoints_inv h1 q r I1 Pq Pr) as F.
    destruct (from_endpoints h1 q r) as (e2 & h2). destruct F as (I2 & L2 & C2 & S2 & E2 & K2).
    assert (L1' : live h2 e1) by (apply (live_more h1); [lia|exact L1]).
    assert (I3 : inv (splice h2 (opposite e1) e2)).
    { apply splice_inv; [exact I2|auto with live|exact L2|]. rewrite S2, K2; [exact E1|apply L1]. }
    set (h3 := splice h2 (opposite e1) e2) in *.
    assert (C3 : h_count h3 = h_count h2) by reflexivity.
    assert (L13 : live h3 e1) by exact L1'. assert (L23 : live h3 e2) by exact L2.
    destruct (orientation_of h3 e1 r).
    - pose proof (connect_inv h3 e2 e1 I3 L23 L13) as C. destruct (connect h3 e2 e1) as (e3 & h4). destruct C as (I4 & L4 & C4 & _).
      split; [exact I4|]. split; [lia|]. split; cbn [left_side right_side]; auto with live.
    - split; [exact I3|]. split; [lia|]. split; cbn [left_side right_side]; auto with live.
    - pose proof (connect_inv h3 e2 e1 I3 L23 L13) as C. destruct (connect h3 e2 e1) as (e3 & h4). destruct C as (I4 & L4 & C4 & _).
      split; [exact I4|]. split; [lia|]. split; cbn [left_side right_side]; [|apply live_opposite]; apply (live_more h3); try lia; assumption.
  Qed.
  Lemma initialize_all_inv parts : forall h ts h', inv h -> (forall l p, In l parts -> In p l -> P p) ->
    initialize_all h parts = Ok (ts, h') ->
    inv h' /\ h_count h <= h_count h' /\ Forall (live_tri h') ts.
  Proof.
    induction parts as [|l parts IH]; intros h ts h' Hi Hp H; cbn [initialize_all] in H.
    { injection H as <- <-. split; [exact Hi|]. split; [lia|constructor]. }
    apply rbind_ok in H. destruct H as ((t & h1) & H1 & H).
    assert (K : inv h1 /\ h_count h <= h_count h1 /\ live_tri h1 t).
    { assert (Hl : forall p, In p l -> P p) by (intros p; apply Hp; left; reflexivity).
      destruct l as [|p [|q [|r [|s l]]]]; cbn [initialize_triangulation] in H1; try discriminate; apply (f_equal (fun r => match r with Ok a => a | Raise _ => (t, h1) end)) in H1.
      - pose proof (two_points_inv h p q Hi) as K. rewrite H1 in K. apply K; apply Hl; cbn; auto.
      - pose proof (three_points_inv h p q r Hi) as K. rewrite H1 in K. apply K; apply Hl; cbn; auto. }
    destruct K as (I1 & C1 & L1). apply rbind_ok in H. destruct H as ((ts1 & h2) & H2 & H). injection H as <- <-.
    destruct (IH h1 ts1 h2 I1) as (I2 & C2 & F2); [intros l' p Hl'; apply Hp; right; exact Hl'|exact H2|].
    split; [exact I2|]. split; [lia|]. constructor; [apply (live_tri_more h1); [lia|exact L1]|exact F2].
  Qed.
  Lemma merge_round_inv fuel n : forall ts h ts' h', length ts <= n -> inv h -> Forall (live_tri h) ts ->
    merge_round fuel h ts = Ok (ts', h') ->
    inv h' /\ h_count h <= h_count h' /\ Forall (live_tri h') ts'.
  Proof.
    induction n as [|n IH]; intros ts h ts' h' Hn Hi Hf H.
    { destruct ts; [|cbn in Hn; lia]. cbn in H. injection H as <- <-. auto. }
    destruct ts as [|a [|b ts]]; cbn [merge_round] in H; try (injection H as <- <-; auto; fail).
    apply rbind_ok in H. destruct H as ((t & h1) & H1 & H). inversion Hf as [|? ? La Hf']. inversion Hf' as [|? ? Lb Hf'']. subst.
    destruct (merge_inv _ _ _ _ _ _ Hi La Lb H1) as (I1 & C1 & L1).
    apply rbind_ok in H. destruct H as ((ts1 & h2) & H2 & H). injection H as <- <-.
    destruct (IH ts h1 ts1 h2) as (I2 & C2 & F2); [cbn in Hn; lia|exact I1| |exact H2|].
    { eapply Forall_impl; [|exact Hf'']. intros x. apply live_tri_more, C1. }
    split; [exact I2|]. split; [lia|]. constructor; [apply (live_tri_more h1); [lia|exact L1]|exact F2].
  Qed.
  Lemma merge_rounds_inv fuel n : forall ts h ts' h', inv h -> Forall (live_tri h) ts ->
    merge_rounds fuel n h ts = Ok (ts', h') ->
    inv h' /\ h_count h <= h_count h' /\ Forall (live_tri h') ts'.
  Proof.
    induction n as [|n IH]; intros ts h ts' h' Hi Hf H; cbn [merge_rounds] in H.
    { injection H as <- <-. auto. }
    apply rbind_ok in H. destruct H as ((ts1 & h1) & H1 & H).
    destruct (merge_round_inv _ _ _ _ _ _ (Nat.le_refl _) Hi Hf H1) as (I1 & C1 & F1).
    destruct (IH _ _ _ _ I1 F1 H) as (I2 & C2 & F2). split; [exact I2|]. split; [lia|exact F2].
  Qed.
  Lemma slices_in {A} sizes : forall (l s : list A) x, In s (slices l sizes) -> In x s -> In x l.
  Proof.
    induction sizes as [|n sizes IH]; intros l s x Hs Hx; cbn in Hs; [contradiction|].
    rewrite <- (firstn_skipn n l). apply in_or_app. destruct Hs as [<- |Hs]; [left; exact Hx|right; eapply IH; eassumption].
  Qed.
  Lemma delaunay_inv ctx pts t h : (forall p, In p pts -> P p) -> delaunay ctx pts = Ok (t, h) -> inv h /\ live_tri h t.
  Proof.
    intros Hp H. unfold delaunay in H. apply rbind_ok in H. destruct H as ((ts & h1) & H1 & H).
    destruct (initialize_all_inv _ _ _ _ (inv_empty _) (fun l p Hl Hx => Hp p (proj1 (isort_in _ _ _) (slices_in _ _ _ _ Hl Hx))) H1) as (I1 & _ & F1).
    apply rbind_ok in H. destruct H as ((ts2 & h2) & H2 & H).
    destruct (merge_rounds_inv _ _ _ _ _ _ I1 F1 H2) as (I2 & _ & F2).
    destruct ts2 as [|t2 ts2]; [discriminate|]. injection H as <- <-. split; [exact I2|]. inversion F2; assumption.
  Qed.
End Support.

(** ** [Triangulation.delete] *)
Lemma tri_delete_ok h t e t' h' : wf h -> live_tri h t -> tri_delete h t e = Ok (t', h') ->
  h' = delete h e /\ live_tri h t'.
Proof.
  intros Hwf (L1 & L2) H. unfold tri_delete in H. apply rbind_ok in H. destruct H as (t1 & H1 & H).
  assert (K1 : live_tri h t1).
  { destruct (_ || _); [|injection H1 as <-; split; assumption].
    apply rbind_ok in H1. destruct H1 as (? & _ & H1). injection H1 as <-. split; cbn [left_side right_side]; auto with live. }
  apply rbind_ok in H. destruct H as (t2 & H2 & H). injection H as <- <-. split; [reflexivity|].
  clear H1. destruct (_ || _); [|injection H2 as <-; exact K1].
  apply rbind_ok in H2. destruct H2 as (? & _ & H2). injection H2 as <-. destruct K1. split; cbn [left_side right_side]; auto with live.
Qed.

(** ** The boundary walk. *)
Definition live_edges (h : heap) : list edge :=
  flat_map (fun i => [(i, R0); (i, R2)]) (seq 0 (h_count h)).
Lemma live_edges_spec h e : live h e <-> In e (live_edges h).
Proof.
  unfold live_edges, live, valid. rewrite in_flat_map. destruct e as (i, r). cbn [fst]. split.
  - intros (V & P). exists i. rewrite in_seq. split; [lia|]. destruct r; cbn in P; try discriminate; cbn; auto.
  - intros (j & Hj & He). rewrite in_seq in Hj. destruct He as [He|[He|[]]]; injection He as -> <-; cbn; split; try reflexivity; lia.
Qed.
Lemma flat_map_pair_length {A B} (f g : A -> B) l : length (flat_map (fun i => [f i; g i]) l) = 2 * length l.
Proof. induction l as [|x l IH]; cbn [flat_map length app]; [reflexivity|]. rewrite IH. lia. Qed.
Lemma live_edges_length h : length (live_edges h) = 2 * h_count h.
Proof. unfold live_edges. etransitivity; [apply (flat_map_pair_length (fun i : nat => (i, R0)) (fun i => (i, R2)))|]. rewrite seq_length. reflexivity. Qed.

(** [chain f s l]: [l] is [s, f s, f (f s), ...]. *)
Fixpoint iterates {A} (f : A -> A) (n : nat) (s : A) : list A :=
  match n with O => [] | S n' => s :: iterates f n' (f s) end.
Lemma iterates_length {A} (f : A -> A) n : forall s, length (iterates f n s) = n.
Proof. induction n as [|n IH]; intros s; cbn; [reflexivity|]. rewrite IH. reflexivity. Qed.
Lemma iterates_snoc {A} (f : A -> A) n : forall s, iterates f (S n) s = iterates f n s ++ [Nat.iter n f s].
Proof.
  induction n as [|n IH]; intros s; [reflexivity|].
  change (iterates f (S (S n)) s) with (s :: iterates f (S n) (f s)). rewrite IH. cbn [iterates app]. f_equal. f_equal. f_equal.
  clear. induction n as [|n IH]; cbn; [reflexivity|]. f_equal. exact IH.
Qed.
Lemma iter_shift {A} (f : A -> A) n s : Nat.iter n f (f s) = f (Nat.iter n f s).
Proof. induction n as [|n IH]; cbn; [reflexivity|]. f_equal. exact IH. Qed.
Lemma iterates_nth {A} (f : A -> A) n : forall s i, i < n -> nth_error (iterates f n s) i = Some (Nat.iter i f s).
Proof.
  induction n as [|n IH]; intros s i Hi; [lia|]. destruct i as [|i]; [reflexivity|]. cbn [iterates nth_error].
  rewrite IH by lia. f_equal. apply iter_shift.
Qed.

Lemma iter_S {A} (f : A -> A) n s : Nat.iter (S n) f s = f (Nat.iter n f s).
Proof. reflexivity. Qed.

Section Boundary.
  Context (h : heap) (Hwf : wf h).
  Let f := right_from_end h.
  Lemma boundary_walk t fuel : live h (left_side t) ->
    (2 * h_count h < Pos.to_nat fuel -> exists es, to_boundary_edges fuel h t = Ok es) /\
    forall es, to_boundary_edges fuel h t = Ok es ->
      exists n, 0 < n /\ es = iterates f n (left_side t) /\ Nat.iter n f (left_side t) = left_side t
                /\ NoDup es /\ (forall e, In e es -> live h e).
  Proof.
    intros L. set (s := left_side t).
    pose (I := fun st : edge * list edge => exists n, rev (snd st) = iterates f n s /\ fst st = Nat.iter n f s
             /\ NoDup (fst st :: snd st) /\ (forall e, In e (fst st :: snd st) -> live h e)).
    pose (Q := fun r : list edge => exists n, 0 < n /\ rev r = iterates f n s /\ Nat.iter n f s = s /\ NoDup r /\ (forall e, In e r -> live h e)).
    pose (body := fun st : edge * list edge =>
      let '(cursor, acc) := st in
      let acc' := cursor :: acc in
      let nxt := right_from_end h cursor in
      if edge_eqb nxt s then Ok (inr acc' : (edge * list edge) + list edge) else Ok (inl (nxt, acc'))).
    assert (Hb : forall st, I st -> match body st with
                    | Ok (inl s') => I s' /\ 2 * h_count h - length (snd s') < 2 * h_count h - length (snd st)
                    | Ok (inr r) => Q r
                    | Raise e => False end).
    { intros (c & acc) (n & E1 & E2 & Hn & Hl). cbn [fst snd] in *. cbn [body].
      assert (E3 : rev (c :: acc) = iterates f (S n) s) by (rewrite iterates_snoc; cbn [rev]; rewrite E1, E2; reflexivity).
      destruct (edge_eqb (right_from_end h c) s) eqn:Ee.
      - apply edge_eqb_eq in Ee. exists (S n). split; [lia|]. split; [exact E3|]. split; [|split; assumption].
        rewrite iter_S, <- E2. exact Ee.
      - apply edge_eqb_neq in Ee. split.
        + exists (S n). cbn [fst snd]. split; [exact E3|]. split; [rewrite iter_S, <- E2; reflexivity|].
          assert (Lc : live h c) by (apply Hl; left; reflexivity).
          split.
          * constructor; [|exact Hn]. intros Hin.
            assert (Hin' : In (right_from_end h c) (iterates f (S n) s)) by (rewrite <- E3; apply in_rev; rewrite rev_involutive; exact Hin).
            apply In_nth_error in Hin'. destruct Hin' as (j & Hj).
            assert (Hj' : j < S n) by (rewrite <- (iterates_length f (S n) s); apply nth_error_Some; congruence).
            rewrite iterates_nth in Hj by exact Hj'. destruct j as [|j]; [cbn in Hj; congruence|].
            rewrite iter_S in Hj. apply (f_equal (fun o => match o with Some a => a | None => s end)) in Hj.
            assert (Hjin : In (Nat.iter j f s) acc).
            { apply in_rev. rewrite E1. apply nth_error_In with j. apply iterates_nth. lia. }
            assert (Lj : live h (Nat.iter j f s)) by (apply Hl; right; exact Hjin).
            apply (rfe_inj h Hwf) in Hj; [|apply Lj|apply Lc]. rewrite Hj in Hjin.
            inversion Hn; contradiction.
          * intros e [<- |He]; [apply live_rfe; assumption|apply Hl, He].
        + cbn [snd length].
          assert (length (c :: acc) <= 2 * h_count h).
          { rewrite <- live_edges_length. apply NoDup_incl_length; [exact Hn|]. intros e He. apply live_edges_spec, Hl, He. }
          cbn in H. lia. }
    assert (I0 : I (s, [])).
    { exists 0. cbn. split; [reflexivity|]. split; [reflexivity|]. split; [constructor; [intros []|constructor]|].
      intros e [<- |[]]. exact L. }
    assert (C0 : 0 < h_count h) by (destruct L as (V & _); unfold valid in V; lia).
    split.
    - intros Hfu. unfold to_boundary_edges. fold s. fold body.
      assert (K : exists r, while_ fuel body (s, []) = Ok r).
      { apply (while_total I (fun st => 2 * h_count h - length (snd st)) (fun r => exists x, r = Ok x)).
        - intros st Hi. specialize (Hb st Hi). destruct (body st) as [[st'|r]|e]; [exact Hb|eauto|destruct Hb].
        - exact I0.
        - cbn. lia. }
      destruct K as (r & K).
      assert (K2 : to_boundary_edges fuel h t = Ok (rev r)).
      { unfold to_boundary_edges. fold s. change (rbind (while_ fuel body (s, [])) (fun r => Ok (rev r)) = Ok (rev r)). rewrite K. reflexivity. }
      exists (rev r). exact K2.
    - intros es H. unfold to_boundary_edges in H. fold s in H. apply rbind_ok in H. destruct H as (r & Hw & H).
      change (while_ fuel body (s, []) = Ok r) in Hw. injection H as <-.
      assert (K : Q r).
      { apply (while_ok I Q body fuel (s, []) r); [|exact I0|exact Hw].
        intros st Hi. specialize (Hb st Hi). destruct (body st) as [[st'|r']|e]; [apply Hb|exact Hb|exact Logic.I]. }
      destruct K as (n & N0 & E & Ei & Hn & Hl). exists n. split; [exact N0|]. split; [exact E|]. split; [exact Ei|].
      split; [apply NoDup_rev, Hn|]. intros e He. apply Hl, in_rev, He.
  Qed.
  Lemma boundary_cycle t fuel es : live h (left_side t) -> to_boundary_edges fuel h t = Ok es ->
    es <> [] /\ NoDup es /\ (forall e, In e es -> live h e) /\ nth_error es 0 = Some (left_side t) /\
    forall i e, nth_error es i = Some e -> nth_error es (S i mod length es) = Some (right_from_end h e).
  Proof.
    intros L H. destruct (boundary_walk t fuel L) as (_ & K). destruct (K es H) as (n & N0 & -> & Ei & Hn & Hl).
    split; [destruct n; [lia|discriminate]|]. split; [exact Hn|]. split; [exact Hl|].
    split; [rewrite iterates_nth by exact N0; reflexivity|].
    intros i e Hi. assert (Hin : i < n) by (rewrite <- (iterates_length f n (left_side t)); apply nth_error_Some; congruence).
    rewrite iterates_nth in Hi by exact Hin. injection Hi as <-. rewrite iterates_length.
    destruct (Nat.eq_dec (S i) n) as [<- |E].
    - rewrite Nat.mod_same by lia. rewrite iterates_nth by lia. rewrite iter_S in Ei. f_equal. symmetry. exact Ei.
    - rewrite Nat.mod_small by lia. rewrite iterates_nth by lia. reflexivity.
  Qed.
End Boundary.
