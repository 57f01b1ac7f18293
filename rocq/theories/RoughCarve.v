(** Carving with inexact arithmetic: the vertices are among the given points.  The proofs are those of
    TriProofs.v and CarveProofs.v. *)
From Verif Require Import Base Geometry Ctx QuadEdge Utils Contracts Spec Triangulation Factories LoopProofs ListProofs QuadProofs CompressProofs
  TriProofs CarveProofs RoughArith RoughFactories.

Section Rough.
Context {ar : arith}.

Lemma del_subsequence (vs : list point) i : subsequence (py_del vs i) vs.
Proof.
  unfold py_del. destruct (py_index _ _) as [k|]; [|apply subsequence_refl].
  generalize k. clear. induction vs as [|v vs IH]; intros k; cbn [remove_nth]; [destruct k; constructor|].
  destruct k; cbn [remove_nth]; [constructor; apply subsequence_refl|constructor; apply IH].
Qed.
Lemma compress_subsequence vs : subsequence (compress_contour vs) vs.
Proof.
  assert (D : forall fuel i us, subsequence (compress_down fuel i us) us).
  { induction fuel as [|fuel IH]; intros i us; cbn [compress_down]; [apply subsequence_refl|].
    destruct (_ && _)%bool; [|apply subsequence_refl]. eapply subsequence_trans; [apply IH|apply del_subsequence]. }
  assert (U : forall fuel i us, subsequence (compress_up fuel i us) us).
  { induction fuel as [|fuel IH]; intros i us; cbn [compress_up]; [apply subsequence_refl|].
    destruct (_ && _)%bool; [|apply subsequence_refl]. eapply subsequence_trans; [apply IH|apply del_subsequence]. }
  assert (D1 : forall n us, subsequence (compress_phase1 n us) us).
  { induction n as [|n IH]; intros us; cbn [compress_phase1]; [apply subsequence_refl|].
    eapply subsequence_trans; [apply IH|apply D]. }
  assert (U1 : forall fuel i us, subsequence (compress_phase2 fuel i us) us).
  { induction fuel as [|fuel IH]; intros i us; cbn [compress_phase2]; [apply subsequence_refl|].
    destruct (_ <? _)%Z; [|apply subsequence_refl]. eapply subsequence_trans; [apply IH|apply U]. }
  unfold compress_contour. destruct vs as [|v vs]; [constructor|].
  eapply subsequence_trans; [apply U1|apply D1].
Qed.
Lemma compress_incl vs : incl (compress_contour vs) vs.
Proof. apply subsequence_incl, compress_subsequence. Qed.

Section Support.
Context (P : point -> Prop).
Definition supp (h : heap) : Prop := forall e, live h e -> P (start h e).
Record inv (h : heap) : Prop := Inv { inv_good : good h; inv_supp : supp h }.
Lemma inv_empty p : inv (empty_heap p).
  Proof. split; [apply good_empty|]. intros e (V & _). unfold valid in V. cbn in V. lia. Qed.
Lemma supp_end h e : supp h -> live h e -> P (end_ h e).
  Proof. intros Hs L. apply Hs. auto with live. Qed.
Lemma from_endpoints_inv h s e : inv h -> P s -> P e ->
    let '(q, h') := from_endpoints h s e in
    inv h' /\ live h' q /\ h_count h' = S (h_count h) /\ start h' q = s /\ end_ h' q = e
    /\ (forall x, valid h x -> start h' x = start h x).
  Proof.
    intros (Hg & Hs) Ps Pe. pose proof (from_endpoints_good h s e Hg) as G. pose proof (from_endpoints_start h s e) as S1.
    destruct (from_endpoints h s e) as (q & h') eqn:E. cbn [snd] in G.
    assert (Hc : h_count h' = S (h_count h) /\ q = (h_count h, R0)) by (unfold from_endpoints in E; injection E as <- <-; auto).
    destruct Hc as (Hc & ->).
    split; [split; [exact G|]|].
    - intros x (V & Px). rewrite S1. unfold valid in V. rewrite Hc in V.
      destruct (Nat.eqb_spec (fst x) (h_count h)) as [E1|E1].
      + destruct x as (i, []); cbn [snd] in *; try discriminate; assumption.
      + apply Hs. split; [unfold valid; lia|exact Px].
    - split; [split; [unfold valid; rewrite Hc; cbn; lia|reflexivity]|]. split; [exact Hc|].
      unfold end_. rewrite !S1. unfold opposite, rotated. cbn [fst snd rot_succ]. rewrite Nat.eqb_refl.
      split; [reflexivity|]. split; [reflexivity|]. intros x V. rewrite S1. unfold valid in V.
      destruct (Nat.eqb_spec (fst x) (h_count h)); [lia|reflexivity].
  Qed.
Lemma live_more h h' e : h_count h <= h_count h' -> live h e -> live h' e.
  Proof. intros Hc (V & Pr). split; [unfold valid in *; lia|exact Pr]. Qed.
Lemma connect_inv h e o : inv h -> live h e -> live h o ->
    let '(r, h') := connect h e o in
    inv h' /\ live h' r /\ h_count h' = S (h_count h) /\ start h' r = end_ h e /\ end_ h' r = start h o
    /\ (forall x, valid h x -> start h' x = start h x).
  Proof.
    intros (Hg & Hs) (Ve & Pe) (Vo & Po). pose proof (connect_spec h e o Hg Ve Vo Pe Po) as C.
    destruct (connect h e o) as (r & h'). destruct C as (G & -> & Hc & S1 & S2 & S3 & _).
    split; [split; [exact G|]|].
    - intros x (V & Px). unfold valid in V. rewrite Hc in V.
      destruct (Nat.eq_dec (fst x) (h_count h)) as [E1|E1].
      + destruct x as (i, []); cbn [fst] in E1; subst i; try discriminate.
        * rewrite S1. apply supp_end; [exact Hs|split; assumption].
        * change (P (end_ h' (h_count h, R0))). rewrite S2. apply Hs. split; assumption.
      + assert (V' : valid h x) by (unfold valid; lia). rewrite S3 by exact V'. apply Hs. split; assumption.
    - split; [split; [unfold valid; rewrite Hc; cbn; lia|reflexivity]|]. auto.
  Qed.
Lemma delete_inv h e : inv h -> live h e -> inv (delete h e).
  Proof.
    intros (Hg & Hs) (V & Pe). destruct (delete_spec h e Hg V Pe) as (G & Hc & S1). split; [exact G|].
    intros x (Vx & Px). rewrite S1. apply Hs. split; [unfold valid in *; lia|exact Px].
  Qed.
Lemma splice_inv h a b : inv h -> live h a -> live h b -> start h a = start h b -> inv (splice h a b).
  Proof.
    intros (Hg & Hs) (Va & Pa) (Vb & Pb) E. split; [apply splice_good; assumption|]. exact Hs.
  Qed.
Lemma delete_live h e x : live (delete h e) x <-> live h x.
  Proof. reflexivity. Qed.
(** ** The merge loops. *)
Lemma left_candidate_inv fuel h base o h' : inv h -> live h base -> to_left_candidate fuel h base = Ok (o, h') ->
    inv h' /\ h_count h' = h_count h /\ (forall x, start h' x = start h x) /\ (forall l, o = Some l -> live h' l).
  Proof.
    intros Hi L. unfold to_left_candidate.
    destruct (negb _).
    { intros H. injection H as <- <-. split; [exact Hi|]. split; [reflexivity|]. split; [reflexivity|]. discriminate. }
    intros H.
    apply (while_ok (fun st : edge * heap => inv (snd st) /\ h_count (snd st) = h_count h /\ (forall x, start (snd st) x = start h x) /\ live (snd st) (fst st))
             (fun r : option edge * heap => inv (snd r) /\ h_count (snd r) = h_count h /\ (forall x, start (snd r) x = start h x) /\ forall l, fst r = Some l -> live (snd r) l)) in H.
    - exact H.
    - intros (e & h0) (I0 & C0 & S0 & L0). cbn [fst snd] in *.
      destruct (_ && _)%bool; cbn [fst snd].
      + split; [apply delete_inv; assumption|]. split; [exact C0|]. split; [exact S0|].
        apply delete_live. apply live_lfs; [apply I0|exact L0].
      + split; [exact I0|]. split; [exact C0|]. split; [exact S0|]. intros l E. injection E as <-. exact L0.
    - cbn [fst snd]. split; [exact Hi|]. split; [reflexivity|]. split; [reflexivity|]. apply live_lfs; [apply Hi|auto with live].
  Qed.
Lemma right_candidate_inv fuel h base o h' : inv h -> live h base -> to_right_candidate fuel h base = Ok (o, h') ->
    inv h' /\ h_count h' = h_count h /\ (forall x, start h' x = start h x) /\ (forall l, o = Some l -> live h' l).
  Proof.
    intros Hi L. unfold to_right_candidate.
    destruct (negb _).
    { intros H. injection H as <- <-. split; [exact Hi|]. split; [reflexivity|]. split; [reflexivity|]. discriminate. }
    intros H.
    apply (while_ok (fun st : edge * heap => inv (snd st) /\ h_count (snd st) = h_count h /\ (forall x, start (snd st) x = start h x) /\ live (snd st) (fst st))
             (fun r : option edge * heap => inv (snd r) /\ h_count (snd r) = h_count h /\ (forall x, start (snd r) x = start h x) /\ forall l, fst r = Some l -> live (snd r) l)) in H.
    - exact H.
    - intros (e & h0) (I0 & C0 & S0 & L0). cbn [fst snd] in *.
      destruct (_ && _)%bool; cbn [fst snd].
      + split; [apply delete_inv; assumption|]. split; [exact C0|]. split; [exact S0|].
        apply delete_live. apply live_rfs; [apply I0|exact L0].
      + split; [exact I0|]. split; [exact C0|]. split; [exact S0|]. intros l E. injection E as <-. exact L0.
    - cbn [fst snd]. split; [exact Hi|]. split; [reflexivity|]. split; [reflexivity|]. apply live_rfs; [apply Hi|exact L].
  Qed.
Lemma connect_parts_inv fuel h base h' : inv h -> live h base -> connect_parts fuel h base = Ok h' ->
    inv h' /\ h_count h <= h_count h'.
  Proof.
    intros Hi L H. unfold connect_parts in H.
    apply (while_ok (fun st : edge * heap => inv (snd st) /\ h_count h <= h_count (snd st) /\ live (snd st) (fst st))
             (fun r : heap => inv r /\ h_count h <= h_count r)) in H.
    - exact H.
    - intros (e & h0) (I0 & C0 & L0). cbn [fst snd] in *.
      destruct (to_left_candidate fuel h0 e) as [(lc & h1)|] eqn:E1; cbn [rbind]; [|exact I].
      destruct (left_candidate_inv _ _ _ _ _ I0 L0 E1) as (I1 & C1 & S1 & L1).
      assert (Le1 : live h1 e) by (apply (live_more h0); [lia|exact L0]).
      destruct (to_right_candidate fuel h1 e) as [(rc & h2)|] eqn:E2; cbn [rbind]; [|exact I].
      destruct (right_candidate_inv _ _ _ _ _ I1 Le1 E2) as (I2 & C2 & S2 & L2).
      assert (Le2 : live h2 e) by (apply (live_more h0); [lia|exact L0]).
      assert (Ll2 : forall l, lc = Some l -> live h2 l) by (intros l El; apply (live_more h1); [lia|apply L1, El]).
      assert (K : forall a b, live h2 a -> live h2 b ->
        let '(e', h3) := connect h2 a b in inv h3 /\ h_count h <= h_count h3 /\ live h3 e').
      { intros a b La Lb. pose proof (connect_inv h2 a b I2 La Lb) as C. destruct (connect h2 a b) as (e' & h3).
        destruct C as (I3 & L3 & C3 & _). split; [exact I3|]. split; [lia|exact L3]. }
      destruct lc as [l|], rc as [r|].
      + destruct (in_circle_interior _ _ _ _).
        * specialize (K r (opposite e) (L2 r eq_refl) (live_opposite _ _ Le2)). destruct (connect h2 _ _). exact K.
        * specialize (K (opposite e) (opposite l) (live_opposite _ _ Le2) (live_opposite _ _ (Ll2 l eq_refl))). destruct (connect h2 _ _). exact K.
      + specialize (K (opposite e) (opposite l) (live_opposite _ _ Le2) (live_opposite _ _ (Ll2 l eq_refl))). destruct (connect h2 _ _). exact K.
      + specialize (K r (opposite e) (L2 r eq_refl) (live_opposite _ _ Le2)). destruct (connect h2 _ _). exact K.
      + split; [exact I2|lia].
    - cbn [fst snd]. split; [exact Hi|]. split; [lia|exact L].
  Qed.
Definition live_tri (h : heap) (t : tri) : Prop := live h (left_side t) /\ live h (right_side t).
Lemma live_tri_more h h' t : h_count h <= h_count h' -> live_tri h t -> live_tri h' t.
  Proof. intros Hc (L1 & L2). split; eapply live_more; eassumption. Qed.
Lemma find_base_inv fuel h self other b s' o' h' : inv h -> live_tri h self -> live_tri h other ->
    find_base_edge fuel h self other = Ok (b, s', o', h') ->
    inv h' /\ h_count h <= h_count h' /\ live h' b /\ live_tri h' s' /\ live_tri h' o'.
  Proof.
    intros Hi (Ls1 & Ls2) (Lo1 & Lo2) H. unfold find_base_edge in H. apply rbind_ok in H. destruct H as ((rs & ls) & Hw & H).
    apply (while_ok (fun st : edge * edge => live h (fst st) /\ live h (snd st)) (fun r : edge * edge => live h (fst r) /\ live h (snd r))) in Hw.
    - destruct Hw as (Lr & Ll). cbn [fst snd] in *.
      pose proof (connect_inv h (opposite ls) rs Hi (live_opposite _ _ Ll) Lr) as C.
      destruct (connect h (opposite ls) rs) as (base & h1). destruct C as (I1 & L1 & C1 & _).
      injection H as <- <- <- <-. split; [exact I1|]. split; [lia|]. split; [exact L1|].
      assert (Hc : h_count h <= h_count h1) by lia.
      split; destruct (point_eqb _ _); split; cbn [left_side right_side]; auto with live; eapply live_more; eassumption.
    - intros (a & b0) (La & Lb). cbn [fst snd] in *.
      destruct (orientation_eqb _ _); cbn [fst snd].
      + split; [apply live_lfe; [apply Hi|exact La]|exact Lb].
      + destruct (orientation_eqb _ _); cbn [fst snd]; split; try assumption. apply live_rfe; [apply Hi|exact Lb].
    - cbn [fst snd]. auto.
  Qed.
Lemma merge_inv fuel h a b t h' : inv h -> live_tri h a -> live_tri h b -> merge fuel h a b = Ok (t, h') ->
    inv h' /\ h_count h <= h_count h' /\ live_tri h' t.
  Proof.
    intros Hi La Lb H. unfold merge in H. apply rbind_ok in H. destruct H as ((((base & s') & o') & h1) & H1 & H).
    destruct (find_base_inv _ _ _ _ _ _ _ _ Hi La Lb H1) as (I1 & C1 & Lbase & Ls & Lo).
    apply rbind_ok in H. destruct H as (h2 & H2 & H). injection H as <- <-.
    destruct (connect_parts_inv _ _ _ _ I1 Lbase H2) as (I2 & C2).
    split; [exact I2|]. split; [lia|]. split; cbn [left_side right_side].
    - apply (live_more h1); [lia|apply Ls].
    - apply (live_more h1); [lia|apply Lo].
  Qed.
Lemma two_points_inv h p q : inv h -> P p -> P q ->
    let '(t, h') := triangulate_two_points h p q in inv h' /\ h_count h <= h_count h' /\ live_tri h' t.
  Proof.
    intros Hi Pp Pq. unfold triangulate_two_points. pose proof (from_endpoints_inv h p q Hi Pp Pq) as F.
    destruct (from_endpoints h p q) as (e & h'). destruct F as (I1 & L1 & C1 & _).
    split; [exact I1|]. split; [lia|]. split; cbn [left_side right_side]; auto with live.
  Qed.
Lemma three_points_inv h p q r : inv h -> P p -> P q -> P r ->
    let '(t, h') := triangulate_three_points h p q r in inv h' /\ h_count h <= h_count h' /\ live_tri h' t.
  Proof.
    intros Hi Pp Pq Pr. unfold triangulate_three_points. pose proof (from_endpoints_inv h p q Hi Pp Pq) as F.
    destruct (from_endpoints h p q) as (e1 & h1). destruct F as (I1 & L1 & C1 & S1 & E1 & _).
    pose proof (from_endpoints_inv h1 q r I1 Pq Pr) as F.
    destruct (from_endpoints h1 q r) as (e2 & h2). destruct F as (I2 & L2 & C2 & S2 & E2 & K2).
    assert (L1' : live h2 e1) by (apply (live_more h1); [lia|exact L1]).
    assert (I3 : inv (splice h2 (opposite e1) e2)).
    { apply splice_inv; [exact I2|auto with live|exact L2|]. rewrite S2, K2; [exact E1|apply L1]. }
    set (h3 := splice h2 (opposite e1) e2) in *.
    assert (C3 : h_count h3 = h_count h2) by reflexivity.
    assert (L13 : live h3 e1) by exact L1'. assert (L23 : live h3 e2) by exact L2.
    destruct (orientation_of h3 e1 r).
    - pose proof (connect_inv h3 e2 e1 I3 L23 L13) as C. destruct (connect h3 e2 e1) as (e3 & h4). destruct C as (I4 & L4 & C4 & _).
      split; [exact I4|]. split; [lia|]. split; cbn [left_side right_side]; auto with live.
    - split; [exact I3|]. split; [lia|]. split; cbn [left_side right_side]; auto with live.
    - pose proof (connect_inv h3 e2 e1 I3 L23 L13) as C. destruct (connect h3 e2 e1) as (e3 & h4). destruct C as (I4 & L4 & C4 & _).
      split; [exact I4|]. split; [lia|]. split; cbn [left_side right_side]; [|apply live_opposite]; apply (live_more h3); try lia; assumption.
  Qed.
Lemma initialize_all_inv parts : forall h ts h', inv h -> (forall l p, In l parts -> In p l -> P p) ->
    initialize_all h parts = Ok (ts, h') ->
    inv h' /\ h_count h <= h_count h' /\ Forall (live_tri h') ts.
  Proof.
    induction parts as [|l parts IH]; intros h ts h' Hi Hp H; cbn [initialize_all] in H.
    { injection H as <- <-. split; [exact Hi|]. split; [lia|constructor]. }
    apply rbind_ok in H. destruct H as ((t & h1) & H1 & H).
    assert (K : inv h1 /\ h_count h <= h_count h1 /\ live_tri h1 t).
    { assert (Hl : forall p, In p l -> P p) by (intros p; apply Hp; left; reflexivity).
      destruct l as [|p [|q [|r [|s l]]]]; cbn [initialize_triangulation] in H1; try discriminate; apply (f_equal (fun r => match r with Ok a => a | Raise _ => (t, h1) end)) in H1.
      - pose proof (two_points_inv h p q Hi) as K. rewrite H1 in K. apply K; apply Hl; cbn; auto.
      - pose proof (three_points_inv h p q r Hi) as K. rewrite H1 in K. apply K; apply Hl; cbn; auto. }
    destruct K as (I1 & C1 & L1). apply rbind_ok in H. destruct H as ((ts1 & h2) & H2 & H). injection H as <- <-.
    destruct (IH h1 ts1 h2 I1) as (I2 & C2 & F2); [intros l' p Hl'; apply Hp; right; exact Hl'|exact H2|].
    split; [exact I2|]. split; [lia|]. constructor; [apply (live_tri_more h1); [lia|exact L1]|exact F2].
  Qed.
Lemma merge_round_inv fuel n : forall ts h ts' h', length ts <= n -> inv h -> Forall (live_tri h) ts ->
    merge_round fuel h ts = Ok (ts', h') ->
    inv h' /\ h_count h <= h_count h' /\ Forall (live_tri h') ts'.
  Proof.
    induction n as [|n IH]; intros ts h ts' h' Hn Hi Hf H.
    { destruct ts; [|cbn in Hn; lia]. cbn in H. injection H as <- <-. auto. }
    destruct ts as [|a [|b ts]]; cbn [merge_round] in H; try (injection H as <- <-; auto; fail).
    apply rbind_ok in H. destruct H as ((t & h1) & H1 & H). inversion Hf as [|? ? La Hf']. inversion Hf' as [|? ? Lb Hf'']. subst.
    destruct (merge_inv _ _ _ _ _ _ Hi La Lb H1) as (I1 & C1 & L1).
    apply rbind_ok in H. destruct H as ((ts1 & h2) & H2 & H). injection H as <- <-.
    destruct (IH ts h1 ts1 h2) as (I2 & C2 & F2); [cbn in Hn; lia|exact I1| |exact H2|].
    { eapply Forall_impl; [|exact Hf'']. intros x. apply live_tri_more, C1. }
    split; [exact I2|]. split; [lia|]. constructor; [apply (live_tri_more h1); [lia|exact L1]|exact F2].
  Qed.
Lemma merge_rounds_inv fuel n : forall ts h ts' h', inv h -> Forall (live_tri h) ts ->
    merge_rounds fuel n h ts = Ok (ts', h') ->
    inv h' /\ h_count h <= h_count h' /\ Forall (live_tri h') ts'.
  Proof.
    induction n as [|n IH]; intros ts h ts' h' Hi Hf H; cbn [merge_rounds] in H.
    { injection H as <- <-. auto. }
    apply rbind_ok in H. destruct H as ((ts1 & h1) & H1 & H).
    destruct (merge_round_inv _ _ _ _ _ _ (Nat.le_refl _) Hi Hf H1) as (I1 & C1 & F1).
    destruct (IH _ _ _ _ I1 F1 H) as (I2 & C2 & F2). split; [exact I2|]. split; [lia|exact F2].
  Qed.
Lemma slices_in {A} sizes : forall (l s : list A) x, In s (slices l sizes) -> In x s -> In x l.
  Proof.
    induction sizes as [|n sizes IH]; intros l s x Hs Hx; cbn in Hs; [contradiction|].
    rewrite <- (firstn_skipn n l). apply in_or_app. destruct Hs as [<- |Hs]; [left; exact Hx|right; eapply IH; eassumption].
  Qed.
Lemma delaunay_inv ctx pts t h : (forall p, In p pts -> P p) -> delaunay ctx pts = Ok (t, h) -> inv h /\ live_tri h t.
  Proof.
    intros Hp H. unfold delaunay in H. apply rbind_ok in H. destruct H as ((ts & h1) & H1 & H).
    destruct (initialize_all_inv _ _ _ _ (inv_empty _) (fun l p Hl Hx => Hp p (proj1 (isort_in _ _ _) (slices_in _ _ _ _ Hl Hx))) H1) as (I1 & _ & F1).
    apply rbind_ok in H. destruct H as ((ts2 & h2) & H2 & H).
    destruct (merge_rounds_inv _ _ _ _ _ _ I1 F1 H2) as (I2 & _ & F2).
    destruct ts2 as [|t2 ts2]; [discriminate|]. injection H as <- <-. split; [exact I2|]. inversion F2; assumption.
  Qed.
End Support.
(** ** [Triangulation.delete] *)
Lemma tri_delete_ok h t e t' h' : wf h -> live_tri h t -> tri_delete h t e = Ok (t', h') ->
  h' = delete h e /\ live_tri h t'.
Proof.
  intros Hwf (L1 & L2) H. unfold tri_delete in H. apply rbind_ok in H. destruct H as (t1 & H1 & H).
  assert (K1 : live_tri h t1).
  { destruct (_ || _); [|injection H1 as <-; split; assumption].
    apply rbind_ok in H1. destruct H1 as (? & _ & H1). injection H1 as <-. split; cbn [left_side right_side]; auto with live. }
  apply rbind_ok in H. destruct H as (t2 & H2 & H). injection H as <- <-. split; [reflexivity|].
  clear H1. destruct (_ || _); [|injection H2 as <-; exact K1].
  apply rbind_ok in H2. destruct H2 as (? & _ & H2). injection H2 as <-. destruct K1. split; cbn [left_side right_side]; auto with live.
Qed.
Section Carve.
Context (P : point -> Prop) (N : nat).
Record winv (h : heap) : Prop := Winv { winv_wf : wf h; winv_supp : supp P h; winv_count : h_count h = N }.
Definition liveN (e : edge) : Prop := fst e < N /\ primal e = true.
Lemma liveN_live h e : winv h -> (liveN e <-> live h e).
  Proof. intros [_ _ Hc]. unfold liveN, live, valid. rewrite Hc. reflexivity. Qed.
Lemma liveN_opposite e : liveN e -> liveN (opposite e).
  Proof. intros (V & Pe). split; [exact V|]. rewrite primal_opposite. exact Pe. Qed.
Lemma liveN_lfs h e : winv h -> liveN e -> liveN (left_from_start h e).
  Proof. intros W L. apply (liveN_live h); [exact W|]. apply live_lfs; [apply W|]. apply (liveN_live h); assumption. Qed.
Lemma liveN_rfs h e : winv h -> liveN e -> liveN (right_from_start h e).
  Proof. intros W L. apply (liveN_live h); [exact W|]. apply live_rfs; [apply W|]. apply (liveN_live h); assumption. Qed.
Lemma liveN_lfe h e : winv h -> liveN e -> liveN (left_from_end h e).
  Proof. intros W L. apply (liveN_live h); [exact W|]. apply live_lfe; [apply W|]. apply (liveN_live h); assumption. Qed.
Lemma liveN_rfe h e : winv h -> liveN e -> liveN (right_from_end h e).
  Proof. intros W L. apply (liveN_live h); [exact W|]. apply live_rfe; [apply W|]. apply (liveN_live h); assumption. Qed.
Lemma start_P h e : winv h -> liveN e -> P (start h e).
  Proof. intros W L. apply W. apply (liveN_live h); assumption. Qed.
Lemma delete_winv h e : winv h -> liveN e -> winv (delete h e).
  Proof.
    intros W L. pose proof (proj1 (liveN_live h e W) L) as L'. destruct W as [W S C]. split; [apply delete_wf; assumption| |exact C].
    intros x Lx. exact (S x Lx).
  Qed.
Lemma flip_winv h e : winv h -> liveN e -> winv (flip h e).
  Proof.
    intros W L. pose proof (proj1 (liveN_live h e W) L) as L'. split; [apply flip_wf; [apply W|exact L']| |].
    - intros x Lx. assert (Lx' : live h x) by exact Lx.
      assert (Ls : live h (right_from_start h e)) by (apply live_rfs; [apply W|exact L']).
      assert (Lo : live h (right_from_start h (opposite e))) by (apply live_rfs; [apply W|auto with live]).
      unfold flip.
      set (side := right_from_start h e) in *. set (os := right_from_start h (opposite e)) in *.
      set (h4 := splice (splice (splice _ _ _) _ _) _ _).
      assert (S4 : forall y, live h y -> P (start h4 y)) by (intros y Ly; apply (winv_supp h W y Ly)).
      assert (S5 : forall y, live h y -> P (start (set_start h4 e (end_ h4 side)) y)).
      { intros y Ly. destruct (edge_eq_dec y e) as [-> |Ny]; [rewrite set_start_same; apply S4; auto with live|].
        rewrite set_start_other by exact Ny. apply S4, Ly. }
      destruct (edge_eq_dec x (opposite e)) as [-> |Nx].
      + rewrite set_start_same. apply S5. auto with live.
      + rewrite set_start_other by exact Nx. apply S5, Lx'.
    - apply W.
  Qed.
Definition kset_live (s : kset) : Prop := Forall (fun ke => liveN (snd ke)) s.
Definition ksets_live (sets : list kset) : Prop := Forall kset_live sets.
Definition edges_live (l : list edge) : Prop := Forall liveN l.
Lemma kset_add_live fuel h s e s' : kset_live s -> liveN e -> kset_add fuel h s e = Ok s' -> kset_live s'.
  Proof.
    intros Hs L H. unfold kset_add in H. apply rbind_ok in H. destruct H as (k & _ & H). injection H as <-.
    destruct (existsb _ _); [exact Hs|constructor; assumption].
  Qed.
Lemma kset_max_live s : forall best, liveN (snd best) -> kset_live s -> liveN (snd (kset_max best s)).
  Proof.
    induction s as [|x s IH]; intros best Lb Hs; [exact Lb|]. cbn [kset_max]. inversion Hs; subst. apply IH; [|assumption].
    destruct (key_ltb _ _); assumption.
  Qed.
Lemma Forall_filter {A} (Q : A -> Prop) f l : Forall Q l -> Forall Q (filter f l).
  Proof. intros H. apply Forall_forall. intros x Hx. apply filter_In in Hx. rewrite Forall_forall in H. apply H, Hx. Qed.
Lemma kset_popmax_live s e s' : kset_live s -> kset_popmax s = Ok (e, s') -> liveN e /\ kset_live s'.
  Proof.
    intros Hs H. destruct s as [|x s]; [discriminate|]. cbn [kset_popmax] in H.
    pose proof (kset_max_live s x) as K. destruct (kset_max x s) as (k & e0). injection H as <- <-.
    split; [apply K; inversion Hs; assumption|]. apply (Forall_filter _ (fun ke => negb (key_eqb (fst ke) k)) (x :: s)). exact Hs.
  Qed.
Lemma set_nth_Forall {A} (Q : A -> Prop) k v l : Q v -> Forall Q l -> Forall Q (set_nth k v l).
  Proof.
    intros Hv. revert k. induction l as [|x l IH]; intros k Hl; [destruct k; constructor|]. inversion Hl; subst.
    destruct k; cbn [set_nth]; constructor; auto.
  Qed.
Lemma nth_Forall {A} (Q : A -> Prop) k d l : Q d -> Forall Q l -> Q (nth k l d).
  Proof. intros Hd Hl. destruct (nth_in_or_default k l d) as [Hi| ->]; [rewrite Forall_forall in Hl; apply Hl, Hi|exact Hd]. Qed.
Lemma nth_kset_live k sets : ksets_live sets -> kset_live (nth k sets []).
  Proof. apply nth_Forall. constructor. Qed.
Lemma increments_add_live fuel h sets i e sets' : ksets_live sets -> liveN e ->
    increments_add fuel h sets i e = Ok sets' -> ksets_live sets'.
  Proof.
    intros Hs L H. unfold increments_add in H. destruct (py_index sets i) as [k|]; [|discriminate].
    apply rbind_ok in H. destruct H as (s & H1 & H). injection H as <-. apply set_nth_Forall; [|exact Hs].
    eapply kset_add_live; [|exact L|exact H1]. apply nth_kset_live, Hs.
  Qed.
Lemma fold_increments_live fuel h f off es : forall sets sets', edges_live es -> ksets_live sets ->
    fold_increments fuel h f off es sets = Ok sets' -> ksets_live sets'.
  Proof.
    induction es as [|e es IH]; intros sets sets' He Hs H; cbn [fold_increments] in H; [injection H as <-; exact Hs|].
    inversion He; subst. apply rbind_ok in H. destruct H as (s1 & H1 & H). apply IH in H; try assumption.
    eapply increments_add_live; eassumption.
  Qed.
Lemma repeat_live n : ksets_live (repeat [] n).
  Proof. induction n; cbn; constructor; [constructor|assumption]. Qed.
Lemma mouths_live fuel h es sets : edges_live es -> to_mouths_increments fuel h es = Ok sets -> ksets_live sets.
  Proof. intros He H. eapply fold_increments_live; [exact He| |exact H]. apply repeat_live. Qed.
Lemma ears_live fuel h es sets : edges_live es -> to_ears_increments fuel h es = Ok sets -> ksets_live sets.
  Proof. intros He H. eapply fold_increments_live; [exact He| |exact H]. apply repeat_live. Qed.
Lemma remove_edge_live e l l' : edges_live l -> remove_edge e l = Ok l' -> edges_live l'.
  Proof. intros Hl H. unfold remove_edge in H. destruct (mem_edge e l); [|discriminate]. injection H as <-. apply Forall_filter, Hl. Qed.
Lemma add_edge_live e l : liveN e -> edges_live l -> edges_live (add_edge e l).
  Proof. intros L Hl. unfold add_edge. destruct (mem_edge e l); [exact Hl|]. apply Forall_app. split; [exact Hl|repeat constructor; apply L]. Qed.
(** ** The mouth loop. *)
Lemma negative_mouths_live n : forall h points s cands found s' cands',
    winv h -> kset_live s -> edges_live cands ->
    negative_mouths n h points s cands = Ok (found, s', cands') ->
    kset_live s' /\ edges_live cands' /\ forall c a h', found = Some (c, a, h') -> liveN c /\ winv h'.
  Proof.
    induction n as [|n IH]; intros h points s cands found s' cands' W Hs Hc H; cbn [negative_mouths] in H.
    { injection H as <- <- <-. split; [exact Hs|]. split; [exact Hc|]. discriminate. }
    apply rbind_ok in H. destruct H as ((c & s1) & H1 & H). destruct (kset_popmax_live _ _ _ Hs H1) as (Lc & Hs1).
    apply rbind_ok in H. destruct H as (? & _ & H). apply rbind_ok in H. destruct H as (mouth & _ & H).
    destruct mouth; [|eapply IH; eassumption].
    destruct (flippable _ _ _).
    - injection H as <- <- <-. split; [exact Hs1|]. split; [exact Hc|]. intros c' a h' E. injection E as <- <- <-.
      split; [exact Lc|]. apply flip_winv; [exact W|]. apply liveN_lfe; assumption.
    - apply rbind_ok in H. destruct H as (c2 & H2 & H). apply (IH _ _ _ _ _ _ _ W Hs1 (remove_edge_live _ _ _ Hc H2) H).
  Qed.
Lemma target_mouths_live n fuel target : forall h points sets cands found h' sets' cands',
    winv h -> ksets_live sets -> edges_live cands ->
    target_mouths n fuel target h points sets cands = Ok (found, h', sets', cands') ->
    winv h' /\ ksets_live sets' /\ edges_live cands' /\ forall c a, found = Some (c, a) -> liveN c.
  Proof.
    induction n as [|n IH]; intros h points sets cands found h' sets' cands' W Hs Hc H; cbn [target_mouths] in H.
    { injection H as <- <- <- <-. split; [exact W|]. split; [exact Hs|]. split; [exact Hc|]. discriminate. }
    apply rbind_ok in H. destruct H as ((c & s1) & H1 & H).
    destruct (kset_popmax_live _ _ _ (nth_kset_live _ _ Hs) H1) as (Lc & Hs1).
    assert (Hs2 : ksets_live (set_nth (Z.to_nat (target + MAX_MOUTH_DECREMENT)) s1 sets)) by (apply set_nth_Forall; assumption).
    apply rbind_ok in H. destruct H as (mouth & _ & H).
    destruct (_ && _)%bool.
    - apply rbind_ok in H. destruct H as (c2 & H2 & H). apply (IH _ _ _ _ _ _ _ _ W Hs2 (remove_edge_live _ _ _ Hc H2) H).
    - set (h1 := if mouth then h else flip h (left_from_end h c)) in H.
      assert (W1 : winv h1).
      { unfold h1. destruct mouth; [exact W|]. apply flip_winv; [exact W|]. apply liveN_lfe; assumption. }
      destruct (_ =? _)%Z.
      + injection H as <- <- <- <-. split; [exact W1|]. split; [exact Hs2|]. split; [exact Hc|].
        intros c' a E. injection E as <- <-. exact Lc.
      + apply rbind_ok in H. destruct H as (s3 & H3 & H).
        apply (IH _ _ _ _ _ _ _ _ W1 (increments_add_live _ _ _ _ _ _ Hs2 Lc H3) Hc H).
  Qed.
Lemma neighbours_live h e : winv h -> liveN e -> edges_live (to_edge_neighbours h e).
  Proof.
    intros W L. unfold to_edge_neighbours. destruct (orientation_eqb _ _); [|constructor].
    repeat constructor; try (apply liveN_lfs; assumption); apply liveN_rfe; try apply liveN_lfs; assumption.
  Qed.
Lemma register_live fuel h es : forall cands sets cands' sets', edges_live es -> edges_live cands -> ksets_live sets ->
    register_neighbours fuel h es cands sets = Ok (cands', sets') -> edges_live cands' /\ ksets_live sets'.
  Proof.
    induction es as [|e es IH]; intros cands sets cands' sets' He Hc Hs H; cbn [register_neighbours] in H.
    { injection H as <- <-. auto. }
    inversion He; subst. apply rbind_ok in H. destruct H as (s1 & H1 & H).
    apply IH in H; try assumption; [apply add_edge_live; assumption|eapply increments_add_live; eassumption].
  Qed.
Definition tri_live (t : tri) : Prop := liveN (left_side t) /\ liveN (right_side t).
Record vinv (st : vstate) : Prop := Vinv {
    vi_heap : winv (vs_heap st); vi_tri : tri_live (vs_tri st);
    vi_sets : ksets_live (vs_sets st); vi_cands : edges_live (vs_cands st) }.
Lemma tri_delete_winv h t e t' h' : winv h -> tri_live t -> liveN e -> tri_delete h t e = Ok (t', h') ->
    h' = delete h e /\ winv h' /\ tri_live t'.
  Proof.
    intros W (L1 & L2) L H.
    assert (Lt : live_tri h t) by (split; apply (liveN_live h); assumption).
    destruct (tri_delete_ok h t e t' h' (winv_wf h W) Lt H) as (-> & (L3 & L4)).
    split; [reflexivity|]. split; [apply delete_winv; assumption|]. split; apply (liveN_live h); assumption.
  Qed.
Lemma remove_mouth_inv fuel st c a target st' : vinv st -> liveN c ->
    remove_mouth fuel st c a target = Ok st' -> vinv st'.
  Proof.
    intros [W Lt Hs Hc] L H. unfold remove_mouth in H.
    apply rbind_ok in H. destruct H as (? & _ & H). apply rbind_ok in H. destruct H as (? & _ & H).
    apply rbind_ok in H. destruct H as (? & _ & H). apply rbind_ok in H. destruct H as (c1 & H1 & H).
    apply rbind_ok in H. destruct H as ((t & h') & H2 & H). apply rbind_ok in H. destruct H as ((c2 & s2) & H3 & H).
    injection H as <-. destruct (tri_delete_winv _ _ _ _ _ W Lt L H2) as (_ & W' & Lt').
    destruct (register_live _ _ _ _ _ _ _ (neighbours_live _ _ W L) (remove_edge_live _ _ _ Hc H1) Hs H3) as (Hc2 & Hs2).
    split; assumption.
  Qed.
Lemma mouth_step_inv fuel st : vinv st ->
    match mouth_step fuel st with Ok (inl st') => vinv st' | Ok (inr st') => vinv st' | Raise _ => True end.
  Proof.
    intros Hv. pose proof Hv as [W Lt Hs Hc]. unfold mouth_step. destruct (_ >? _)%Z; [|exact Hv].
    destruct (best_increment _ _ _ _) as [target|].
    - destruct (target_mouths _ _ _ _ _ _ _) as [(((found & h') & sets) & cands)|] eqn:E; cbn [rbind]; [|exact I].
      destruct (target_mouths_live _ _ _ _ _ _ _ _ _ _ _ W Hs Hc E) as (W' & Hs' & Hc' & Hf).
      destruct found as [(c & a)|].
      + destruct (remove_mouth _ _ _ _ _) as [st'|] eqn:E2; cbn [rbind]; [|exact I].
        eapply remove_mouth_inv; [|exact (Hf c a eq_refl)|exact E2]. split; assumption.
      + destruct (to_mouths_increments _ _ _) as [s'|] eqn:E2; cbn [rbind]; [|exact I].
        split; cbn; try assumption. eapply mouths_live; eassumption.
    - destruct (negative_mouths _ _ _ _ _) as [((found & s') & cands)|] eqn:E; cbn [rbind]; [|exact I].
      destruct (negative_mouths_live _ _ _ _ _ _ _ _ W (nth_kset_live 0 _ Hs) Hc E) as (Hs' & Hc' & Hf).
      assert (Hs2 : ksets_live (set_nth 0 s' (vs_sets st))) by (apply set_nth_Forall; assumption).
      destruct found as [((c & a) & h')|].
      + destruct (Hf c a h' eq_refl) as (Lc & W'). destruct (remove_mouth _ _ _ _ _) as [st'|] eqn:E2; cbn [rbind]; [|exact I].
        eapply remove_mouth_inv; [|exact Lc|exact E2]. split; assumption.
      + split; assumption.
  Qed.
(** ** The ear loop. *)
Lemma target_ears_live n fuel target h : forall sets cands found sets' cands',
    ksets_live sets -> edges_live cands ->
    target_ears n fuel target h sets cands = Ok (found, sets', cands') ->
    ksets_live sets' /\ edges_live cands' /\ forall c a, found = Some (c, a) -> liveN c.
  Proof.
    induction n as [|n IH]; intros sets cands found sets' cands' Hs Hc H; cbn [target_ears] in H.
    { injection H as <- <- <-. split; [exact Hs|]. split; [exact Hc|]. discriminate. }
    apply rbind_ok in H. destruct H as ((c & s1) & H1 & H).
    destruct (kset_popmax_live _ _ _ (nth_kset_live _ _ Hs) H1) as (Lc & Hs1).
    assert (Hs2 : ksets_live (set_nth (Z.to_nat (target + MAX_EAR_DECREMENT)) s1 sets)) by (apply set_nth_Forall; assumption).
    destruct (negb _).
    - apply rbind_ok in H. destruct H as (c2 & H2 & H). apply (IH _ _ _ _ _ Hs2 (remove_edge_live _ _ _ Hc H2) H).
    - destruct (_ =? _)%Z.
      + injection H as <- <- <-. split; [exact Hs2|]. split; [exact Hc|]. intros c' a E. injection E as <- <-. exact Lc.
      + apply rbind_ok in H. destruct H as (s3 & H3 & H).
        apply (IH _ _ _ _ _ (increments_add_live _ _ _ _ _ _ Hs2 Lc H3) Hc H).
  Qed.
Lemma flip_fan_winv fuel h c h' : winv h -> liveN c -> flip_fan fuel h c = Ok h' -> winv h'.
  Proof.
    intros W L H. unfold flip_fan in H. apply (while_ok winv winv) in H; [exact H| |exact W].
    intros h0 W0. destruct (edge_eqb _ _); [exact W0|]. apply flip_winv; [exact W0|]. apply liveN_lfe; assumption.
  Qed.
Lemma ear_step_inv fuel st : vinv st ->
    match ear_step fuel st with Ok (inl st') => vinv st' | Ok (inr st') => vinv st' | Raise _ => True end.
  Proof.
    intros Hv. pose proof Hv as [W Lt Hs Hc]. unfold ear_step. destruct (_ >? _)%Z; [|exact Hv].
    destruct (best_increment _ _ _ _) as [target|]; [|exact Hv].
    destruct (target_ears _ _ _ _ _ _) as [((found & sets) & cands)|] eqn:E; cbn [rbind]; [|exact I].
    destruct (target_ears_live _ _ _ _ _ _ _ _ _ Hs Hc E) as (Hs' & Hc' & Hf).
    destruct found as [(c & a)|].
    - destruct (flip_fan _ _ _) as [h|] eqn:E1; cbn [rbind]; [|exact I].
      pose proof (Hf c a eq_refl) as Lc. pose proof (flip_fan_winv _ _ _ _ W Lc E1) as W1.
      destruct (assert_ _); cbn [rbind]; [|exact I].
      destruct (remove_edge _ _) as [c1|] eqn:E2; cbn [rbind]; [|exact I].
      destruct (tri_delete _ _ _) as [(t & h1)|] eqn:E3; cbn [rbind]; [|exact I].
      destruct (tri_delete_winv _ _ _ _ _ W1 Lt Lc E3) as (_ & W2 & Lt').
      split; cbn.
      + apply flip_winv; [exact W2|]. apply liveN_rfe; assumption.
      + exact Lt'.
      + exact Hs'.
      + apply add_edge_live; [apply liveN_lfs; assumption|]. eapply remove_edge_live; eassumption.
    - destruct (to_ears_increments _ _ _) as [s'|] eqn:E2; cbn [rbind]; [|exact I].
      split; cbn; try assumption. eapply ears_live; eassumption.
  Qed.
(** ** The result. *)
Lemma boundary_live fuel h t es : winv h -> tri_live t -> to_boundary_edges fuel h t = Ok es -> edges_live es.
  Proof.
    intros W (L & _) H. destruct (boundary_cycle h (winv_wf h W) t fuel es) as (_ & _ & K & _); [apply (liveN_live h); assumption|exact H|].
    apply Forall_forall. intros e He. apply (liveN_live h); [exact W|]. apply K, He.
  Qed.
Lemma map_start_P h es p : winv h -> edges_live es -> In p (map (start h) es) -> P p.
  Proof.
    intros W He Hp. apply in_map_iff in Hp. destruct Hp as (e & <- & Hi). apply start_P; [exact W|].
    unfold edges_live in He. rewrite Forall_forall in He. apply He, Hi.
  Qed.
Lemma border_vertices_P fuel h t vs : winv h -> tri_live t -> triangulation_to_border_vertices fuel h t = Ok vs ->
    forall p, In p vs -> P p.
  Proof.
    intros W L H p Hp. unfold triangulation_to_border_vertices in H. apply rbind_ok in H. destruct H as (es & H1 & H). injection H as <-.
    apply compress_incl in Hp. eapply map_start_P; [exact W| |exact Hp]. eapply boundary_live; eassumption.
  Qed.
Lemma vertex_sequence_P fuel h t es size vs : winv h -> tri_live t -> edges_live es ->
    to_vertex_sequence_ fuel h t es size = Ok vs -> forall p, In p vs -> P p.
  Proof.
    intros W L He H p Hp. unfold to_vertex_sequence_ in H. destruct (_ <? _)%Z.
    { injection H as <-. apply compress_incl in Hp. eapply map_start_P; eassumption. }
    apply rbind_ok in H. destruct H as (sets & H1 & H). apply rbind_ok in H. destruct H as (st & H2 & H).
    apply (while_ok vinv vinv) in H2.
    - apply rbind_ok in H. destruct H as (ears & H3 & H). apply rbind_ok in H. destruct H as (ear_sets & H4 & H).
      apply rbind_ok in H. destruct H as (st' & H5 & H).
      assert (Le : edges_live ears).
      { destruct (_ >? _)%Z; [|injection H3 as <-; constructor]. eapply boundary_live; [apply H2|apply H2|exact H3]. }
      apply (while_ok vinv vinv) in H5.
      + eapply border_vertices_P; [apply H5|apply H5|exact H|exact Hp].
      + intros s Hs. pose proof (ear_step_inv fuel s Hs) as K. destruct (ear_step fuel s) as [[?|?]|?]; auto.
      + split; cbn; [apply H2|apply H2|eapply ears_live; eassumption|exact Le].
    - intros s Hs. pose proof (mouth_step_inv fuel s Hs) as K. destruct (mouth_step fuel s) as [[?|?]|?]; auto.
    - split; cbn; [exact W|exact L|eapply mouths_live; eassumption|exact He].
  Qed.
(** ** The border loop of [to_polygon]. *)
Lemma kset_of_list_live fuel h es : forall s s', edges_live es -> kset_live s -> kset_of_list fuel h es s = Ok s' -> kset_live s'.
  Proof.
    induction es as [|e es IH]; intros s s' He Hs H; cbn [kset_of_list] in H; [injection H as <-; exact Hs|].
    inversion He; subst. apply rbind_ok in H. destruct H as (s1 & H1 & H). apply IH in H; try assumption. eapply kset_add_live; eassumption.
  Qed.
Definition dict_live (d : list (edge * list edge)) : Prop := Forall (fun kv => edges_live (snd kv)) d.
Lemma dict_pop_live d e v d' : dict_live d -> dict_pop d e = Ok (v, d') -> edges_live v /\ dict_live d'.
  Proof.
    intros Hd H. unfold dict_pop in H. destruct (find _ d) as [(k & v')|] eqn:E; [|discriminate].
    injection H as <- <-. apply find_some in E. unfold dict_live in Hd. rewrite Forall_forall in Hd.
    split; [apply (Hd (k, v')), E|]. apply Forall_filter, Forall_forall, Hd.
  Qed.
Lemma add_neighbours_live fuel h es : winv h -> forall cands d cands' d', edges_live es -> kset_live cands -> dict_live d ->
    add_neighbours fuel h es cands d = Ok (cands', d') -> kset_live cands' /\ dict_live d'.
  Proof.
    intros W. induction es as [|e es IH]; intros cands d cands' d' He Hc Hd H; cbn [add_neighbours] in H.
    { injection H as <- <-. auto. }
    inversion He; subst. apply rbind_ok in H. destruct H as (c1 & H1 & H).
    apply IH in H; try assumption; [eapply kset_add_live; eassumption|].
    constructor; [apply neighbours_live; assumption|apply Forall_filter, Hd].
  Qed.
Record pinv (st : pstate) : Prop := Pinv {
    pi_heap : winv (p_heap st); pi_tri : tri_live (p_tri st);
    pi_cands : kset_live (p_cands st); pi_dict : dict_live (p_neighbours st) }.
Lemma border_step_inv fuel ctx hole_edges size st : pinv st ->
    match border_step fuel ctx hole_edges size st with Ok (inl st') => pinv st' | Ok (inr st') => pinv st' | Raise _ => True end.
  Proof.
    intros Hv. pose proof Hv as [W Lt Hc Hd]. unfold border_step. destruct (_ <? _)%Z; [|exact Hv].
    destruct (kset_popmax _) as [(e & cands)|[]] eqn:E; try exact I; try exact Hv.
    destruct (kset_popmax_live _ _ _ Hc E) as (Le & Hc').
    destruct (negb _); [split; assumption|].
    destruct (tri_delete _ _ _) as [(t & h')|] eqn:E1; cbn [rbind]; [|exact I].
    destruct (tri_delete_winv _ _ _ _ _ W Lt Le E1) as (_ & W' & Lt').
    destruct (dict_pop _ _) as [(nb & d)|] eqn:E2; cbn [rbind]; [|exact I].
    destruct (dict_pop_live _ _ _ _ Hd E2) as (Hnb & Hd').
    destruct (add_neighbours _ _ _ _ _) as [(c2 & d2)|] eqn:E3; cbn [rbind]; [|exact I].
    destruct (add_neighbours_live _ _ _ W' _ _ _ _ Hnb Hc' Hd' E3) as (Hc2 & Hd2). split; assumption.
  Qed.
End Carve.
Lemma delaunay_winv ctx pts t h (P : point -> Prop) : (forall p, In p pts -> P p) -> delaunay ctx pts = Ok (t, h) ->
  winv P (h_count h) h /\ tri_live (h_count h) t.
Proof.
  intros HP H. destruct (delaunay_inv P ctx pts t h HP H) as ((Hg & Hs) & (L1 & L2)).
  split; [split; [apply Hg|exact Hs|reflexivity]|split; assumption].
Qed.
(** Every vertex of a carved contour is one of the points. *)
Lemma to_vertex_sequence_in ctx pts size vs p : to_vertex_sequence ctx pts size = Ok vs -> In p vs -> In p pts.
Proof.
  intros H Hp. unfold to_vertex_sequence in H. apply rbind_ok in H. destruct H as ((t & h) & H1 & H).
  apply rbind_ok in H. destruct H as (es & H2 & H).
  destruct (delaunay_winv ctx pts t h (fun p => In p pts) (fun _ H => H) H1) as (W & L).
  eapply (vertex_sequence_P (fun p => In p pts)); [exact W|exact L| |exact H|exact Hp].
  eapply boundary_live; eassumption.
Qed.
End Rough.
