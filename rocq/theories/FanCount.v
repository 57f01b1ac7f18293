(** The number of corners of a convex walk: one more than the number of its slopes. *)
From Coq Require Import List Lia Permutation Sorted.
From Verif Require Import Base Prog Geometry Ctx Spec Factories QcTac QcFast ProgProofs GeomProofs ListProofs ConvexProofs CyclicProofs HullProofs SequenceProofs StarProofs ValtrProofs.
Import List ListNotations.
Open Scope Qc_scope.

Notation vec := (Qc * Qc)%type.
(** The end of a walk of steps [u] that starts at [(cx, cy)]. *)
Definition place (cx cy : Qc) (u : list vec) : point := Pt (cx + qsum (map fst u)) (cy + qsum (map snd u)).
(** Steps to the right, grouped by their slopes, which increase. *)
Definition fans (gs : list (Qc * list vec)) : Prop :=
  StronglySorted (fun a b => fst a < fst b) gs /\
  forall g, In g gs -> snd g <> [] /\ forall w, In w (snd g) -> 0 < fst w /\ snd w = fst g * fst w.
Definition steps_of (gs : list (Qc * list vec)) : list vec := concat (map snd gs).

Lemma place_app cx cy u v : place cx cy (u ++ v) = place (cx + qsum (map fst u)) (cy + qsum (map snd u)) v.
Proof. unfold place. rewrite !map_app, !qsum_app. apply point_ext; cbn [px py]; ring. Qed.
Lemma qsum_positive l : l <> [] -> (forall v, In v l -> 0 < v) -> 0 < qsum l.
Proof.
  destruct l as [|v l]; [contradiction|]. intros _ H. cbn [qsum]. pose proof (H v (or_introl eq_refl)) as H1.
  assert (H2 : 0 <= qsum l) by (apply qsum_pos; intros w Hw; apply Qclt_le_weak, H; right; exact Hw). ql.
Qed.

(** Two ways to cut a list in two. *)
Lemma cut_two {A} (u v u' v' : list A) : u ++ v = u' ++ v' ->
  (exists z, u' = u ++ z /\ v = z ++ v') \/ (exists z, u = u' ++ z /\ v' = z ++ v).
Proof.
  revert u'. induction u as [|x u IH]; intros u' E.
  - left. exists u'. split; [reflexivity|exact E].
  - destruct u' as [|y u']; [right; exists (x :: u); split; [reflexivity|symmetry; exact E]|]. cbn [app] in E. injection E as <- E.
    destruct (IH u' E) as [(z & -> & ->)|(z & -> & ->)]; [left|right]; exists z; split; reflexivity.
Qed.

Section Count.
  Variables (gs : list (Qc * list vec)) (cx cy : Qc) (l h : list point).
  Hypotheses (F : fans gs) (Hl : forall q, In q l <-> exists u v, steps_of gs = u ++ v /\ q = place cx cy u).
  Hypotheses (Hh : is_hull l h) (H3 : (3 <= length h)%nat).

  Lemma steps_right w : In w (steps_of gs) -> 0 < fst w.
  Proof.
    intros H. apply in_concat in H. destruct H as (G & HG & Hw). apply in_map_iff in HG. destruct HG as (g & <- & Hg).
    apply (proj2 F g Hg), Hw.
  Qed.
  Definition tilt (t : Qc) (p : point) : Qc := (- t) * px p + 1 * py p.
  Lemma tilt_app t dx dy z : tilt t (place dx dy z) = tilt t (Pt dx dy) + qsum (map (fun w : vec => snd w - t * fst w) z).
  Proof.
    unfold tilt, place. cbn [px py]. replace (qsum (map (fun w : vec => snd w - t * fst w) z)) with (qsum (map snd z) - t * qsum (map fst z)); [ring|].
    induction z as [|w z IH]; cbn [map qsum]; [ring|]. rewrite <- IH. ring.
  Qed.
  (** The line of slope [t] through a point between smaller and greater slopes touches the walk only there. *)
  Lemma touching t u v u' v' : steps_of gs = u ++ v -> steps_of gs = u' ++ v' ->
    (forall w, In w u -> snd w < t * fst w) -> (forall w, In w v -> t * fst w < snd w) ->
    tilt t (place cx cy u') <= tilt t (place cx cy u) -> u' = u.
  Proof.
    intros E E' Hu Hv Hle. rewrite E in E'. destruct (cut_two _ _ _ _ E') as [(z & -> & Ez)|(z & Ez & ->)].
    - destruct z as [|w z]; [apply app_nil_r|]. exfalso. rewrite place_app, tilt_app in Hle.
      change (Pt (cx + qsum (map fst u)) (cy + qsum (map snd u))) with (place cx cy u) in Hle.
      assert (P : 0 < qsum (map (fun w : vec => snd w - t * fst w) (w :: z))).
      { apply qsum_positive; [discriminate|]. intros q Hq. apply in_map_iff in Hq. destruct Hq as (x & <- & Hx).
        assert (Ix : In x v) by (rewrite Ez; apply in_or_app; left; exact Hx). specialize (Hv x Ix). qcl. }
      set (A := tilt t (place cx cy u)) in *. set (B := qsum _) in *. clearbody A B. ql.
    - subst u. destruct z as [|w z]; [symmetry; apply app_nil_r|]. exfalso. rewrite (place_app cx cy u'), (tilt_app t (cx + qsum (map fst u'))) in Hle.
      change (Pt (cx + qsum (map fst u')) (cy + qsum (map snd u'))) with (place cx cy u') in Hle.
      assert (P : 0 < qsum (map (fun w : vec => t * fst w - snd w) (w :: z))).
      { apply qsum_positive; [discriminate|]. intros q Hq. apply in_map_iff in Hq. destruct Hq as (x & <- & Hx).
        assert (Ix : In x (u' ++ w :: z)) by (apply in_or_app; right; exact Hx). specialize (Hu x Ix). qcl. }
      assert (N : qsum (map (fun w : vec => t * fst w - snd w) (w :: z)) = - qsum (map (fun w : vec => snd w - t * fst w) (w :: z))).
      { clear. induction (w :: z) as [|x k IH]; cbn [map qsum]; [ring|]. rewrite IH. ring. }
      rewrite N in P. set (A := tilt t (place cx cy u')) in *. set (B := qsum _) in *. clearbody A B. ql.
  Qed.
  Lemma steps_app a b : steps_of (a ++ b) = steps_of a ++ steps_of b.
  Proof. unfold steps_of. rewrite map_app. apply concat_app. Qed.
  Lemma slope_between g1 g2 : gs = g1 ++ g2 -> exists t, (forall g, In g g1 -> fst g < t) /\ (forall g, In g g2 -> t < fst g).
  Proof.
    intros E. pose proof (proj1 F) as S. rewrite E in S. clear - S. 
    assert (P : forall a b, In a g1 -> In b g2 -> fst a < fst b).
    { intros a b Ha Hb. induction g1 as [|x k IH]; [destruct Ha|]. cbn [app] in S. inversion S as [|? ? S' Fx]; subst. rewrite Forall_forall in Fx.
      destruct Ha as [->|Ha]; [apply Fx, in_or_app; right; exact Hb|exact (IH S' Ha)]. }
    assert (M1 : g1 <> [] -> exists a, In a g1 /\ forall g, In g g1 -> fst g <= fst a).
    { clear. induction g1 as [|x k IH]; [contradiction|]. intros _. destruct k as [|y k].
      - exists x. split; [left; reflexivity|]. intros g [->|[]]. apply Qcle_refl.
      - destruct IH as (a & Ia & Ha); [discriminate|]. destruct (Qclt_le_dec (fst a) (fst x)) as [H|H].
        + exists x. split; [left; reflexivity|]. intros g [->|Hg]; [apply Qcle_refl|]. specialize (Ha g Hg). qcl.
        + exists a. split; [right; exact Ia|]. intros g [->|Hg]; [exact H|apply Ha, Hg]. }
    assert (M2 : g2 <> [] -> exists a, In a g2 /\ forall g, In g g2 -> fst a <= fst g).
    { clear. induction g2 as [|x k IH]; [contradiction|]. intros _. destruct k as [|y k].
      - exists x. split; [left; reflexivity|]. intros g [->|[]]. apply Qcle_refl.
      - destruct IH as (a & Ia & Ha); [discriminate|]. destruct (Qclt_le_dec (fst x) (fst a)) as [H|H].
        + exists x. split; [left; reflexivity|]. intros g [->|Hg]; [apply Qcle_refl|]. specialize (Ha g Hg). qcl.
        + exists a. split; [right; exact Ia|]. intros g [->|Hg]; [exact H|apply Ha, Hg]. }
    destruct g1 as [|x1 k1].
    - destruct g2 as [|x2 k2]; [exists 0; split; intros g []|]. destruct (M2 ltac:(discriminate)) as (b & _ & Hb).
      exists (fst b - 1). split; [intros g []|]. intros g Hg. specialize (Hb g Hg). qcl.
    - destruct (M1 ltac:(discriminate)) as (a & Ia & Ha). destruct g2 as [|x2 k2].
      + exists (fst a + 1). split; [|intros g []]. intros g Hg. specialize (Ha g Hg). qcl.
      + destruct (M2 ltac:(discriminate)) as (b & Ib & Hb). specialize (P a b Ia Ib).
        exists (Q2Qc (1 # 2) * (fst a + fst b)). 
        assert (T : fst a < Q2Qc (1 # 2) * (fst a + fst b) /\ Q2Qc (1 # 2) * (fst a + fst b) < fst b).
        { set (t := Q2Qc (1 # 2) * (fst a + fst b)). assert (Et : t + t = fst a + fst b) by (transitivity ((Q2Qc (1 # 2) + Q2Qc (1 # 2)) * (fst a + fst b)); [unfold t; ring|]; replace (Q2Qc (1 # 2) + Q2Qc (1 # 2)) with (Q2Qc 1) by (apply Qc_is_canon; reflexivity); ring).
          clearbody t. split; ql. }
        destruct T as (T1 & T2). split; intros g Hg; [specialize (Ha g Hg)|specialize (Hb g Hg)]; qcl.
  Qed.
  Lemma slopes_of g1 g2 t : gs = g1 ++ g2 -> (forall g, In g g1 -> fst g < t) -> (forall g, In g g2 -> t < fst g) ->
    (forall w, In w (steps_of g1) -> snd w < t * fst w) /\ (forall w, In w (steps_of g2) -> t * fst w < snd w).
  Proof.
    intros E H1 H2. split; intros w Hw; apply in_concat in Hw; destruct Hw as (G & HG & Hw); apply in_map_iff in HG; destruct HG as (g & <- & Hg).
    - destruct (proj2 F g) as (_ & K); [rewrite E; apply in_or_app; auto|]. destruct (K w Hw) as (P & Q). rewrite Q.
      specialize (H1 g Hg). set (s := fst g) in *. set (x := fst w) in *. clearbody s x. clear - P H1. qcn.
    - destruct (proj2 F g) as (_ & K); [rewrite E; apply in_or_app; auto|]. destruct (K w Hw) as (P & Q). rewrite Q.
      specialize (H2 g Hg). set (s := fst g) in *. set (x := fst w) in *. clearbody s x. clear - P H2. qcn.
  Qed.
  (** A place where the slope changes is a corner. *)
  Lemma corner_in g1 g2 : gs = g1 ++ g2 -> In (place cx cy (steps_of g1)) h.
  Proof.
    intros E. destruct (slope_between g1 g2 E) as (t & T1 & T2). destruct (slopes_of g1 g2 t E T1 T2) as (S1 & S2).
    assert (Es : steps_of gs = steps_of g1 ++ steps_of g2) by (rewrite E; apply steps_app).
    destruct (hull_extreme l h (tilt t) (- t) 1 (fun p => eq_refl) Hh H3 (place cx cy (steps_of g1))) as (v & Iv & Hv).
    { apply Hl. eexists _, _. split; [exact Es|reflexivity]. }
    pose proof (proj1 (proj2 Hh) v Iv) as Il. apply Hl in Il. destruct Il as (u' & v' & E' & ->).
    rewrite (touching t _ _ _ _ Es E' S1 S2 Hv) in Iv. exact Iv.
  Qed.
  (** A place on the way is at a change of slope or between two steps of the same slope. *)
  Lemma prefix_cases k u v : (forall g, In g k -> snd g <> []) -> steps_of k = u ++ v ->
    (exists g1 g2, k = g1 ++ g2 /\ u = steps_of g1) \/
    (exists g w1 w2 u0 v0, In g k /\ In w1 (snd g) /\ In w2 (snd g) /\ u = u0 ++ [w1] /\ v = w2 :: v0).
  Proof.
    revert u. induction k as [|g k IH]; intros u Hne E.
    - left. exists [], []. split; [reflexivity|]. cbn in E. destruct u; [reflexivity|discriminate].
    - change (steps_of (g :: k)) with (snd g ++ steps_of k) in E. destruct (cut_two _ _ _ _ E) as [(z & -> & Ez)|(z & Ez & ->)].
      + destruct (IH z (fun g Hg => Hne g (or_intror Hg)) Ez) as [(g1 & g2 & -> & ->)|(g' & w1 & w2 & u0 & v0 & I & I1 & I2 & -> & ->)].
        * left. exists (g :: g1), g2. split; reflexivity.
        * right. exists g', w1, w2, (snd g ++ u0), v0. split; [right; exact I|]. split; [exact I1|]. split; [exact I2|]. split; [apply app_assoc|reflexivity].
      + destruct z as [|w2 z]; [left; exists [g], k; split; [reflexivity|]; unfold steps_of; cbn [map concat]; rewrite app_nil_r in *; symmetry; exact Ez|].
        destruct u as [|x u]; [left; exists [], (g :: k); split; reflexivity|].
        destruct (exists_last (l := x :: u) ltac:(discriminate)) as (u0 & w1 & Eu). right. exists g, w1, w2, u0, (z ++ steps_of k).
        split; [left; reflexivity|]. rewrite Ez, Eu. split; [rewrite !in_app_iff; cbn; auto|]. split; [rewrite !in_app_iff; cbn; auto|].
        split; reflexivity.
  Qed.
  Lemma hull_edges_at v : In v h -> exists u w, contour_edge h u v /\ contour_edge h v w /\ 0 < cross u v w.
  Proof.
    intros Iv. pose proof (proj2 (proj2 (proj2 Hh)) H3) as Hc. set (n := length h) in *.
    destruct (In_nth_error _ _ Iv) as (i & Ei). assert (Hi' : (i < length h)%nat) by (apply nth_error_Some; congruence).
    set (j := ((i + (n - 1)) mod n)%nat). assert (Hj : (j < n)%nat) by (apply Nat.mod_upper_bound; lia).
    assert (Sj : (S j mod n = i)%nat).
    { unfold j. rewrite <- Nat.add_1_r, Nat.add_mod_idemp_l by lia. replace (i + (n - 1) + 1)%nat with (i + 1 * n)%nat by lia. rewrite Nat.mod_add by lia. apply Nat.mod_small, Hi'. }
    destruct (nth_error h j) as [u|] eqn:Ej; [|apply nth_error_None in Ej; unfold n in Hj; lia].
    assert (Eu : contour_edge h u v) by (exists j; split; [exact Ej|]; fold n; rewrite Sj; exact Ei).
    destruct (turn_of_edge h u v ltac:(lia) Eu) as (w & Hw). pose proof (convex_turns h Hc u v w Hw) as T.
    exists u, w. split; [exact Eu|]. split; [|exact T].
    destruct Hw as (k & K1 & K2 & K3). exists (S k mod n)%nat. split; [exact K2|]. rewrite <- K3. f_equal. fold n.
    rewrite <- (Nat.add_1_r (S k mod n)), Nat.add_mod_idemp_l, Nat.add_1_r by lia. reflexivity.
  Qed.
  (** The middle of two steps of the same slope is not a corner. *)
  Lemma between_out u0 w1 w2 v0 s : steps_of gs = (u0 ++ [w1]) ++ w2 :: v0 -> 0 < fst w1 -> 0 < fst w2 -> snd w1 = s * fst w1 -> snd w2 = s * fst w2 ->
    ~ In (place cx cy (u0 ++ [w1])) h.
  Proof.
    intros E P1 P2 Q1 Q2 I. destruct (hull_edges_at _ I) as (a & b & E1 & E2 & T).
    set (v := place cx cy (u0 ++ [w1])) in *.
    assert (Ia : In (place cx cy u0) l) by (apply Hl; exists u0, (w1 :: w2 :: v0); split; [rewrite E, <- app_assoc; reflexivity|reflexivity]).
    assert (Ic : In (place cx cy ((u0 ++ [w1]) ++ [w2])) l) by (apply Hl; exists ((u0 ++ [w1]) ++ [w2]), v0; split; [rewrite E, <- !app_assoc; reflexivity|reflexivity]).
    assert (Ka : exists x y, place cx cy u0 = Pt x y /\ px v = x + fst w1 /\ py v = y + s * fst w1).
    { exists (px (place cx cy u0)), (py (place cx cy u0)). split; [destruct (place cx cy u0); reflexivity|]. unfold v, place. cbn [px py].
      rewrite !map_app, !qsum_app. cbn [map qsum]. rewrite Q1. split; ring. }
    assert (Kc : exists x y, place cx cy ((u0 ++ [w1]) ++ [w2]) = Pt x y /\ x = px v + fst w2 /\ y = py v + s * fst w2).
    { exists (px (place cx cy ((u0 ++ [w1]) ++ [w2]))), (py (place cx cy ((u0 ++ [w1]) ++ [w2]))). split; [destruct (place cx cy _); reflexivity|]. unfold v, place. cbn [px py].
      rewrite (map_app fst (u0 ++ [w1])), (map_app snd (u0 ++ [w1])), !(qsum_app (map _ (u0 ++ [w1]))). cbn [map qsum]. rewrite Q2. split; ring. }
    destruct Ka as (xa & ya & Ea & Xa & Ya). destruct Kc as (xc & yc & Ec & Xc & Yc). rewrite Ea in Ia. rewrite Ec in Ic.
    destruct Hh as (_ & _ & Hr & _).
    assert (R : forall p q r, contour_edge h p q -> In r l -> 0 <= cross p q r) by (intros p q r Ee Ir; apply Qcnot_lt_le; exact (Hr p q Ee r Ir)).
    pose proof (R _ _ _ E1 Ia) as A1. pose proof (R _ _ _ E1 Ic) as A2. pose proof (R _ _ _ E2 Ia) as B1. pose proof (R _ _ _ E2 Ic) as B2.
    clearbody v. clear - P1 P2 Xa Ya Xc Yc A1 A2 B1 B2 T.
    (* the direction of the steps is the direction of both edges *)
    set (d1 := (px v - px a) * s - (py v - py a)). set (d2 := (px b - px v) * s - (py b - py v)).
    assert (EA1 : cross a v (Pt xa ya) = - (fst w1 * d1)).
    { unfold cross, d1. cbn [px py]. replace xa with (px v - fst w1) by (rewrite Xa; ring). replace ya with (py v - s * fst w1) by (rewrite Ya; ring). ring. }
    assert (EA2 : cross a v (Pt xc yc) = fst w2 * d1) by (unfold cross, d1; cbn [px py]; rewrite Xc, Yc; ring).
    assert (EB1 : cross v b (Pt xa ya) = - (fst w1 * d2)).
    { unfold cross, d2. cbn [px py]. replace xa with (px v - fst w1) by (rewrite Xa; ring). replace ya with (py v - s * fst w1) by (rewrite Ya; ring). ring. }
    assert (EB2 : cross v b (Pt xc yc) = fst w2 * d2) by (unfold cross, d2; cbn [px py]; rewrite Xc, Yc; ring).
    rewrite EA1 in A1. rewrite EA2 in A2. rewrite EB1 in B1. rewrite EB2 in B2. clear EA1 EA2 EB1 EB2.
    assert (Z : forall d, 0 <= - (fst w1 * d) -> 0 <= fst w2 * d -> d = 0).
    { intros d G1 G2. clear - P1 P2 G1 G2. set (x := fst w1) in *. set (y := fst w2) in *. clearbody x y. apply Qcle_antisym; apply Qcnot_lt_le; intros K; qcn. }
    pose proof (Z d1 A1 A2) as Z1. pose proof (Z d2 B1 B2) as Z2. unfold d1 in Z1. unfold d2 in Z2.
    assert (C : cross a v b = 0).
    { transitivity ((px b - px v) * ((px v - px a) * s - (py v - py a)) - (px v - px a) * ((px b - px v) * s - (py b - py v))); [unfold cross; ring|].
      rewrite Z1, Z2. ring. }
    rewrite C in T. revert T. apply Qlt_irrefl.
  Qed.
  Definition corners : list point := map (fun i => place cx cy (steps_of (firstn i gs))) (seq 0 (S (length gs))).
  Lemma corners_nodup : NoDup corners.
  Proof.
    unfold corners. apply NoDup_map_inj; [|apply seq_NoDup].
    assert (G : forall i j, (i < j <= length gs)%nat -> place cx cy (steps_of (firstn i gs)) <> place cx cy (steps_of (firstn j gs))).
    { intros i j Hij Eq. assert (E : firstn j gs = firstn i gs ++ firstn (j - i) (skipn i gs)).
      { rewrite <- (firstn_skipn i (firstn j gs)). rewrite firstn_firstn, Nat.min_l by lia. f_equal. apply skipn_firstn_comm. }
      rewrite E, steps_app in Eq. apply (f_equal px) in Eq. unfold place in Eq. cbn [px] in Eq. rewrite map_app, qsum_app in Eq.
      assert (P : 0 < qsum (map fst (steps_of (firstn (j - i) (skipn i gs))))).
      { apply qsum_positive.
        - destruct (skipn i gs) as [|g k] eqn:Ek.
          + apply (f_equal (@length _)) in Ek. rewrite skipn_length in Ek. cbn in Ek. lia.
          + destruct (j - i)%nat as [|d] eqn:Ed; [lia|]. cbn [firstn]. unfold steps_of. cbn [map concat].
            assert (Ig : In g gs) by (rewrite <- (firstn_skipn i gs), Ek; apply in_or_app; right; left; reflexivity).
            pose proof (proj1 (proj2 F g Ig)) as Ne. destruct (snd g); [contradiction|discriminate].
        - intros q Hq. apply in_map_iff in Hq. destruct Hq as (w & <- & Hw). apply steps_right.
          rewrite <- (firstn_skipn i gs), steps_app. apply in_or_app. right.
          rewrite <- (firstn_skipn (j - i) (skipn i gs)), steps_app. apply in_or_app. left. exact Hw. }
      set (A := qsum (map fst (steps_of (firstn i gs)))) in *. set (B := qsum _) in *. clearbody A B. clear - Eq P. ql. }
    intros i j Hi Hj E. apply in_seq in Hi, Hj. destruct (Nat.lt_trichotomy i j) as [H|[H|H]]; [|exact H|]; exfalso.
    - apply (G i j); [lia|exact E].
    - apply (G j i); [lia|symmetry; exact E].
  Qed.
  Lemma fan_count : length h = S (length gs).
  Proof.
    assert (L : length corners = S (length gs)) by (unfold corners; rewrite map_length, seq_length; reflexivity). rewrite <- L. apply Nat.le_antisymm.
    - apply NoDup_incl_length; [exact (proj1 Hh)|]. intros q Iq. pose proof (proj1 (proj2 Hh) q Iq) as Il. apply Hl in Il. destruct Il as (u & v & E & ->).
      destruct (prefix_cases gs u v) as [(g1 & g2 & Eg & ->)|(g & w1 & w2 & u0 & v0 & Ig & I1 & I2 & -> & ->)]; [intros g Hg; apply (proj2 F g Hg)|exact E| |].
      + apply in_map_iff. exists (length g1). split; [rewrite Eg, firstn_app, Nat.sub_diag, firstn_all, app_nil_r; reflexivity|].
        apply in_seq. rewrite Eg, app_length. lia.
      + exfalso. destruct (proj2 F g Ig) as (_ & K). destruct (K w1 I1) as (P1 & Q1). destruct (K w2 I2) as (P2 & Q2).
        exact (between_out u0 w1 w2 v0 (fst g) E P1 P2 Q1 Q2 Iq).
    - apply NoDup_incl_length; [exact corners_nodup|]. intros q Iq. apply in_map_iff in Iq. destruct Iq as (i & <- & Hi).
      apply (corner_in (firstn i gs) (skipn i gs)). symmetry. apply firstn_skipn.
  Qed.
End Count.

(** A walk with at least two slopes has three places which are not in line. *)
Lemma fan_spread gs cx cy l : fans gs -> (2 <= length gs)%nat -> (forall q, In q l <-> exists u v, steps_of gs = u ++ v /\ q = place cx cy u) ->
  exists a b c, In a l /\ In b l /\ In c l /\ ~ collinear a b c.
Proof.
  intros F L Hl. destruct gs as [|(s1, G1) [|(s2, G2) gs]]; [cbn in L; lia|cbn in L; lia|].
  destruct (proj2 F (s1, G1)) as (N1 & K1); [left; reflexivity|]. destruct (proj2 F (s2, G2)) as (N2 & K2); [right; left; reflexivity|]. cbn [fst snd] in *.
  destruct F as (S & _). inversion S as [|? ? _ Fs]; subst. inversion Fs as [|? ? Hs _]; subst. cbn [fst] in Hs.
  destruct (exists_last N1) as (k1 & w1 & E1). destruct G2 as [|w2 k2]; [contradiction|].
  destruct (K1 w1) as (P1 & Q1); [rewrite E1; apply in_or_app; right; left; reflexivity|]. destruct (K2 w2) as (P2 & Q2); [left; reflexivity|].
  assert (E : steps_of ((s1, G1) :: (s2, w2 :: k2) :: gs) = k1 ++ w1 :: w2 :: k2 ++ steps_of gs) by (unfold steps_of; cbn [map concat snd]; rewrite E1, <- app_assoc; reflexivity).
  exists (place cx cy k1), (place cx cy (k1 ++ [w1])), (place cx cy (k1 ++ [w1; w2])).
  split; [apply Hl; eexists _, _; split; [exact E|reflexivity]|].
  split; [apply Hl; exists (k1 ++ [w1]), (w2 :: k2 ++ steps_of gs); split; [rewrite E, <- app_assoc; reflexivity|reflexivity]|].
  split; [apply Hl; exists (k1 ++ [w1; w2]), (k2 ++ steps_of gs); split; [rewrite E, <- app_assoc; reflexivity|reflexivity]|].
  unfold collinear, cross, place. cbn [px py]. rewrite !map_app, !qsum_app. cbn [map qsum]. rewrite Q1, Q2. set (A := qsum _). set (B := qsum _).
  set (x := fst w1) in *. set (y := fst w2) in *. intros Z.
  assert (Z' : x * y * (s2 - s1) = 0) by (rewrite <- Z; ring). clearbody x y. clear - Z' P1 P2 Hs.
  assert (H : 0 < x * y) by (clear - P1 P2; qcn). set (z := x * y) in *. clearbody z. clear - H Z' Hs. qcn.
Qed.
