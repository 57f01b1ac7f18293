(** Contours of every size can be generated. *)
From Coq Require Import List Lia Permutation Sorted Znumtheory.
From Verif Require Import Base Prog Geometry Ctx Utils Contracts Planar Spec Factories Strategies StarSpec SizeSpec RelaxSpec QcTac QcFast ProgProofs PrimeProofs PlanarProofs SimpleProofs SeparationProofs ContourProofs GeomProofs ListProofs
  GridProofs ConvexProofs SequenceProofs ValtrProofs GeneralCoordinates EmptyProofs FanCount SizeProofs SizeFan SizeGrid RelaxApiProofs Reference ReferenceProofs HullChain.
From Verif Require Bertrand.
Import List ListNotations.
Open Scope Qc_scope.

Definition width (v : Qc) : Qc := positive_part v + positive_part (- v).
Lemma width_opp v : width (- v) = width v.
Proof. unfold width. replace (- - v) with v by ring. ring. Qed.
Lemma width_pos v : 0 <= v -> width v = v.
Proof. intros H. unfold width. rewrite positive_pos by exact H. rewrite positive_neg; [ring|]. qcl. Qed.
Lemma qsum_scaled {A} (f g : A -> Qc) M l : 0 <= M -> (forall w, In w l -> f w <= M * g w) -> qsum (map f l) <= M * qsum (map g l).
Proof.
  intros HM. induction l as [|w l IH]; intros H; cbn [map qsum]; [replace (M * 0) with (Q2Qc 0) by ring; apply Qcle_refl|].
  specialize (IH (fun k Hk => H k (or_intror Hk))). pose proof (H w (or_introl eq_refl)) as H1. rewrite Qcmult_plus_distr_r.
  set (a := qsum (map f l)) in *. set (b := M * qsum (map g l)) in *. set (c := M * g w) in *. set (d := f w) in *. clearbody a b c d. clear - IH H1. qcl.
Qed.
Lemma last_in {A} (l : list A) d : l <> [] -> In (last l d) l.
Proof. induction l as [|x l IH]; [contradiction|]. intros _. destruct l as [|y l]; [left; reflexivity|]. right. apply IH. discriminate. Qed.

Section Sizes.
  Variables (ctx : context) (xs : scalars) (ys : option scalars).
  Hypotheses (directions : orders_directions ctx) (total : total_directions ctx) (hulls : spans_hulls ctx).

  Lemma convex_size n mx : (4 <= n)%Z -> size_ok n n mx -> draws_upto xs ys (4 * n * n) ->
    exists vs, generates (pfilter (fun vs => has_valid_size vs n mx)
      (let! points := to_point_sequence_in_general_position_strategy xs ys n mx in
       let! bits_x := bits (length points - 2) in
       let! bits_y := bits (length points - 2) in
       let! perm := permutations (seq 0 (length points)) in
       lift (to_convex_vertex_sequence ctx points bits_x bits_y (shuffle_by perm)))) vs /\ lenZ vs = n.
  Proof.
    intros Hn Hmx D.
    (* the prime number *)
    assert (Hpr : exists p, smallest_prime_above n p /\ (p <= 2 * n)%Z).
    { destruct (to_next_prime_spec n ltac:(lia)) as (p & _ & S1 & S2 & S3 & S4). assert (Sp : smallest_prime_above n p) by (split; [exact S1|]; split; [lia|]; split; [exact S3|exact S4]). exists p. split; [exact Sp|].
      destruct (Bertrand.bertrand_Z n ltac:(lia)) as (q & Pq & H1 & H2). destruct Sp as (_ & _ & _ & M). specialize (M q Pq ltac:(lia) ltac:(lia)). lia. }
    destruct Hpr as (p & Sp & Bp). pose proof Sp as (Pp & P3 & Pn & Pm).
    assert (Hm : exists m, p = Z.of_nat (2 * m + 1) /\ (2 <= m)%nat).
    { destruct (Z.Even_or_Odd p) as [(k & E)|(k & E)].
      - exfalso. apply prime_alt in Pp. destruct Pp as (_ & Pp). apply (Pp 2%Z); [lia|]. exists k. lia.
      - exists (Z.to_nat k). lia. }
    destruct Hm as (m & Ep & Hm).
    (* the steps *)
    destruct (rungs_spec m p Ep Hm Pp) as (Rs & Rl & Rz). pose proof (rungs_nonempty m p Ep Hm Pp) as Rn. set (rs := rungs m p) in *.
    set (a := gaps 0 rs). assert (La : length a = m) by (unfold a; rewrite gaps_length; exact Rl).
    assert (Pa : forall x, In x a -> 0 < x) by (apply gaps_positive, Rs).
    assert (Wa : forall x, In x a -> whole x).
    { apply gaps_whole; [exists 0%Z; reflexivity|]. intros r Hr. destruct (Rz r Hr) as (z & -> & _). exists z. reflexivity. }
    set (nn := Z.to_nat n). set (d1 := ((nn - 1) / 2 - 1)%nat). set (d2 := (nn - 1 - (nn - 1) / 2 - 1)%nat).
    assert (Hd : (S d1 + S d2 = nn - 1 /\ d1 < m /\ d2 < m)%nat).
    { unfold d1, d2. assert (4 <= nn <= 2 * m + 1)%nat by (unfold nn; lia). pose proof (Nat.div_mod (nn - 1) 2 ltac:(lia)). pose proof (Nat.mod_upper_bound (nn - 1) 2 ltac:(lia)). lia. }
    destruct Hd as (Hd & Hd1 & Hd2).
    destruct (valley_spec d1 d2 a ltac:(lia) ltac:(lia) Pa) as (Fg & Lg & Pg & Lw & Wg). set (gs := valley d1 d2 a) in *. set (W := steps_of gs) in *.
    destruct (fans_sorted gs Fg) as (_ & Wpos). fold W in Wpos.
    set (ds := map fst W). assert (Pd : forall v, In v ds -> 0 < v) by (intros v Hv; apply in_map_iff in Hv; destruct Hv as (w & <- & Hw); apply Wpos, Hw).
    assert (Ld : length ds = (2 * m)%nat) by (unfold ds; rewrite map_length, Lw; lia).
    assert (Nd : ds <> []) by (intros E; rewrite E in Ld; cbn in Ld; lia).
    set (X := qsum ds). assert (HX : 0 < X) by (apply qsum_positive; assumption).
    (* the abscissas *)
    set (xl := 0 :: afters 0 ds). assert (Lx : lenZ xl = p) by (unfold lenZ, xl; cbn [length]; rewrite afters_length; lia).
    assert (Sx : StronglySorted Qclt xl) by (apply afters_sorted, Pd).
    assert (Bx : X <= Qc_of_Z ((p - 1) * (p - 1))).
    { assert (B : X <= q_of_nat m * qsum (map (fun w => width (snd w)) W)).
      { apply qsum_scaled; [apply Qclt_le_weak, q_of_nat_pos; lia|]. intros w Hw. destruct (Wg w Hw) as (x & j & Hx & Hj & E & Es). rewrite E.
        assert (Ew : width (snd w) = x) by (pose proof (Pa x Hx) as Px; destruct Es as [->| ->]; [|rewrite width_opp]; apply width_pos, Qclt_le_weak, Px).
        rewrite Ew, Qcmult_comm. apply Qcmult_le_compat_r; [|apply Qclt_le_weak, Pa, Hx]. apply Qc_of_Z_le. lia. }
      assert (E : qsum (map (fun w => width (snd w)) W) = qsum a + qsum a).
      { replace (map (fun w => width (snd w)) W) with (map width (map snd W)) by apply map_map. rewrite (qsum_perm _ _ (Permutation_map width Pg)).
        rewrite map_app, qsum_app, map_map. assert (Ea : map width a = a).
        { rewrite <- (map_id a) at 2. apply map_ext_in. intros x Hx. apply width_pos, Qclt_le_weak, Pa, Hx. }
        assert (Eb : map (fun x => width (- x)) a = a) by (rewrite <- Ea at 2; apply map_ext; intros x; apply width_opp). rewrite Ea, Eb. reflexivity. }
      rewrite E in B. unfold a in B at 1 2. rewrite (gaps_sum rs 0 0 Rn) in B. destruct (Rz _ (last_in rs 0 Rn)) as (z & Ez & Hz). rewrite Ez in B.
      change (Q2Qc 0) with (Qc_of_Z 0) in B. rewrite Qc_of_Z_sub, Qc_of_Z_add in B. unfold q_of_nat in B. rewrite Qc_of_Z_mul in B.
      eapply Qcle_trans; [exact B|]. apply Qc_of_Z_le. nia. }
    assert (Dx : forall x, In x xl -> drawable xs x).
    { assert (G : forall x, In x xl -> whole x /\ 0 <= x /\ x <= X).
      { intros x [<-|Hx]; [split; [exists 0%Z; reflexivity|]; split; [apply Qcle_refl|apply Qclt_le_weak, HX]|]. split; [|split].
        - eapply afters_whole; [exists 0%Z; reflexivity| |exact Hx]. intros v Hv. apply in_map_iff in Hv. destruct Hv as (w & <- & Hw).
          destruct (Wg w Hw) as (y & j & Hy & _ & -> & _). apply whole_mul; [apply Wa, Hy|eexists; reflexivity].
        - pose proof (proj2 (StronglySorted_inv Sx)) as F. rewrite Forall_forall in F. apply Qclt_le_weak, F, Hx.
        - pose proof (afters_bound ds 0 Pd x Hx) as B. replace (0 + qsum ds) with X in B by (unfold X; ring). exact B. }
      intros x Hx. destruct (G x Hx) as ((z & ->) & H1 & H2). apply D. change (Q2Qc 0) with (Qc_of_Z 0) in H1. apply (proj1 (Qc_of_Z_le _ _)) in H1.
      pose proof (proj1 (Qc_of_Z_le _ _) (Qcle_trans _ _ _ H2 Bx)) as H3. split; [exact H1|]. nia. }
    (* the ordinates *)
    destruct (rows_spec m p Ep Hm) as (Sy & Ly & Dy & _). set (yl := rows p) in *.
    set (points := grid_points xl yl p 1%Z true). assert (Lp : length points = (2 * m + 1)%nat) by (apply (grid_length m p Ep Hm)).
    assert (Gp : generates (to_point_sequence_in_general_position_strategy xs ys n mx) points).
    { apply grid_exact. split; [lia|]. exists p, xl, yl, p, 1%Z, true. split; [exact Sp|]. split; [exact Sx|]. split; [exact Sy|].
      assert (Ok : size_ok p p (match mx with None => None | Some m => Some (Z.max m p) end)) by (split; [lia|]; intros k E; destruct mx; [injection E as <-; lia|discriminate]).
      rewrite Lx, Ly. split; [exact Ok|]. split; [exact Ok|]. split; [exact Dx|].
      split; [intros y Hy; destruct (Dy y Hy) as (z & -> & Hz); apply D; nia|].
      split; [rewrite Z.min_id; split; [exact Pp|]; split; [lia|]; intros q _ H; exact H|]. split; [lia|]. split; [apply (not_one m p Ep Hm)|reflexivity]. }
    (* the run *)
    set (z := (0 - X, 0)). set (V := W ++ [z]).
    assert (Hz : 0 - X < 0) by (clearbody X; clear - HX; qcl).
    destruct (walk_in_order gs (0 - X) Fg Hz) as (S1 & S2). fold W z in S1, S2. fold V in S1, S2.
    set (A := afters 0 ds) in *. assert (NA : A <> []) by (intros E; apply (f_equal (@length Qc)) in E; unfold A in E; rewrite afters_length, Ld in E; cbn [length] in E; lia).
    assert (EA : exists v0 A', A = v0 :: A') by (clearbody A; destruct A as [|v0 A']; [contradiction|eauto]). destruct EA as (v0 & A' & EA).
    assert (Ex : split_ends (isort qleb (map px points)) = Some (0, removelast A, last A v0)).
    { unfold points, yl. rewrite (grid_columns m p Ep Hm xl Lx Sx). unfold xl. rewrite EA. reflexivity. }
    assert (ER : exists r0 rs', rs = r0 :: rs') by (clear - Rn; clearbody rs; destruct rs as [|r0 rs']; [contradiction|eauto]). destruct ER as (r0 & rs' & ER).
    assert (Ey : split_ends (isort qleb (map py points)) = Some (0, removelast (dup rs), last rs r0)).
    { unfold points, yl. rewrite (grid_rows m p Ep Hm Pp xl Lx). fold (rungs m p). change (rungs m p) with rs. rewrite <- (dup_last rs r0). rewrite ER. reflexivity. }
    set (bx := repeat true (length points - 2)). set (by_ := zigzag (length rs)).
    assert (Vx : map fst V = to_vectors_coordinates (removelast A) bx 0 (last A v0)).
    { unfold to_vectors_coordinates, bx, A. rewrite (straight_steps ds 0 0 _ v0 _ Nd eq_refl). unfold V, z. rewrite map_app. cbn [map fst]. fold ds. f_equal. f_equal. unfold X. ring. }
    assert (Py : Permutation (to_vectors_coordinates (removelast (dup rs)) by_ 0 (last rs r0)) (map snd V)).
    { unfold to_vectors_coordinates, by_. rewrite (zigzag_steps rs 0 _ r0 Rn eq_refl). unfold V, z. rewrite map_app. cbn [map snd]. rewrite app_assoc. apply Permutation_app_tail, Permutation_sym, Pg. }
    destruct (shuffle_reaches _ _ Py) as (perm & Hperm & Esh).
    assert (Np : points <> []) by (intros E; rewrite E in Lp; cbn in Lp; lia).
    destruct (convex_run ctx directions total points bx by_ (shuffle_by perm) V _ _ _ _ _ _ Np Ex Ey Vx Py Esh S1 S2) as (cx & cy & Run).
    set (l := map (fun xy => Pt (fst xy + cx) (snd xy + cy)) (combine (befores 0 (map fst V)) (befores 0 (map snd V)))) in *.
    assert (Hl : forall q, In q l <-> exists u v, steps_of gs = u ++ v /\ q = place cx cy u).
    { intros q. unfold l. rewrite in_map_iff. split.
      - intros (xy & <- & H). apply walk_places in H. destruct H as (u & v & E & ->). exists u, v. split; [exact E|]. unfold place. cbn [fst snd]. f_equal; ring.
      - intros (u & v & E & ->). exists (0 + qsum (map fst u), 0 + qsum (map snd u)). split; [unfold place; cbn [fst snd]; f_equal; ring|].
        apply walk_places. exists u, v. split; [exact E|reflexivity]. }
    destruct hulls as (H1 & H2).
    destruct (fan_spread gs cx cy l Fg ltac:(lia) Hl) as (q1 & q2 & q3 & I1 & I2 & I3 & NC).
    pose proof (fan_count gs cx cy l (ctx_hull ctx l) Fg Hl (H1 l) (H2 l q1 q2 q3 I1 I2 I3 NC)) as Lh. rewrite Lg in Lh.
    assert (Ln : lenZ (ctx_hull ctx l) = n) by (unfold lenZ; rewrite Lh; unfold nn in Hd; lia).
    exists (ctx_hull ctx l). split; [|exact Ln]. apply gen_pfilter. split; [|apply size_valid; rewrite Ln; exact Hmx].
    apply gen_bind. exists points. split; [exact Gp|]. apply gen_bind. exists bx. split; [apply gen_bits; apply repeat_length|].
    apply gen_bind. exists by_. split; [apply gen_bits; unfold by_; rewrite zigzag_length; lia|].
    apply gen_bind. exists perm. split; [|apply gen_lift; exact Run]. apply gen_permutations.
    replace (length points) with (length (to_vectors_coordinates (removelast (dup rs)) by_ 0 (last rs r0))); [exact Hperm|].
    rewrite (Permutation_length Py). unfold V. rewrite map_length, app_length, Lw, La, Lp. cbn [length]. lia.
  Qed.
End Sizes.

(** ** Triangles, rectangles and segments that are always generated. *)
Section Members.
  Variables (ctx : context) (xs : scalars) (ys : option scalars).
  Lemma convex_triangle mn mx w s a b c : convex_contours ctx xs ys mn mx = Ok (w, s) -> (mn <= 3)%Z -> left_turn a b c ->
    drawable_point xs ys a -> drawable_point xs ys b -> drawable_point xs ys c -> generates s [a; b; c].
  Proof.
    unfold convex_contours. intros H Hm T Ha Hb Hc. validate_hyp; [discriminate|]. injection H as _ <-. change CONVEX with 3%Z in *. rewrite Z.max_r by lia.
    assert (G : generates (to_triangular_vertex_sequence_strategy xs ys) [a; b; c]) by (apply gen_triangle; exists a, b, c; auto).
    unfold to_convex_vertex_sequence_strategy. destruct (match mx with Some m => (m <? CONCAVE)%Z | None => false end); [exact G|].
    change (3 =? 3)%Z with true. cbv iota. apply gen_alt. left. exact G.
  Qed.
  Lemma convex_triangles_only mn w s vs : convex_contours ctx xs ys mn (Some 3%Z) = Ok (w, s) ->
    generates s vs <-> exists a b c, vs = [a; b; c] /\ left_turn a b c /\ drawable_point xs ys a /\ drawable_point xs ys b /\ drawable_point xs ys c.
  Proof. unfold convex_contours. intros H. validate_hyp; [discriminate|]. injection H as _ <-. apply gen_triangle. Qed.
  Lemma convex_rectangle mn mx w s x1 x2 y1 y2 : convex_contours ctx xs ys mn mx = Ok (w, s) -> size_ok 4 mn mx -> (x1 < x2)%Qc -> (y1 < y2)%Qc ->
    drawable xs x1 -> drawable xs x2 -> drawable (ordinates xs ys) y1 -> drawable (ordinates xs ys) y2 -> generates s [Pt x1 y1; Pt x2 y1; Pt x2 y2; Pt x1 y2].
  Proof.
    unfold convex_contours. intros H (Hm & Hx) Lx Ly Dx1 Dx2 Dy1 Dy2. validate_hyp; [discriminate|]. injection H as _ <-. change CONVEX with 3%Z in *.
    assert (G : generates (to_rectangular_vertex_sequence_strategy xs ys) [Pt x1 y1; Pt x2 y1; Pt x2 y2; Pt x1 y2]) by (apply gen_rectangle; exists x1, x2, y1, y2; auto 12).
    unfold to_convex_vertex_sequence_strategy. replace (match mx with Some m => (m <? CONCAVE)%Z | None => false end) with false.
    2:{ destruct mx as [m|]; [|reflexivity]. specialize (Hx m eq_refl). symmetry. apply Z.ltb_ge. exact Hx. }
    replace (Z.max mn 3 <=? 4)%Z with true by (symmetry; apply Z.leb_le; lia). cbv iota.
    destruct (Z.max mn 3 =? 3)%Z; [apply gen_alt; right|]; apply gen_alt; left; exact G.
  Qed.
  Lemma contours_convex mn mx w s w' s' vs : contours ctx xs ys mn mx = Ok (w, s) -> convex_contours ctx xs ys mn mx = Ok (w', s') -> generates s' vs -> generates s vs.
  Proof.
    unfold contours, convex_contours. intros H H' G. validate_hyp; try discriminate. injection H as _ <-. injection H' as _ <-.
    unfold to_vertex_sequence_strategy. apply gen_alt. left. exact G.
  Qed.
  Lemma contours_call mn mx w s : contours ctx xs ys mn mx = Ok (w, s) -> exists w' s', convex_contours ctx xs ys mn mx = Ok (w', s').
  Proof.
    unfold contours, convex_contours. change MIN_CONTOUR_SIZE with CONVEX. intros H. validate; try discriminate; try contradiction. do 2 eexists. reflexivity.
  Qed.
  Lemma apart_accepted l : pairwise_apart l -> are_segments_non_crossing_non_overlapping l = true.
  Proof.
    unfold are_segments_non_crossing_non_overlapping. rewrite negb_true_iff. induction l as [|s l IH]; intros H; [reflexivity|]. cbn [some_segments_cross_or_overlap].
    apply orb_false_iff. split.
    - destruct (existsb (segments_cross_or_overlap s) l) eqn:E; [exfalso|reflexivity]. apply existsb_exists in E. destruct E as (t & Ht & E).
      apply In_nth_error in Ht. destruct Ht as (j & Ht). apply (H O (S j) s t eq_refl Ht ltac:(lia)). apply SeparationProofs.cross_or_overlap_spec, E.
    - apply IH. intros i j a b Hi Hj N. apply (H (S i) (S j) a b Hi Hj). lia.
  Qed.
  Lemma multisegments_complete mn mx w s l : multisegments ctx xs ys mn mx = Ok (w, s) -> size_ok (lenZ l) (Z.max mn 2) mx -> pairwise_apart l ->
    (forall t, In t l -> seg_start t <> seg_end t /\ drawable_point xs ys (seg_start t) /\ drawable_point xs ys (seg_end t)) -> generates s l.
  Proof.
    unfold multisegments. intros H Sz Ap Hl. validate_hyp; [discriminate|]. injection H as _ <-. change MIN_MULTISEGMENT_SIZE with 2%Z in *.
    unfold to_multisegment_strategy, to_segment_sequence_strategy.
    replace (match mx with Some m => (m <? 2)%Z | None => false end) with false.
    2:{ destruct mx as [m|]; [|reflexivity]. destruct Sz as (S1 & S2). specialize (S2 m eq_refl). symmetry. apply Z.ltb_ge. lia. }
    cbv zeta. cbv iota. apply gen_alt. right. apply gen_pfilter. split; [|apply apart_accepted, Ap]. apply gen_lists. split; [lia|]. split; [exact Sz|].
    intros t Ht. apply gen_segment. destruct (Hl t Ht) as (H1 & H2 & H3). split; [exact H1|].
    unfold drawable_point, ordinates in *. destruct ys; auto.
  Qed.
End Members.

Section Reach.
  Variables (ctx : context) (xs : scalars) (ys : option scalars).
  Hypotheses (directions : orders_directions ctx) (total : total_directions ctx) (hulls : spans_hulls ctx).
  Lemma convex_reach n mn mx w s : (3 <= n)%Z -> draws_upto xs ys (4 * n * n) -> size_ok n mn mx -> (n <= 4 \/ mn = n)%Z \/ prime_between n mx ->
    convex_contours ctx xs ys mn mx = Ok (w, s) -> exists vs, generates s vs /\ lenZ vs = n.
  Proof.
    intros Hn D (S1 & S2) Alt H. assert (D0 : drawable xs (Qc_of_Z 0) /\ drawable (ordinates xs ys) (Qc_of_Z 0)) by (apply D; nia).
    assert (D1 : drawable xs (Qc_of_Z 1) /\ drawable (ordinates xs ys) (Qc_of_Z 1)) by (apply D; nia). destruct D0 as (X0 & Y0), D1 as (X1 & Y1).
    destruct (Z.eq_dec n 3) as [->|N3].
    { exists [Pt (Qc_of_Z 0) (Qc_of_Z 0); Pt (Qc_of_Z 1) (Qc_of_Z 0); Pt (Qc_of_Z 0) (Qc_of_Z 1)]. split; [|reflexivity].
      eapply convex_triangle; [exact H|lia|reflexivity|split; assumption..]. }
    destruct (Z.eq_dec n 4) as [->|N4].
    { exists [Pt (Qc_of_Z 0) (Qc_of_Z 0); Pt (Qc_of_Z 1) (Qc_of_Z 0); Pt (Qc_of_Z 1) (Qc_of_Z 1); Pt (Qc_of_Z 0) (Qc_of_Z 1)]. split; [|reflexivity].
      eapply convex_rectangle; [exact H|split; assumption|reflexivity|reflexivity|assumption..]. }
    destruct (convex_size ctx xs ys directions total hulls n mx ltac:(lia) (conj (Z.le_refl n) S2) D) as (vs & G & L).
    assert (C : exists w' s', convex_contours ctx xs ys n mx = Ok (w', s') /\ generates s' vs).
    { unfold convex_contours. validate.
      - match goal with B : bad_sizes _ _ _ |- _ => destruct B as (k & E & B) end. subst mx. specialize (S2 k eq_refl). change CONVEX with 3%Z in *. lia.
      - do 2 eexists. split; [reflexivity|]. change CONVEX with 3%Z. rewrite Z.max_l by lia. unfold to_convex_vertex_sequence_strategy. change CONCAVE with 4%Z.
        replace (match mx with Some m => (m <? 4)%Z | None => false end) with false by (destruct mx as [k|]; [specialize (S2 k eq_refl); symmetry; apply Z.ltb_ge; lia|reflexivity]).
        replace (n <=? 4)%Z with false by (symmetry; apply Z.leb_gt; lia).
        replace (n =? 3)%Z with false by (symmetry; apply Z.eqb_neq; lia). exact G. }
    destruct C as (w' & s' & C & G'). exists vs. split; [|exact L]. destruct Alt as [[A|A]|A]; [lia|subst mn; rewrite C in H; injection H as _ <-; exact G'|].
    refine (convex_contours_relax ctx xs xs ys ys (fun q h => h) (fun q h => h) n mx mn mx _ (or_intror A) w' s' w s C H vs G').
    split; [lia|]. intros m' E. exists m'. split; [exact E|lia].
  Qed.
  Lemma contours_reach n mn mx w s : (3 <= n)%Z -> draws_upto xs ys (4 * n * n) -> size_ok n mn mx -> (n <= 4 \/ mn = n)%Z \/ prime_between n mx ->
    contours ctx xs ys mn mx = Ok (w, s) -> exists vs, generates s vs /\ lenZ vs = n /\ convex_ccw vs.
  Proof.
    intros Hn D Sz Alt H. destruct (contours_call ctx xs ys mn mx w s H) as (w' & s' & H').
    destruct (convex_reach n mn mx w' s' Hn D Sz Alt H') as (vs & G & L). exists vs. split; [eapply contours_convex; eassumption|]. split; [exact L|].
    eapply ContourProofs.convex_contours_shape; [apply hulls|exact H'|exact G].
  Qed.
End Reach.
Lemma reference_spans : spans_hulls reference.
Proof.
  split; [intros l; exact (reference_hull l)|]. intros l a b c Ha Hb Hc N. change (ctx_hull reference l) with (ref_hull l). rewrite ref_hull_chain.
  exact (proj2 (chain_hull_spec l) a b c Ha Hb Hc N).
Qed.
Lemma reference_total : total_directions reference.
Proof. intros y x. eexists. apply StarOrder.ref_atan2_psi. Qed.
Lemma pairwise_length {A} (l : list A) : length (pairwise l) = (length l - 1)%nat.
Proof. induction l as [|a l IH]; [reflexivity|]. destruct l as [|b l]; [reflexivity|]. change (pairwise (a :: b :: l)) with ((a, b) :: pairwise (b :: l)). cbn [length] in *. lia. Qed.
Lemma multisegments_reach ctx xs ys n mn mx w s : draws_upto xs ys n -> size_ok n (Z.max mn 2) mx ->
  multisegments ctx xs ys mn mx = Ok (w, s) -> exists l, generates s l /\ lenZ l = n.
Proof.
  unfold multisegments. intros D Sz H. validate_hyp; [discriminate|]. injection H as _ <-. change MIN_MULTISEGMENT_SIZE with 2%Z in *.
  unfold to_multisegment_strategy, to_segment_sequence_strategy. destruct Sz as (S1 & S2).
  replace (match mx with Some m => (m <? 2)%Z | None => false end) with false.
  2:{ destruct mx as [m|]; [|reflexivity]. specialize (S2 m eq_refl). symmetry. apply Z.ltb_ge. lia. }
  cbv zeta. cbv iota. change (or_else ys xs) with (ordinates xs ys). set (q := map Qc_of_Z (zrange (n + 1))).
  assert (Lq : length q = Z.to_nat (n + 1)) by (unfold q; rewrite map_length; apply zrange_length).
  exists (to_horizontal_multisegment q (Qc_of_Z 0)). split.
  - apply gen_alt. left. assert (G : forall r, generates (alt (let! x := draw_scalar xs in
      let! l := unique_scalars (ordinates xs ys) (Z.max mn 2 + 1)%Z match mx with None => None | Some m => Some (m + 1)%Z end in Ret (to_vertical_multisegment x l))
      (let! l := unique_scalars xs (Z.max mn 2 + 1)%Z match mx with None => None | Some m => Some (m + 1)%Z end in
       let! y := draw_scalar (ordinates xs ys) in Ret (to_horizontal_multisegment l y))) r ->
      forall t, generates (if match mx with None => true | Some m => (MIN_CONTOUR_SIZE <=? m)%Z end then alt
        (alt (let! x := draw_scalar xs in
      let! l := unique_scalars (ordinates xs ys) (Z.max mn 2 + 1)%Z match mx with None => None | Some m => Some (m + 1)%Z end in Ret (to_vertical_multisegment x l))
      (let! l := unique_scalars xs (Z.max mn 2 + 1)%Z match mx with None => None | Some m => Some (m + 1)%Z end in
       let! y := draw_scalar (ordinates xs ys) in Ret (to_horizontal_multisegment l y))) t else (alt (let! x := draw_scalar xs in
      let! l := unique_scalars (ordinates xs ys) (Z.max mn 2 + 1)%Z match mx with None => None | Some m => Some (m + 1)%Z end in Ret (to_vertical_multisegment x l))
      (let! l := unique_scalars xs (Z.max mn 2 + 1)%Z match mx with None => None | Some m => Some (m + 1)%Z end in
       let! y := draw_scalar (ordinates xs ys) in Ret (to_horizontal_multisegment l y)))) r).
    { intros r Hr t. destruct (match mx with None => true | Some m => (MIN_CONTOUR_SIZE <=? m)%Z end); [apply gen_alt; left|]; exact Hr. }
    apply G. clear G. apply gen_alt. right. apply gen_bind. exists q. split.
    + apply gen_unique_scalars. split; [|split; [lia|split]].
      * apply NoDup_map_inj; [|apply zrange_nodup]. intros i j _ _. apply Qc_of_Z_inj.
      * unfold lenZ. rewrite Lq. split; [lia|]. intros k E. destruct mx as [m|]; [|discriminate]. injection E as <-. specialize (S2 m eq_refl). lia.
      * intros x Hx. apply in_map_iff in Hx. destruct Hx as (z & <- & Hz). apply in_zrange in Hz. apply D. lia.
    + apply gen_bind. exists (Qc_of_Z 0). split; [apply D; lia|]. apply gen_ret. reflexivity.
  - unfold to_horizontal_multisegment, lenZ. rewrite map_length, pairwise_length, isort_length, Lq. lia.
Qed.
