(** Predicates of contracts.py and helpers of utils.py. *)
From Verif Require Import Base Geometry Utils Contracts Prog Spec QcTac ProgProofs GeomProofs CyclicProofs
  ListProofs SegmentProofs.
From Coq Require Import Lqa Sorted.

(** ** [angle_contains_point] *)
Lemma sign_mult_pos (D a : Qc) : (0 < D)%Qc -> (0 < a * D)%Qc <-> (0 < a)%Qc.
Proof.
  intros HD. split; intros H; [|qcn].
  destruct (Qc_lt_eq_gt 0 a) as [Ha|[Ha|Ha]]; [exact Ha| |exfalso; qcn].
  subst a. exfalso. revert H. replace (0 * D)%Qc with (Q2Qc 0) by ring. apply Qlt_irrefl.
Qed.
Lemma orientation_of_sign a b c (k : Qc) : cross a b c = k ->
  angle_orientation a b c = match (k ?= 0)%Qc with Lt => CLOCKWISE | Eq => COLLINEAR | Gt => COUNTERCLOCKWISE end.
Proof. intros <-. reflexivity. Qed.
Lemma cmp_pos (k : Qc) : (0 < k)%Qc -> (k ?= 0)%Qc = Gt.
Proof. intros H. apply -> Qcgt_alt. exact H. Qed.
Lemma cmp_neg (k : Qc) : (k < 0)%Qc -> (k ?= 0)%Qc = Lt.
Proof. intros H. apply -> Qclt_alt. exact H. Qed.
Lemma cmp_zero (k : Qc) : k = Q2Qc 0 -> (k ?= 0)%Qc = Eq.
Proof. intros H. apply -> Qceq_alt. exact H. Qed.

Lemma angle_coordinates v f s p : ~ collinear v f s ->
  exists a b : Qc,
    px p = (px v + a * (px f - px v) + b * (px s - px v))%Qc /\
    py p = (py v + a * (py f - py v) + b * (py s - py v))%Qc.
Proof.
  unfold collinear. intros HD. exists (cross s v p / cross v f s)%Qc, (cross v f p / cross v f s)%Qc.
  unfold cross in *. split; field; exact HD.
Qed.
Lemma cross_coordinates_a v f s p (a b : Qc) :
  px p = (px v + a * (px f - px v) + b * (px s - px v))%Qc ->
  py p = (py v + a * (py f - py v) + b * (py s - py v))%Qc ->
  cross v f p = (b * cross v f s)%Qc.
Proof.
  unfold cross. generalize (px p) (py p). intros ? ? -> ->. ring.
Qed.
Lemma cross_coordinates_b v f s p (a b : Qc) :
  px p = (px v + a * (px f - px v) + b * (px s - px v))%Qc ->
  py p = (py v + a * (py f - py v) + b * (py s - py v))%Qc ->
  cross s v p = (a * cross v f s)%Qc.
Proof.
  unfold cross. generalize (px p) (py p). intros ? ? -> ->. ring.
Qed.
Lemma angle_contains_coordinates v f s p (a b : Qc) : ~ collinear v f s ->
  px p = (px v + a * (px f - px v) + b * (px s - px v))%Qc ->
  py p = (py v + a * (py f - py v) + b * (py s - py v))%Qc ->
  (angle_contains_point v f s p = true <-> (0 <= a)%Qc /\ (0 <= b)%Qc /\ (a <> Q2Qc 0 \/ b <> Q2Qc 0)).
Proof.
  intros HD Hx Hy.
  assert (EA : cross v f p = (b * cross v f s)%Qc) by (apply (cross_coordinates_a _ _ _ _ a); assumption).
  assert (EB : cross s v p = (a * cross v f s)%Qc) by (apply (cross_coordinates_b _ _ _ _ a b); assumption).
  unfold angle_contains_point.
  rewrite (orientation_of_sign _ _ _ _ EA), (orientation_of_sign _ _ _ _ EB),
    (orientation_of_sign v f s _ eq_refl).
  unfold collinear in HD. set (D := cross v f s) in *. clearbody D. clear EA EB Hx Hy.
  assert (Ha : (0 < a)%Qc \/ a = Q2Qc 0 \/ (a < 0)%Qc) by (destruct (Qc_lt_eq_gt 0 a) as [H|[H|H]]; auto).
  assert (Hb : (0 < b)%Qc \/ b = Q2Qc 0 \/ (b < 0)%Qc) by (destruct (Qc_lt_eq_gt 0 b) as [H|[H|H]]; auto).
  assert (HD' : (0 < D)%Qc \/ (D < 0)%Qc) by (destruct (Qc_lt_eq_gt 0 D) as [H|[H|H]]; auto; congruence).
  assert (Hz : (0 * D)%Qc = Q2Qc 0) by ring.
  assert (Hpos : forall k : Qc, (0 < k)%Qc -> k <> Q2Qc 0) by (intros k Hk ->; revert Hk; apply Qlt_irrefl).
  destruct HD' as [H|H].
  - rewrite (cmp_pos D H).
    destruct Ha as [Ha|[Ha|Ha]], Hb as [Hb|[Hb|Hb]]; try subst a; try subst b; rewrite ?Hz;
    rewrite ?(cmp_pos (a * D)) by qcn; rewrite ?(cmp_pos (b * D)) by qcn;
    rewrite ?(cmp_neg (a * D)) by qcn; rewrite ?(cmp_neg (b * D)) by qcn;
    rewrite ?(cmp_zero (Q2Qc 0) eq_refl); cbn [orientation_eqb andb];
    (split; [intros E; try discriminate E; repeat split; try (apply Qcle_refl); try (apply Qclt_le_weak; assumption); auto
            |intros (H1 & H2 & H3); try reflexivity; exfalso; try qcl; try (destruct H3; auto)]).
  - rewrite (cmp_neg D H).
    destruct Ha as [Ha|[Ha|Ha]], Hb as [Hb|[Hb|Hb]]; try subst a; try subst b; rewrite ?Hz;
    rewrite ?(cmp_neg (a * D)) by qcn; rewrite ?(cmp_neg (b * D)) by qcn;
    rewrite ?(cmp_pos (a * D)) by qcn; rewrite ?(cmp_pos (b * D)) by qcn;
    rewrite ?(cmp_zero (Q2Qc 0) eq_refl); cbn [orientation_eqb andb];
    (split; [intros E; try discriminate E; repeat split; try (apply Qcle_refl); try (apply Qclt_le_weak; assumption); auto
            |intros (H1 & H2 & H3); try reflexivity; exfalso; try qcl; try (destruct H3; auto)]).
Qed.
Lemma angle_contains_spec v f s p : ~ collinear v f s ->
  (angle_contains_point v f s p = true <-> p <> v /\ in_angle v f s p).
Proof.
  intros HD. split.
  - intros H. destruct (angle_coordinates v f s p HD) as (a & b & Hx & Hy).
    apply (angle_contains_coordinates v f s p a b HD Hx Hy) in H. destruct H as (Ha & Hb & Hn). split.
    + intros ->. destruct Hn as [Hn|Hn]; apply Hn.
      * apply (mul_zero (cross v f s)); [|exact HD]. rewrite Qcmult_comm, <- (cross_coordinates_b v f s v a b Hx Hy).
        unfold cross; ring.
      * apply (mul_zero (cross v f s)); [|exact HD]. rewrite Qcmult_comm, <- (cross_coordinates_a v f s v a b Hx Hy).
        unfold cross; ring.
    + exists a, b. auto.
  - intros (Hp & a & b & Ha & Hb & Hx & Hy). apply (angle_contains_coordinates v f s p a b HD Hx Hy).
    split; [exact Ha|]. split; [exact Hb|].
    destruct (Qc_eq_dec a (Q2Qc 0)) as [Ea|Ea]; [|auto]. destruct (Qc_eq_dec b (Q2Qc 0)) as [Eb|Eb]; [|auto].
    exfalso. apply Hp. subst a b. apply point_ext; [rewrite Hx|rewrite Hy]; ring.
Qed.

(** ** The extremity predicates. *)
Lemma py_max_spec {A} (key : A -> Qc) (l : list A) : forall best,
  In (py_max key best l) (best :: l) /\ forall x, In x (best :: l) -> (key x <= key (py_max key best l))%Qc.
Proof.
  induction l as [|y l IH]; intros best; cbn [py_max].
  - split; [left; reflexivity|]. intros x [<-|[]]. apply Qcle_refl.
  - destruct (qltb (key best) (key y)) eqn:E.
    + destruct (IH y) as (H1 & H2). split; [right; exact H1|].
      intros x [<-|Hx]; [|apply H2, Hx]. apply qltb_lt in E.
      apply (Qcle_trans _ (key y)); [apply Qclt_le_weak, E | apply H2; left; reflexivity].
    + destruct (IH best) as (H1 & H2). split; [destruct H1 as [H1|H1]; [left; exact H1|right; right; exact H1]|].
      apply qltb_ge in E. intros x [<-|[<-|Hx]].
      * apply H2; left; reflexivity.
      * apply (Qcle_trans _ (key best)); [exact E | apply H2; left; reflexivity].
      * apply H2; right; exact Hx.
Qed.

(** The abscissa (resp. ordinate) of the lower end. *)
Definition is_min (m a b : Qc) : Prop := (m = a \/ m = b) /\ (m <= a)%Qc /\ (m <= b)%Qc.
Lemma qmin_is_min a b : is_min (qmin a b) a b.
Proof. split; [apply qmin_cases|]. split; [apply qmin_le_l | apply qmin_le_r]. Qed.
Lemma is_min_unique m m' a b : is_min m a b -> is_min m' a b -> m = m'.
Proof.
  intros ([H1|H1] & H2 & H3) ([H4|H4] & H5 & H6); subst; auto; apply Qcle_antisym; assumption.
Qed.
Lemma is_min_self a b : a = b -> is_min a a b.
Proof. intros <-. split; [auto|]. split; apply Qcle_refl. Qed.

Section Extremity.
  (** [lower s] and [flat s] stand for (min x, vertical) or (min y, horizontal). *)
  Context (lower : segment -> Qc) (flat : segment -> bool).
  Lemma extremity_spec s rest :
    let best := py_max lower s rest in
    (flat best || existsb (fun t => qeqb (lower t) (lower best) && flat t) (s :: rest) = true <->
     exists t, In t (s :: rest) /\ flat t = true /\ forall u, In u (s :: rest) -> (lower u <= lower t)%Qc).
  Proof.
    intros best. destruct (py_max_spec lower rest s) as (Hin & Hmax). fold best in Hin, Hmax. split.
    - rewrite orb_true_iff, existsb_exists. intros [H|(t & Ht & E)].
      + exists best. auto.
      + apply andb_true_iff in E. destruct E as (E & Hf). apply qeqb_eq in E. exists t.
        split; [exact Ht|]. split; [exact Hf|]. intros u Hu. rewrite E. apply Hmax, Hu.
    - intros (t & Ht & Hf & Hm). apply orb_true_iff. right. apply existsb_exists. exists t. split; [exact Ht|].
      rewrite Hf, andb_true_r. apply qeqb_eq. apply Qcle_antisym; [apply Hmax, Ht|apply Hm, Hin].
  Qed.
End Extremity.

Lemma vertical_leftmost_spec l b : has_vertical_leftmost_segment l = Ok b ->
  (b = true <-> exists s, In s l /\ px (seg_start s) = px (seg_end s) /\
    forall t, In t l -> (px (seg_start t) <= px (seg_start s))%Qc \/ (px (seg_end t) <= px (seg_start s))%Qc).
Proof.
  destruct l as [|s rest]; cbn [has_vertical_leftmost_segment]; [discriminate|]. intros H. injection H as <-.
  rewrite (extremity_spec segment_to_max_x is_segment_vertical s rest). split.
  - intros (t & Ht & Hf & Hm). unfold is_segment_vertical in Hf. apply qeqb_eq in Hf.
    exists t. split; [exact Ht|]. split; [exact Hf|]. intros u Hu. specialize (Hm u Hu).
    unfold segment_to_max_x in Hm.
    rewrite (is_min_unique (qmin (px (seg_start t)) (px (seg_end t))) (px (seg_start t)) _ _
      (qmin_is_min _ _) (is_min_self _ _ Hf)) in Hm.
    destruct (qmin_cases (px (seg_start u)) (px (seg_end u))) as [E|E]; rewrite E in Hm; auto.
  - intros (t & Ht & Hf & Hm). exists t. split; [exact Ht|]. split; [apply qeqb_eq; exact Hf|].
    intros u Hu. unfold segment_to_max_x.
    rewrite (is_min_unique (qmin (px (seg_start t)) (px (seg_end t))) (px (seg_start t)) _ _
      (qmin_is_min _ _) (is_min_self _ _ Hf)).
    destruct (Hm u Hu) as [H|H]; (eapply Qcle_trans; [|exact H]); [apply qmin_le_l|apply qmin_le_r].
Qed.
Lemma horizontal_lowermost_spec l b : has_horizontal_lowermost_segment l = Ok b ->
  (b = true <-> exists s, In s l /\ py (seg_start s) = py (seg_end s) /\
    forall t, In t l -> (py (seg_start t) <= py (seg_start s))%Qc \/ (py (seg_end t) <= py (seg_start s))%Qc).
Proof.
  destruct l as [|s rest]; cbn [has_horizontal_lowermost_segment]; [discriminate|]. intros H. injection H as <-.
  rewrite (extremity_spec segment_to_min_y is_segment_horizontal s rest). split.
  - intros (t & Ht & Hf & Hm). unfold is_segment_horizontal in Hf. apply qeqb_eq in Hf.
    exists t. split; [exact Ht|]. split; [exact Hf|]. intros u Hu. specialize (Hm u Hu).
    unfold segment_to_min_y in Hm.
    rewrite (is_min_unique (qmin (py (seg_start t)) (py (seg_end t))) (py (seg_start t)) _ _
      (qmin_is_min _ _) (is_min_self _ _ Hf)) in Hm.
    destruct (qmin_cases (py (seg_start u)) (py (seg_end u))) as [E|E]; rewrite E in Hm; auto.
  - intros (t & Ht & Hf & Hm). exists t. split; [exact Ht|]. split; [apply qeqb_eq; exact Hf|].
    intros u Hu. unfold segment_to_min_y.
    rewrite (is_min_unique (qmin (py (seg_start t)) (py (seg_end t))) (py (seg_start t)) _ _
      (qmin_is_min _ _) (is_min_self _ _ Hf)).
    destruct (Hm u Hu) as [H|H]; (eapply Qcle_trans; [|exact H]); [apply qmin_le_l|apply qmin_le_r].
Qed.
(** If the predicate is false, no segment lies on a vertical line to the left of which (or on
    which) all the segments are. *)
Lemma vertical_leftmost_false l : has_vertical_leftmost_segment l = Ok false ->
  forall c, (forall t, In t l -> (px (seg_start t) <= c)%Qc /\ (px (seg_end t) <= c)%Qc) ->
  forall s, In s l -> px (seg_start s) <> c \/ px (seg_end s) <> c.
Proof.
  intros H c Hc s Hs. destruct (Qc_eq_dec (px (seg_start s)) c) as [E1|E1]; [|auto].
  destruct (Qc_eq_dec (px (seg_end s)) c) as [E2|E2]; [|auto]. exfalso.
  assert (false = true); [|discriminate]. apply (vertical_leftmost_spec l false H). exists s.
  split; [exact Hs|]. split; [congruence|]. intros t Ht. left. rewrite E1. apply Hc, Ht.
Qed.
Lemma horizontal_lowermost_false l : has_horizontal_lowermost_segment l = Ok false ->
  forall c, (forall t, In t l -> (py (seg_start t) <= c)%Qc /\ (py (seg_end t) <= c)%Qc) ->
  forall s, In s l -> py (seg_start s) <> c \/ py (seg_end s) <> c.
Proof.
  intros H c Hc s Hs. destruct (Qc_eq_dec (py (seg_start s)) c) as [E1|E1]; [|auto].
  destruct (Qc_eq_dec (py (seg_end s)) c) as [E2|E2]; [|auto]. exfalso.
  assert (false = true); [|discriminate]. apply (horizontal_lowermost_spec l false H). exists s.
  split; [exact Hs|]. split; [congruence|]. intros t Ht. left. rewrite E1. apply Hc, Ht.
Qed.
Lemma vertical_leftmost_raise l e : has_vertical_leftmost_segment l = Raise e <-> l = [] /\ e = ValueError.
Proof.
  destruct l; cbn [has_vertical_leftmost_segment]; split; try discriminate.
  - intros H; injection H as <-; auto.
  - intros (_ & ->); reflexivity.
  - intros (H & _); discriminate.
Qed.
Lemma horizontal_lowermost_raise l e : has_horizontal_lowermost_segment l = Raise e <-> l = [] /\ e = ValueError.
Proof.
  destruct l; cbn [has_horizontal_lowermost_segment]; split; try discriminate.
  - intros H; injection H as <-; auto.
  - intros (_ & ->); reflexivity.
  - intros (H & _); discriminate.
Qed.

(** ** utils.py *)
Lemma land_pred_pow2 n : (1 <= n)%Z -> Z.land n (n - 1) = 0%Z <-> n = (2 ^ Z.log2 n)%Z.
Proof.
  intros Hn. pose proof (Z.log2_spec n ltac:(lia)) as (H1 & H2). pose proof (Z.log2_nonneg n) as H0. split.
  - intros H. destruct (Z.eq_dec n (2 ^ Z.log2 n)) as [E|E]; [exact E|]. exfalso.
    assert (Hb1 : Z.testbit n (Z.log2 n) = true) by (apply Z.bit_log2; lia).
    assert (Hl : Z.log2 (n - 1) = Z.log2 n) by (apply Z.log2_unique; lia).
    assert (Hb2 : Z.testbit (n - 1) (Z.log2 n) = true).
    { rewrite <- Hl. apply Z.bit_log2. pose proof (Z.pow_pos_nonneg 2 (Z.log2 n)). lia. }
    assert (Hb : Z.testbit (Z.land n (n - 1)) (Z.log2 n) = true) by (rewrite Z.land_spec, Hb1, Hb2; reflexivity).
    rewrite H, Z.bits_0 in Hb. discriminate.
  - intros E. rewrite E at 1 2.
    replace (2 ^ Z.log2 n - 1)%Z with (Z.ones (Z.log2 n)) by (rewrite Z.ones_equiv; lia).
    rewrite Z.land_ones by exact H0. apply Z.mod_same. lia.
Qed.
Lemma ceil_log2_spec n : (1 <= n)%Z ->
  (0 <= ceil_log2 n)%Z /\ (n <= 2 ^ ceil_log2 n)%Z /\ forall k, (0 <= k)%Z -> (n <= 2 ^ k)%Z -> (ceil_log2 n <= k)%Z.
Proof.
  intros Hn. pose proof (Z.log2_spec n ltac:(lia)) as (H1 & H2). pose proof (Z.log2_nonneg n) as H0.
  unfold ceil_log2, bit_length. replace (n =? 0)%Z with false by lia. rewrite Z.abs_eq by lia.
  pose proof (land_pred_pow2 n Hn) as HL.
  destruct (Z.eqb_spec (Z.land n (n - 1)) 0) as [E|E]; cbn [b2z].
  - apply HL in E. replace (Z.log2 n + 1 - 1)%Z with (Z.log2 n) by lia.
    split; [exact H0|]. split; [lia|]. intros k Hk Hle. apply (Z.pow_le_mono_r_iff 2); lia.
  - assert (Hne : n <> (2 ^ Z.log2 n)%Z) by tauto.
    replace (Z.log2 n + 1 - 0)%Z with (Z.succ (Z.log2 n)) by lia.
    split; [lia|]. split; [lia|]. intros k Hk Hle.
    assert (2 ^ Z.log2 n < 2 ^ k)%Z by lia. apply Z.pow_lt_mono_r_iff in H; lia.
Qed.
Lemma cut_spec {A} (l : list A) n : (0 <= n)%Z ->
  exists rest, l = cut l n ++ rest /\ lenZ (cut l n) = Z.min n (lenZ l).
Proof.
  intros Hn. unfold cut. destruct (Z.ltb_spec n (lenZ l)) as [H|H].
  - exists (skipn (Z.to_nat n) l). unfold py_take, py_bound, lenZ in *.
    replace (0 <=? n)%Z with true by lia. replace (Z.to_nat (Z.min n (Z.of_nat (length l)))) with (Z.to_nat n) by lia.
    split; [symmetry; apply firstn_skipn|]. rewrite firstn_length. lia.
  - exists []. rewrite app_nil_r. split; [reflexivity|]. lia.
Qed.
Lemma pairwise_length {A} (l : list A) : length (pairwise l) = length l - 1.
Proof.
  induction l as [|x l IH]; [reflexivity|]. destruct l as [|y l]; [reflexivity|].
  change (pairwise (x :: y :: l)) with ((x, y) :: pairwise (y :: l)). cbn [length] in *. rewrite IH. lia.
Qed.
Lemma pairwise_nth {A} (l : list A) : forall i a b,
  nth_error (pairwise l) i = Some (a, b) <-> nth_error l i = Some a /\ nth_error l (S i) = Some b.
Proof.
  induction l as [|x l IH]; intros i a b.
  - destruct i; cbn; split; [discriminate|intros (H & _); discriminate| |intros (H & _)]; discriminate.
  - destruct l as [|y l].
    + cbn. split; [destruct i; discriminate|]. intros (_ & H). destruct i; discriminate.
    + change (pairwise (x :: y :: l)) with ((x, y) :: pairwise (y :: l)). destruct i as [|i].
      * cbn. split; [intros H; injection H as <- <-; auto|]. intros (H1 & H2). congruence.
      * change (nth_error ((x, y) :: pairwise (y :: l)) (S i)) with (nth_error (pairwise (y :: l)) i).
        change (nth_error (x :: y :: l) (S i)) with (nth_error (y :: l) i).
        change (nth_error (x :: y :: l) (S (S i))) with (nth_error (y :: l) (S i)). apply IH.
Qed.
Lemma sort_pair_spec (a b : Qc) (reverse : bool) :
  let '(c, d) := sort_pair qltb (a, b) reverse in
  ((c, d) = (a, b) \/ (c, d) = (b, a)) /\ (if reverse then (d <= c)%Qc else (c <= d)%Qc).
Proof.
  unfold sort_pair. destruct (qltb a b) eqn:E, reverse; cbn [Bool.eqb negb];
  (split; [auto|]); first [apply qltb_lt in E; apply Qclt_le_weak; exact E | apply qltb_ge in E; exact E].
Qed.

(** ** [to_contour_orientations] *)
Lemma combine3_nth (vs : list point) x tl_ : vs = x :: tl_ ->
  forall i, i < length vs ->
  nth_error (combine (combine (last vs x :: vs) vs) (tl_ ++ [x])) i =
  match nth_error vs ((i + length vs - 1) mod length vs), nth_error vs i, nth_error vs (S i mod length vs) with
  | Some a, Some b, Some c => Some (a, b, c) | _, _, _ => None end.
Proof.
  intros E i Hi.
  assert (Hc : forall A B (u : list A) (w : list B) k, nth_error (combine u w) k =
    match nth_error u k, nth_error w k with Some a, Some b => Some (a, b) | _, _ => None end).
  { intros A B u. induction u as [|a u IH]; intros w k.
    - destruct k; reflexivity.
    - destruct w as [|b w].
      + cbn [combine]. destruct k; cbn [nth_error]; [reflexivity|]. destruct (nth_error u k); reflexivity.
      + destruct k; [reflexivity|]. cbn [combine nth_error]. apply IH. }
  rewrite !Hc.
  assert (H1 : nth_error (last vs x :: vs) i = nth_error vs ((i + length vs - 1) mod length vs)).
  { destruct i as [|i].
    - cbn [nth_error]. rewrite Nat.mod_small by lia. replace (0 + length vs - 1) with (length vs - 1) by lia.
      rewrite E. rewrite (nth_error_nth' (x :: tl_) x) by (cbn [length]; lia).
      f_equal. rewrite <- E. clear E Hi. induction vs as [|y vs IH]; [reflexivity|].
      destruct vs as [|z vs]; [reflexivity|]. cbn [length]. replace (S (S (length vs)) - 1) with (S (length vs)) by lia.
      change (nth (S (length vs)) (y :: z :: vs) x) with (nth (length vs) (z :: vs) x).
      change (last (y :: z :: vs) x) with (last (z :: vs) x). rewrite IH. cbn [length].
      replace (S (length vs) - 1) with (length vs) by lia. reflexivity.
    - cbn [nth_error]. replace (S i + length vs - 1) with (i + 1 * length vs) by lia.
      rewrite Nat.mod_add, Nat.mod_small by lia. reflexivity. }
  assert (H2 : nth_error (tl_ ++ [x]) i = nth_error vs (S i mod length vs)).
  { assert (Hl : length vs = S (length tl_)) by (rewrite E; reflexivity).
    destruct (Nat.lt_ge_cases i (length tl_)) as [H|H].
    - rewrite nth_error_app1, Nat.mod_small by lia. rewrite E. reflexivity.
    - rewrite nth_error_app2 by lia. replace (i - length tl_) with 0 by lia.
      replace (S i) with (length vs) by lia. rewrite Nat.mod_same by lia. rewrite E. reflexivity. }
  rewrite H1, H2. destruct (nth_error vs ((i + length vs - 1) mod length vs)), (nth_error vs i); reflexivity.
Qed.
Lemma orientations_in vs o : In o (to_contour_orientations vs) <->
  exists a b c, contour_turn vs a b c /\ o = angle_orientation b a c.
Proof.
  destruct vs as [|x tl_].
  - cbn. split; [tauto|]. intros (a & b & c & (i & H & _) & _). destruct i; discriminate.
  - assert (E : exists vs, vs = x :: tl_) by eauto. destruct E as (vs & E). rewrite <- E.
    assert (Hn : 0 < length vs) by (rewrite E; cbn; lia).
    assert (Ho : to_contour_orientations vs =
      map (fun abc => angle_orientation (snd (fst abc)) (fst (fst abc)) (snd abc))
        (combine (combine (last vs x :: vs) vs) (tl_ ++ [x]))) by (rewrite E; reflexivity).
    rewrite Ho, in_map_iff. split.
    + intros (((a, b), c) & Eo & Hin). cbn [fst snd] in Eo. apply In_nth_error in Hin. destruct Hin as (i & Hi).
      assert (Hlt : i < length vs).
      { assert (Hne : nth_error (combine (combine (last vs x :: vs) vs) (tl_ ++ [x])) i <> None) by congruence.
        apply nth_error_Some in Hne. rewrite !combine_length, app_length in Hne. cbn [length] in Hne.
        rewrite E in *. cbn [length] in *. lia. }
      rewrite (combine3_nth vs x tl_ E i Hlt) in Hi. exists a, b, c. split; [|auto].
      exists ((i + length vs - 1) mod length vs).
      destruct (nth_error vs ((i + length vs - 1) mod length vs)) eqn:E1; [|discriminate].
      destruct (nth_error vs i) eqn:E2; [|discriminate].
      destruct (nth_error vs (S i mod length vs)) eqn:E3; [|discriminate].
      injection Hi as <- <- <-.
      assert (Hs : S ((i + length vs - 1) mod length vs) mod length vs = i).
      { rewrite <- Nat.add_1_r, Nat.add_mod_idemp_l by lia.
        replace (i + length vs - 1 + 1) with (i + 1 * length vs) by lia. rewrite Nat.mod_add, Nat.mod_small by lia. reflexivity. }
      rewrite Hs. split; [reflexivity|]. split; [exact E2|].
      rewrite <- E3. f_equal.
      rewrite <- (Nat.add_1_r (S _)), <- Nat.add_mod_idemp_l by lia. rewrite Hs. f_equal. lia.
    + intros (a & b & c & (i & Ha & Hb & Hc) & ->). exists (a, b, c). split; [reflexivity|].
      set (j := S i mod length vs) in *.
      assert (Hj : j < length vs) by (apply Nat.mod_upper_bound; lia).
      assert (Hi : i < length vs) by (apply nth_error_Some; congruence).
      apply (nth_error_In _ j). rewrite (combine3_nth vs x tl_ E j Hj).
      assert (H1 : (j + length vs - 1) mod length vs = i).
      { unfold j. destruct (Nat.eq_dec (S i) (length vs)) as [E'|E'].
        - rewrite E', Nat.mod_same by lia. rewrite Nat.mod_small by lia. lia.
        - rewrite (Nat.mod_small (S i)) by lia. replace (S i + length vs - 1) with (i + 1 * length vs) by lia.
          rewrite Nat.mod_add, Nat.mod_small by lia. reflexivity. }
      rewrite H1, Ha, Hb.
      replace (S j mod length vs) with (S (S i) mod length vs); [rewrite Hc; reflexivity|].
      unfold j. rewrite <- (Nat.add_1_r (S i)), <- Nat.add_mod_idemp_l, Nat.add_1_r by lia. reflexivity.
Qed.
Lemma vertices_strict_spec vs : are_vertices_strict vs = true <-> strict vs.
Proof.
  unfold are_vertices_strict. rewrite forallb_forall. split.
  - intros H a b c Ht Hc. assert (Hin : In (angle_orientation b a c) (to_contour_orientations vs))
      by (apply orientations_in; exists a, b, c; auto).
    apply H in Hin. apply negb_true_iff, orientation_eqb_neq in Hin. apply Hin, orientation_col.
    unfold collinear, cross in *. rewrite <- (Qcmult_0_r (-(1))), <- Hc. ring.
  - intros H o Ho. apply orientations_in in Ho. destruct Ho as (a & b & c & Ht & ->).
    apply negb_true_iff, orientation_eqb_neq. intros E. apply orientation_col in E. apply (H a b c Ht).
    unfold collinear, cross in *. rewrite <- (Qcmult_0_r (-(1))), <- E. ring.
Qed.
