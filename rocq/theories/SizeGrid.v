(** Convex contours of every size: the coordinates that lead to one. *)
From Coq Require Import List Lia Permutation Sorted Znumtheory.
From Verif Require Import Base Prog Geometry Ctx Utils Contracts Spec Factories Strategies StarSpec QcTac QcFast ProgProofs PrimeProofs GeomProofs ListProofs GridProofs
  ConvexProofs SequenceProofs ValtrProofs GeneralCoordinates EmptyProofs FanCount SizeProofs SizeFan.
From Verif Require Bertrand.
Import List ListNotations.
Open Scope Qc_scope.

(** ** Whole numbers. *)
Definition whole (q : Qc) : Prop := exists z, q = Qc_of_Z z.
Lemma Qc_of_Z_lt a b : Qc_of_Z a < Qc_of_Z b <-> (a < b)%Z.
Proof. unfold Qc_of_Z, Qclt. cbn [this Q2Qc]. rewrite !Qred_correct. unfold inject_Z, Qlt. cbn. lia. Qed.
Lemma Qc_of_Z_le a b : Qc_of_Z a <= Qc_of_Z b <-> (a <= b)%Z.
Proof. unfold Qc_of_Z, Qcle. cbn [this Q2Qc]. rewrite !Qred_correct. unfold inject_Z, Qle. cbn. lia. Qed.
Lemma Qc_of_Z_add a b : Qc_of_Z a + Qc_of_Z b = Qc_of_Z (a + b).
Proof. apply Qc_is_canon. unfold Qc_of_Z, Qcplus. cbn [this Q2Qc]. rewrite !Qred_correct. unfold Qeq. cbn. ring. Qed.
Lemma whole_add a b : whole a -> whole b -> whole (a + b).
Proof. intros (x & ->) (y & ->). rewrite Qc_of_Z_add. eexists. reflexivity. Qed.
Lemma whole_sub a b : whole a -> whole b -> whole (a - b).
Proof. intros (x & ->) (y & ->). rewrite Qc_of_Z_sub. eexists. reflexivity. Qed.
Lemma whole_mul a b : whole a -> whole b -> whole (a * b).
Proof. intros (x & ->) (y & ->). rewrite Qc_of_Z_mul. eexists. reflexivity. Qed.

(** ** Differences of consecutive numbers. *)
Fixpoint gaps (lo : Qc) (rs : list Qc) : list Qc := match rs with [] => [] | r :: rs => (r - lo) :: gaps r rs end.
Fixpoint dup (rs : list Qc) : list Qc := match rs with [] => [] | r :: rs => r :: r :: dup rs end.
Fixpoint zigzag (k : nat) : list bool := match k with O => [] | S O => [true] | S k => true :: false :: zigzag k end.
Lemma gaps_length rs : forall lo, length (gaps lo rs) = length rs.
Proof. induction rs as [|r rs IH]; intros lo; cbn [gaps length]; [reflexivity|]. rewrite IH. reflexivity. Qed.
Lemma gaps_positive rs : forall lo, StronglySorted Qclt (lo :: rs) -> forall x, In x (gaps lo rs) -> 0 < x.
Proof.
  induction rs as [|r rs IH]; intros lo S x H; [destruct H|]. inversion S as [|? ? S' F]; subst. inversion F as [|? ? H1 _]; subst. destruct H as [<-|H].
  - clear - H1. qcl.
  - eapply IH; eassumption.
Qed.
Lemma gaps_whole rs : forall lo, whole lo -> (forall r, In r rs -> whole r) -> forall x, In x (gaps lo rs) -> whole x.
Proof.
  induction rs as [|r rs IH]; intros lo Hl H x Hx; [destruct Hx|]. destruct Hx as [<-|Hx].
  - apply whole_sub; [apply H; left; reflexivity|exact Hl].
  - eapply IH; [apply H; left; reflexivity| |exact Hx]. intros k Hk. apply H. right. exact Hk.
Qed.
Lemma gaps_sum rs : forall lo d, rs <> [] -> qsum (gaps lo rs) = last rs d - lo.
Proof.
  induction rs as [|r rs IH]; intros lo d N; [contradiction|]. cbn [gaps qsum]. destruct rs as [|r' rs]; [cbn [gaps qsum last]; ring|].
  rewrite (IH r d) by discriminate. change (last (r :: r' :: rs) d) with (last (r' :: rs) d). ring.
Qed.
Lemma zigzag_length k : (0 < k)%nat -> length (zigzag k) = (2 * k - 1)%nat.
Proof. destruct k as [|k]; [lia|]. intros _. induction k as [|k IH]; [reflexivity|]. change (zigzag (S (S k))) with (true :: false :: zigzag (S k)). cbn [length]. rewrite IH. lia. Qed.
Lemma dup_nonempty rs : rs <> [] -> dup rs <> [].
Proof. destruct rs; [contradiction|discriminate]. Qed.
Lemma zigzag_steps rs : forall lo top d, rs <> [] -> top = last rs d ->
  Permutation (vectors_coordinates (removelast (dup rs)) (zigzag (length rs)) lo lo top) (map Qcopp (gaps lo rs) ++ gaps lo rs ++ [0]).
Proof.
  induction rs as [|r rs IH]; intros lo top d N E; [contradiction|]. destruct rs as [|r' rs].
  - cbn [last] in E. subst top. cbn [dup removelast length zigzag vectors_coordinates hd gaps map app]. replace (- (r - lo)) with (lo - r) by ring. replace (r - r) with (Q2Qc 0) by ring.
    apply perm_trans with (r - lo :: [lo - r; 0]); [apply perm_skip, perm_swap|]. apply perm_swap.
  - set (q := r' :: rs) in *. assert (Nq : q <> []) by discriminate.
    assert (Er : removelast (dup (r :: q)) = r :: r :: removelast (dup q)) by reflexivity.
    assert (Ez : zigzag (length (r :: q)) = true :: false :: zigzag (length q)) by reflexivity.
    rewrite Er, Ez. cbn [vectors_coordinates hd tl]. assert (E' : top = last q d) by exact E.
    change (gaps lo (r :: q)) with ((r - lo) :: gaps r q). cbn [map app]. replace (- (r - lo)) with (lo - r) by ring.
    rewrite (IH r top d Nq E'). apply perm_trans with ((lo - r) :: (r - lo) :: map Qcopp (gaps r q) ++ gaps r q ++ [0]); [apply perm_swap|].
    apply perm_skip. apply Permutation_middle.
Qed.
Lemma straight_steps ds : forall s hi k d top, ds <> [] -> top = last (afters s ds) d ->
  vectors_coordinates (removelast (afters s ds)) (repeat true k) s hi top = ds ++ [hi - (s + qsum ds)].
Proof.
  induction ds as [|v ds IH]; intros s hi k d top N E; [contradiction|]. destruct ds as [|w ds].
  - cbn [afters last] in E. subst top. cbn [afters removelast vectors_coordinates app qsum]. f_equal; [ring|]. f_equal. ring.
  - assert (Er : removelast (afters s (v :: w :: ds)) = (s + v) :: removelast (afters (s + v) (w :: ds))) by reflexivity.
    rewrite Er. cbn [vectors_coordinates]. assert (Eh : hd true (repeat true k) = true) by (destruct k; reflexivity). rewrite Eh.
    assert (Et : tl (repeat true k) = repeat true (pred k)) by (destruct k; reflexivity). rewrite Et.
    rewrite (IH (s + v) hi (pred k) d top ltac:(discriminate) E). change (qsum (v :: w :: ds)) with (v + qsum (w :: ds)). cbn [app]. f_equal; [ring|].
    f_equal. f_equal. f_equal. ring.
Qed.
Lemma afters_sorted ds : forall s, (forall v, In v ds -> 0 < v) -> StronglySorted Qclt (s :: afters s ds).
Proof.
  induction ds as [|v ds IH]; intros s P; [repeat constructor|]. cbn [afters]. specialize (IH (s + v) (fun w Hw => P w (or_intror Hw))).
  pose proof (P v (or_introl eq_refl)) as Hv. assert (L : s < s + v) by (clear - Hv; qcl).
  constructor; [exact IH|]. constructor; [exact L|]. inversion IH as [|? ? _ F]; subst. rewrite Forall_forall in F |- *. intros x Hx. eapply Qclt_trans; [exact L|apply F, Hx].
Qed.
Lemma afters_length ds : forall s, length (afters s ds) = length ds.
Proof. induction ds as [|v ds IH]; intros s; cbn [afters length]; [reflexivity|]. rewrite IH. reflexivity. Qed.
Lemma afters_bound ds : forall s, (forall v, In v ds -> 0 < v) -> forall x, In x (afters s ds) -> x <= s + qsum ds.
Proof.
  induction ds as [|v ds IH]; intros s P x H; [destruct H|]. cbn [afters qsum] in *. destruct H as [<-|H].
  - assert (0 <= qsum ds) by (apply qsum_pos; intros w Hw; apply Qclt_le_weak, P; right; exact Hw). set (q := qsum ds) in *. clearbody q. clear - H. qcl.
  - specialize (IH (s + v) (fun w Hw => P w (or_intror Hw)) x H). replace (s + (v + qsum ds)) with (s + v + qsum ds) by ring. exact IH.
Qed.
Lemma afters_whole ds : forall s, whole s -> (forall v, In v ds -> whole v) -> forall x, In x (afters s ds) -> whole x.
Proof.
  induction ds as [|v ds IH]; intros s Hs P x H; [destruct H|]. cbn [afters] in H. assert (Hv : whole (s + v)) by (apply whole_add; [exact Hs|apply P; left; reflexivity]).
  destruct H as [<-|H]; [exact Hv|]. eapply IH; [exact Hv| |exact H]. intros w Hw. apply P. right. exact Hw.
Qed.

(** ** The ordinates of the grid. *)
Lemma dup_perm l l' : Permutation l l' -> Permutation (dup l) (dup l').
Proof.
  induction 1 as [|x l l' P IH|x y l|l l' l'' P1 IH1 P2 IH2]; cbn [dup]; [reflexivity|do 2 apply perm_skip; exact IH| |eapply perm_trans; eassumption].
  change (Permutation ([y; y] ++ [x; x] ++ dup l) ([x; x] ++ [y; y] ++ dup l)). rewrite !app_assoc. apply Permutation_app_tail, Permutation_app_comm.
Qed.
Lemma dup_twice l : Permutation (l ++ l) (dup l).
Proof. induction l as [|x l IH]; [reflexivity|]. cbn [app dup]. apply perm_skip. rewrite <- Permutation_middle. apply perm_skip, IH. Qed.
Lemma sorted_unique (l l' : list Qc) : StronglySorted Qcle l -> StronglySorted Qcle l' -> Permutation l l' -> l = l'.
Proof.
  intros S. revert l'. induction S as [|x l S IH F]; intros l' S' P; [apply Permutation_nil in P; subst; reflexivity|].
  destruct S' as [|y l' S' F']; [apply Permutation_sym, Permutation_nil in P; discriminate|]. rewrite Forall_forall in F, F'.
  assert (E : x = y).
  { apply Qcle_antisym.
    - assert (I : In y (x :: l)) by (eapply Permutation_in; [apply Permutation_sym, P|left; reflexivity]). destruct I as [->|I]; [apply Qcle_refl|apply F, I].
    - assert (I : In x (y :: l')) by (eapply Permutation_in; [apply P|left; reflexivity]). destruct I as [->|I]; [apply Qcle_refl|apply F', I]. }
  subst y. f_equal. apply IH; [exact S'|]. eapply Permutation_cons_inv, P.
Qed.
Lemma isort_unique l l' : StronglySorted Qcle l' -> Permutation l l' -> isort qleb l = l'.
Proof.
  intros S P. apply sorted_unique; [|exact S|eapply perm_trans; [apply Permutation_sym, isort_perm|exact P]].
  eapply sorted_weak; [|apply (isort_sorted qleb qleb_total qleb_trans)]. intros a b _ _ H. apply qleb_le, H.
Qed.
Lemma Qcle_of_lt (l : list Qc) : StronglySorted Qclt l -> StronglySorted Qcle l.
Proof. apply sorted_weak. intros a b _ _. apply Qclt_le_weak. Qed.
Lemma dup_in l x : In x (dup l) -> In x l.
Proof. induction l as [|y l IH]; intros H; [destruct H|]. cbn [dup] in H. destruct H as [->|[->|H]]; [left; reflexivity|left; reflexivity|right; apply IH, H]. Qed.
Lemma dup_sorted l : StronglySorted Qcle l -> StronglySorted Qcle (dup l).
Proof.
  induction 1 as [|x l S IH F]; [constructor|]. cbn [dup]. rewrite Forall_forall in F.
  constructor; [constructor; [exact IH|]|]; apply Forall_forall; [intros y Hy; apply F, dup_in, Hy|].
  intros y [<-|Hy]; [apply Qcle_refl|apply F, dup_in, Hy].
Qed.
Lemma dup_length l : length (dup l) = (2 * length l)%nat.
Proof. induction l as [|x l IH]; [reflexivity|]. cbn [dup length]. rewrite IH. lia. Qed.
Lemma dup_last l d : last (dup l) d = last l d.
Proof. induction l as [|x l IH]; [reflexivity|]. cbn [dup]. destruct l as [|y l]; [reflexivity|]. exact IH. Qed.

Section Grid.
  Variables (m : nat) (p : Z).
  Hypotheses (Ep : p = Z.of_nat (2 * m + 1)) (Hm : (2 <= m)%nat) (Hp : prime p).
  Definition heights : list Qc := map (fun i => Qc_of_Z (level 1 p (Z.of_nat i))) (seq 1 m).
  Definition rungs : list Qc := isort qleb heights.
  Lemma not_one : ~ (p | 1)%Z.
  Proof. intros H. apply Z.divide_1_r_nonneg in H; lia. Qed.
  Lemma heights_nodup : NoDup heights.
  Proof.
    unfold heights. apply NoDup_map_inj; [|apply seq_NoDup]. intros i j Hi Hj E. apply in_seq in Hi, Hj. apply Qc_of_Z_inj in E. unfold level in E.
    rewrite !Z.mul_1_l in E. apply mod_eq_divide in E; [|lia].
    replace (Z.of_nat i * Z.of_nat i - Z.of_nat j * Z.of_nat j)%Z with ((Z.of_nat i - Z.of_nat j) * (Z.of_nat i + Z.of_nat j))%Z in E by ring.
    apply prime_mult in E; [|exact Hp]. destruct E as [E|E]; apply small_divide in E; lia.
  Qed.
  Lemma rungs_spec : StronglySorted Qclt (0 :: rungs) /\ length rungs = m /\ (forall r, In r rungs -> exists z, r = Qc_of_Z z /\ (0 < z < p)%Z).
  Proof.
    assert (G : forall r, In r rungs -> exists z, r = Qc_of_Z z /\ (0 < z < p)%Z).
    { intros r Hr. unfold rungs in Hr. apply (proj1 (isort_in qleb _ _)) in Hr. apply in_map_iff in Hr. destruct Hr as (i & <- & Hi). apply in_seq in Hi. eexists. split; [reflexivity|].
      pose proof (level_bound 1 p (Z.of_nat i) ltac:(lia)). pose proof (level_positive 1 p (Z.of_nat i) Hp not_one ltac:(lia)). lia. }
    split; [|split; [unfold rungs, heights; rewrite isort_length, map_length, seq_length; reflexivity|exact G]].
    constructor; [apply isort_strict, heights_nodup|]. apply Forall_forall. intros r Hr. destruct (G r Hr) as (z & -> & Hz). change (Q2Qc 0) with (Qc_of_Z 0). apply Qc_of_Z_lt. lia.
  Qed.
  Lemma rungs_nonempty : rungs <> [].
  Proof. intros E. pose proof (proj1 (proj2 rungs_spec)) as L. rewrite E in L. cbn in L. lia. Qed.
  Definition rows : list Qc := map Qc_of_Z (zrange p).
  Lemma rows_spec : StronglySorted Qclt rows /\ lenZ rows = p /\ (forall y, In y rows -> exists z, y = Qc_of_Z z /\ (0 <= z < p)%Z) /\ forall i, (0 <= i < p)%Z -> nth_coordinate rows i = Qc_of_Z i.
  Proof.
    split; [|split; [|split]].
    - unfold rows, zrange. rewrite map_map.
      assert (G : forall k s, StronglySorted Qclt (map (fun i => Qc_of_Z (Z.of_nat i)) (seq s k))).
      { clear. induction k as [|k IH]; intros s; [constructor|]. cbn [seq map]. constructor; [apply IH|]. apply Forall_forall. intros x Hx. apply in_map_iff in Hx.
        destruct Hx as (i & <- & Hi). apply in_seq in Hi. apply Qc_of_Z_lt. lia. }
      apply G.
    - unfold rows, lenZ. rewrite map_length, zrange_length. lia.
    - intros y Hy. apply in_map_iff in Hy. destruct Hy as (z & <- & Hz). apply in_zrange in Hz. exists z. auto.
    - intros i Hi. unfold nth_coordinate, rows, zrange. rewrite map_map. rewrite (nth_indep _ _ (Qc_of_Z (Z.of_nat 0))) by (rewrite map_length, seq_length; lia).
      rewrite (map_nth (fun x => Qc_of_Z (Z.of_nat x))). rewrite seq_nth by lia. f_equal. lia.
  Qed.
  Lemma grid_rows xl : lenZ xl = p -> isort qleb (map py (grid_points xl rows p 1 true)) = 0 :: dup rungs.
  Proof.
    intros _. apply isort_unique.
    - destruct rungs_spec as (S & _). inversion S as [|? ? S' F]; subst. constructor; [apply dup_sorted, Qcle_of_lt, S'|]. rewrite Forall_forall in F.
      apply Forall_forall. intros r Hr. apply Qclt_le_weak, F, dup_in, Hr.
    - assert (E : map py (grid_points xl rows p 1 true) = map (fun i => Qc_of_Z (level 1 p (Z.of_nat i))) (seq 0 (2 * m + 1))).
      { unfold grid_points. rewrite !map_map. replace (Z.to_nat p) with (2 * m + 1)%nat by lia. apply map_ext_in. intros i Hi. apply in_seq in Hi. cbn [py].
        apply (proj2 (proj2 (proj2 rows_spec))). apply Z.mod_pos_bound. lia. }
      rewrite E. replace (2 * m + 1)%nat with (S (m + m)) by lia. cbn [seq map]. rewrite level_zero by lia. change (Qc_of_Z 0) with (Q2Qc 0). apply perm_skip.
      rewrite seq_app, map_app. change (1 + m)%nat with (S m). fold heights.
      assert (P2 : Permutation (map (fun i => Qc_of_Z (level 1 p (Z.of_nat i))) (seq (S m) m)) heights).
      { assert (Q : Permutation (seq (S m) m) (map (fun i => (2 * m + 1 - i)%nat) (seq 1 m))).
        { apply NoDup_Permutation; [apply seq_NoDup|apply NoDup_map_inj; [|apply seq_NoDup]; intros i j Hi Hj; apply in_seq in Hi, Hj; lia|].
          intros i. rewrite in_map_iff. setoid_rewrite in_seq. split; [intros H; exists (2 * m + 1 - i)%nat; lia|intros (j & H); lia]. }
        rewrite (Permutation_map _ Q), map_map. unfold heights. erewrite map_ext_in; [reflexivity|]. intros i Hi. apply in_seq in Hi. cbn beta. f_equal.
        replace (Z.of_nat (2 * m + 1 - i)) with (p - Z.of_nat i)%Z by lia. apply level_mirror. lia. }
      rewrite P2, dup_twice. apply dup_perm. apply isort_perm.
  Qed.
  Lemma grid_columns xl : lenZ xl = p -> StronglySorted Qclt xl -> isort qleb (map px (grid_points xl rows p 1 true)) = xl.
  Proof.
    intros L S. replace (map px (grid_points xl rows p 1 true)) with xl; [apply isort_id, S|]. unfold grid_points. rewrite !map_map. cbn [px].
    replace (Z.to_nat p) with (length xl) by (unfold lenZ in L; lia). clear. unfold nth_coordinate.
    erewrite map_ext_in; [|intros i Hi; rewrite Nat2Z.id; reflexivity]. induction xl as [|x xl IH]; [reflexivity|]. cbn [length seq map nth].
    f_equal. rewrite <- seq_shift, map_map. exact IH.
  Qed.
  Lemma grid_length xl : length (grid_points xl rows p 1 true) = (2 * m + 1)%nat.
  Proof. unfold grid_points. rewrite !map_length, seq_length. lia. Qed.
End Grid.
