(** The vertices next to each other in a compressed contour are different, whatever the list. *)
From Verif Require Import Base Geometry Factories Prog Spec QcTac ProgProofs GeomProofs ListProofs CyclicProofs CompressProofs.

Definition at_ (l : list point) (i : nat) : point := nth i l origin_.
Lemma at_remove k : forall l i, k < length l -> at_ (remove_nth k l) i = if i <? k then at_ l i else at_ l (S i).
Proof.
  unfold at_. induction k as [|k IH]; intros [|x l] i Hk; try (cbn in Hk; lia); [reflexivity|].
  cbn [remove_nth]. destruct i as [|i]; [reflexivity|]. cbn [nth]. rewrite IH by (cbn in Hk; lia). reflexivity.
Qed.
Lemma remove_len {A} k (l : list A) : k < length l -> length (remove_nth k l) = length l - 1.
Proof. intros H. pose proof (remove_nth_length k l H). lia. Qed.
Lemma vget_at vs i : (0 <= i < lenZ vs)%Z -> vget vs i = at_ vs (Z.to_nat i).
Proof. apply vget_nonneg. Qed.
Lemma vget_at_neg vs i : (- lenZ vs <= i < 0)%Z -> vget vs i = at_ vs (Z.to_nat (lenZ vs + i)).
Proof. apply vget_neg. Qed.
Lemma py_del_pos {A} (l : list A) i : (0 <= i < lenZ l)%Z -> py_del l i = remove_nth (Z.to_nat i) l.
Proof.
  intros H. unfold py_del, py_index. unfold lenZ in H.
  replace (0 <=? i)%Z with true by lia. replace (i <? Z.of_nat (length l))%Z with true by lia. reflexivity.
Qed.
Lemma py_del_neg {A} (l : list A) i : (- lenZ l <= i < 0)%Z -> py_del l i = remove_nth (Z.to_nat (lenZ l + i)) l.
Proof.
  intros H. unfold py_del, py_index. unfold lenZ in *.
  replace (0 <=? i)%Z with false by lia. replace (- Z.of_nat (length l) <=? i)%Z with true by lia. reflexivity.
Qed.
Lemma is_collinear_false v a b : is_collinear v a b = false -> ~ collinear v a b.
Proof. intros H C. apply is_collinear_spec in C. congruence. Qed.
Lemma not_collinear_distinct a b c : ~ collinear a b c -> a <> b /\ b <> c /\ a <> c.
Proof. intros H. repeat split; intros ->; apply H; unfold collinear, cross; ring. Qed.

(** The triples that start at the positions [i] with [lo <= i < hi] have no straight angle. *)
Definition bent (lo hi : nat) (l : list point) : Prop :=
  forall i, lo <= i < hi -> S (S i) < length l -> ~ collinear (at_ l (S i)) (at_ l (S (S i))) (at_ l i).
Lemma bent_remove_after lo hi k l : bent lo hi l -> k < length l -> hi + 2 <= k + 1 -> bent lo (hi - 1) (remove_nth k l).
Proof.
  intros H Hk Hh i Hi Hl. rewrite remove_len in Hl by exact Hk. rewrite !at_remove by exact Hk.
  replace (S (S i) <? k) with true by (symmetry; apply Nat.ltb_lt; lia).
  replace (S i <? k) with true by (symmetry; apply Nat.ltb_lt; lia).
  replace (i <? k) with true by (symmetry; apply Nat.ltb_lt; lia). apply H; lia.
Qed.
Lemma bent_weaken lo hi lo' hi' l : bent lo hi l -> lo <= lo' -> hi' <= hi -> bent lo' hi' l.
Proof. intros H H1 H2 i Hi. apply H. lia. Qed.

(** Phase 1. *)
Lemma down_bent fuel : forall n vs, 1 <= n <= length vs -> length vs <= fuel + 2 -> bent 1 (length vs - n) vs ->
  let vs' := compress_down fuel (- Z.of_nat n) vs in
  bent 1 (S (length vs' - n)) vs' /\ n <= length vs' /\ length vs' <= length vs.
Proof.
  induction fuel as [|fuel IH]; intros n vs Hn Hf Hb; cbn zeta.
  { cbn [compress_down]. split; [|lia]. intros i Hi Hl. lia. }
  cbn [compress_down]. destruct (Z.max 2 (- - Z.of_nat n) <? lenZ vs)%Z eqn:E1; cbn [andb].
  2:{ split; [|lia]. apply Z.ltb_ge in E1. unfold lenZ in E1. intros i Hi Hl. lia. }
  apply Z.ltb_lt in E1. unfold lenZ in E1.
  destruct (is_collinear _ _ _) eqn:E2.
  - destruct (Nat.eq_dec n 1) as [-> |N1].
    + replace (- Z.of_nat 1 + 1)%Z with 0%Z by lia. rewrite py_del_pos by (unfold lenZ; lia). cbn [Z.to_nat].
      assert (L0 : 0 < length vs) by lia.
      assert (Hb' : bent 1 (length (remove_nth 0 vs) - 1) (remove_nth 0 vs)).
      { intros i Hi Hl. rewrite remove_len in Hl by exact L0. rewrite !at_remove by exact L0.
        change (S (S i) <? 0) with false. change (S i <? 0) with false. change (i <? 0) with false.
        apply Hb; lia. }
      destruct (IH 1 (remove_nth 0 vs)) as (K1 & K2 & K3); [rewrite remove_len by exact L0; lia..|exact Hb'|].
      split; [exact K1|]. rewrite remove_len in K3 by exact L0. lia.
    + rewrite py_del_neg by (unfold lenZ; lia).
      set (k := Z.to_nat (lenZ vs + (- Z.of_nat n + 1))). assert (Ek : k = length vs - n + 1) by (unfold k, lenZ; lia).
      assert (Lk : k < length vs) by lia.
      destruct (IH n (remove_nth k vs)) as (K1 & K2 & K3); [rewrite remove_len by exact Lk; lia..| |].
      * rewrite remove_len by exact Lk. replace (length vs - 1 - n) with (length vs - n - 1) by lia.
        apply bent_remove_after; [exact Hb|exact Lk|lia].
      * split; [exact K1|]. rewrite remove_len in K3 by exact Lk. lia.
  - split; [|lia]. intros i Hi Hl. destruct (Nat.eq_dec i (length vs - n)) as [-> |Ni]; [|apply Hb; lia].
    apply is_collinear_false in E2. rewrite !vget_at_neg in E2 by (unfold lenZ; lia). unfold lenZ in E2.
    replace (Z.to_nat (Z.of_nat (length vs) + (- Z.of_nat n + 1))) with (S (length vs - n)) in E2 by lia.
    replace (Z.to_nat (Z.of_nat (length vs) + (- Z.of_nat n + 2))) with (S (S (length vs - n))) in E2 by lia.
    replace (Z.to_nat (Z.of_nat (length vs) + - Z.of_nat n)) with (length vs - n) in E2 by lia. exact E2.
Qed.
Lemma phase1_bent n : forall vs, n <= length vs -> bent 1 (length vs - n) vs ->
  bent 1 (length (compress_phase1 n vs)) (compress_phase1 n vs).
Proof.
  induction n as [|n IH]; intros vs Hn Hb; cbn [compress_phase1].
  { rewrite Nat.sub_0_r in Hb. exact Hb. }
  destruct (down_bent (length vs) (S n) vs) as (K1 & K2 & K3); [lia|lia|exact Hb|].
  apply IH; [lia|]. eapply bent_weaken; [exact K1|lia|lia].
Qed.

(** Phase 2: indices 0, 1, 2 and the others. *)
Lemma up0 fuel : forall vs, length vs <= fuel + 2 -> bent 1 (length vs) vs ->
  let vs' := compress_up fuel 0 vs in bent 1 (length vs') vs' /\ length vs' <= length vs.
Proof.
  induction fuel as [|fuel IH]; intros vs Hf Hb; cbn zeta; [split; [exact Hb|apply le_n]|].
  cbn [compress_up]. destruct (Z.max 2 0 <? lenZ vs)%Z eqn:E1; cbn [andb]; [|split; [exact Hb|apply le_n]].
  apply Z.ltb_lt in E1. unfold lenZ in E1. destruct (is_collinear _ _ _); [|split; [exact Hb|apply le_n]].
  rewrite py_del_neg by (unfold lenZ; lia). set (k := Z.to_nat _). assert (Ek : k = length vs - 1) by (unfold k, lenZ; lia).
  assert (Lk : k < length vs) by lia.
  destruct (IH (remove_nth k vs)) as (K1 & K2); [rewrite remove_len by exact Lk; lia| |].
  - rewrite remove_len by exact Lk. intros i Hi Hl. rewrite remove_len in Hl by exact Lk. rewrite !at_remove by exact Lk.
    replace (S (S i) <? k) with true by (symmetry; apply Nat.ltb_lt; lia).
    replace (S i <? k) with true by (symmetry; apply Nat.ltb_lt; lia).
    replace (i <? k) with true by (symmetry; apply Nat.ltb_lt; lia). apply Hb; lia.
  - split; [exact K1|]. rewrite remove_len in K2 by exact Lk. lia.
Qed.
Lemma up1 fuel : forall vs, length vs <= fuel + 2 -> bent 1 (length vs) vs ->
  let vs' := compress_up fuel 1 vs in bent 1 (length vs') vs' /\ length vs' <= length vs
    /\ (3 <= length vs' -> ~ collinear (at_ vs' 0) (at_ vs' (length vs' - 1)) (at_ vs' 1)).
Proof.
  induction fuel as [|fuel IH]; intros vs Hf Hb; cbn zeta; [split; [exact Hb|split; [apply le_n|cbn; lia]]|].
  cbn [compress_up]. destruct (Z.max 2 1 <? lenZ vs)%Z eqn:E1; cbn [andb].
  2:{ split; [exact Hb|]. split; [apply le_n|]. apply Z.ltb_ge in E1. unfold lenZ in E1. lia. }
  apply Z.ltb_lt in E1. unfold lenZ in E1. destruct (is_collinear _ _ _) eqn:E2.
  - rewrite py_del_pos by (unfold lenZ; lia). change (Z.to_nat (1 - 1)) with 0.
    assert (L0 : 0 < length vs) by lia.
    destruct (IH (remove_nth 0 vs)) as (K1 & K2 & K3); [rewrite remove_len by exact L0; lia| |].
    + intros i Hi Hl. rewrite remove_len in Hl by exact L0. rewrite !at_remove by exact L0.
      change (S (S i) <? 0) with false. change (S i <? 0) with false. change (i <? 0) with false. apply Hb; lia.
    + split; [exact K1|]. rewrite remove_len in K2 by exact L0. split; [lia|exact K3].
  - split; [exact Hb|]. split; [apply le_n|]. intros _. apply is_collinear_false in E2.
    rewrite (vget_at_neg vs (1 - 2)), !vget_at in E2 by (unfold lenZ; lia).
    unfold lenZ in E2. replace (Z.to_nat (Z.of_nat (length vs) + (1 - 2))) with (length vs - 1) in E2 by lia. exact E2.
Qed.
Lemma up2 fuel : forall vs, length vs <= fuel + 2 -> bent 1 (length vs) vs ->
  let vs' := compress_up fuel 2 vs in length vs' <= length vs /\
    (3 <= length vs' -> bent 0 (length vs') vs' /\ at_ vs' 0 = at_ vs 0 /\ at_ vs' (length vs' - 1) = at_ vs (length vs - 1)).
Proof.
  induction fuel as [|fuel IH]; intros vs Hf Hb; cbn zeta; [split; [apply le_n|cbn; lia]|].
  cbn [compress_up]. destruct (Z.max 2 2 <? lenZ vs)%Z eqn:E1; cbn [andb].
  2:{ split; [apply le_n|]. apply Z.ltb_ge in E1. unfold lenZ in E1. lia. }
  apply Z.ltb_lt in E1. unfold lenZ in E1. destruct (is_collinear _ _ _) eqn:E2.
  - rewrite py_del_pos by (unfold lenZ; lia). change (Z.to_nat (2 - 1)) with 1.
    assert (L1 : 1 < length vs) by lia.
    destruct (IH (remove_nth 1 vs)) as (K1 & K2); [rewrite remove_len by exact L1; lia| |].
    + intros i Hi Hl. rewrite remove_len in Hl by exact L1. rewrite !at_remove by exact L1.
      replace (S (S i) <? 1) with false by (symmetry; apply Nat.ltb_ge; lia).
      replace (S i <? 1) with false by (symmetry; apply Nat.ltb_ge; lia).
      replace (i <? 1) with false by (symmetry; apply Nat.ltb_ge; lia). apply Hb; lia.
    + rewrite remove_len in K1 by exact L1. split; [lia|]. intros H3. destruct (K2 H3) as (B1 & B2 & B3). split; [exact B1|].
      rewrite !at_remove in B2, B3 by exact L1. rewrite remove_len in B3 by exact L1. split; [exact B2|].
      rewrite B3. replace (length vs - 1 - 1 <? 1) with false by (symmetry; apply Nat.ltb_ge; lia).
      f_equal. lia.
  - split; [apply le_n|]. intros _. split; [|split; reflexivity]. intros i Hi Hl. destruct i as [|i]; [|apply Hb; lia].
    apply is_collinear_false in E2. rewrite !vget_at in E2 by (unfold lenZ; lia).
    change (Z.to_nat (2 - 1)) with 1 in E2. change (Z.to_nat (2 - 2)) with 0 in E2. change (Z.to_nat 2) with 2 in E2.
    intros C. apply E2. apply collinear_swap. exact C.
Qed.
Lemma up_more fuel k vs : (3 <= k)%Z -> bent 0 (length vs) vs -> compress_up fuel k vs = vs.
Proof.
  intros Hk Hb. destruct fuel as [|fuel]; [reflexivity|]. cbn [compress_up].
  destruct (Z.max 2 k <? lenZ vs)%Z eqn:E1; cbn [andb]; [|reflexivity]. apply Z.ltb_lt in E1. unfold lenZ in E1.
  destruct (is_collinear _ _ _) eqn:E2; [|reflexivity]. exfalso. apply is_collinear_spec in E2.
  rewrite !vget_at in E2 by (unfold lenZ; lia). apply (Hb (Z.to_nat (k - 2))); [lia|lia|].
  replace (S (Z.to_nat (k - 2))) with (Z.to_nat (k - 1)) by lia.
  replace (S (Z.to_nat (k - 1))) with (Z.to_nat k) by lia. apply collinear_swap. exact E2.
Qed.
Lemma phase2_more fuel : forall k vs, (3 <= k)%Z -> bent 0 (length vs) vs -> compress_phase2 fuel k vs = vs.
Proof.
  induction fuel as [|fuel IH]; intros k vs Hk Hb; [reflexivity|]. cbn [compress_phase2].
  destruct (k <? lenZ vs)%Z; [|reflexivity]. rewrite up_more by assumption. apply IH; [lia|exact Hb].
Qed.
Lemma phase2_small fuel k vs : length vs <= 2 -> length (compress_phase2 fuel k vs) <= 2.
Proof. intros H. rewrite compress_phase2_small by exact H. exact H. Qed.

Lemma compress_adjacent_at vs : let r := compress_contour vs in 3 <= length r ->
  bent 0 (length r) r /\ at_ r (length r - 1) <> at_ r 0.
Proof.
  intros r. unfold r, compress_contour. destruct vs as [|v vs']; [cbn; lia|]. set (vs := v :: vs') in *. clearbody vs.
  set (vs1 := compress_phase1 (length vs - 1) vs).
  assert (B1 : bent 1 (length vs1) vs1) by (apply phase1_bent; [lia|intros i Hi; lia]). clearbody vs1. clear v vs' vs r.
  cbn [compress_phase2]. destruct (0 <? lenZ vs1)%Z eqn:E0; [|unfold lenZ in E0; lia].
  destruct (up0 (length vs1) vs1) as (B2 & L2); [lia|exact B1|].
  set (vs2 := compress_up (length vs1) 0 vs1) in *. clearbody vs2.
  destruct (length vs1) as [|fuel] eqn:El1; [unfold lenZ in E0; rewrite El1 in E0; discriminate|]. clear E0.
  destruct (le_lt_dec (length vs2) 2) as [S2|S2].
  { intros H. exfalso. pose proof (phase2_small (S fuel) (0 + 1) vs2 S2). lia. }
  change (0 + 1)%Z with 1%Z. cbn [compress_phase2].
  destruct (1 <? lenZ vs2)%Z eqn:E2; [|apply Z.ltb_ge in E2; unfold lenZ in E2; lia].
  destruct (up1 (length vs2) vs2) as (B3 & L3 & N3); [lia|exact B2|].
  set (vs3 := compress_up (length vs2) 1 vs2) in *. clearbody vs3.
  destruct fuel as [|fuel]; [lia|].
  destruct (le_lt_dec (length vs3) 2) as [S3|S3].
  { intros H. exfalso. pose proof (phase2_small (S fuel) (1 + 1) vs3 S3). lia. }
  specialize (N3 ltac:(lia)).
  change (1 + 1)%Z with 2%Z. cbn [compress_phase2].
  destruct (2 <? lenZ vs3)%Z eqn:E3; [|apply Z.ltb_ge in E3; unfold lenZ in E3; lia].
  destruct (up2 (length vs3) vs3) as (L4 & K4); [lia|exact B3|].
  set (vs4 := compress_up (length vs3) 2 vs3) in *. clearbody vs4.
  destruct (le_lt_dec (length vs4) 2) as [S4|S4].
  { intros H. exfalso. pose proof (phase2_small fuel (2 + 1) vs4 S4). lia. }
  destruct (K4 ltac:(lia)) as (B4 & H0 & H1). rewrite phase2_more by (assumption || lia).
  intros _. split; [exact B4|]. rewrite H0, H1. apply not_collinear_distinct in N3. intros E. apply (proj1 N3). congruence.
Qed.
Lemma at_nth_error l i a : nth_error l i = Some a -> at_ l i = a.
Proof. intros H. unfold at_. apply nth_error_nth. exact H. Qed.
Lemma compress_adjacent vs a b : 3 <= length (compress_contour vs) -> contour_edge (compress_contour vs) a b -> a <> b.
Proof.
  intros H3 (i & Ha & Hb). destruct (compress_adjacent_at vs H3) as (B & N). set (r := compress_contour vs) in *.
  assert (Hi : i < length r) by (apply nth_error_Some; congruence).
  destruct (Nat.eq_dec (S i) (length r)) as [E|E].
  - rewrite <- E, Nat.mod_same in Hb by lia. apply at_nth_error in Ha, Hb.
    replace (length r - 1) with i in N by lia. congruence.
  - rewrite Nat.mod_small in Hb by lia. apply at_nth_error in Ha, Hb. subst a b.
    destruct (le_lt_dec (length r) (S (S i))) as [L|L].
    + destruct i as [|i]; [lia|]. pose proof (B i ltac:(lia) ltac:(lia)) as C. apply not_collinear_distinct in C. tauto.
    + pose proof (B i ltac:(lia) L) as C. apply not_collinear_distinct in C. intros E'. apply (proj2 (proj2 C)). auto.
Qed.
