(** [compress_contour] (factories.py:343-367). *)
From Verif Require Import Base Geometry Factories Prog Spec QcTac ProgProofs GeomProofs ListProofs CyclicProofs.
From Coq Require Import Lqa.

Definition origin_ : point := Pt (Q2Qc 0) (Q2Qc 0).
Lemma vget_nonneg vs i : (0 <= i < lenZ vs)%Z -> vget vs i = nth (Z.to_nat i) vs origin_.
Proof.
  intros H. unfold vget. rewrite py_get_nth by exact H.
  rewrite (nth_error_nth' vs origin_); [reflexivity|]. unfold lenZ in H. lia.
Qed.
Lemma vget_neg vs i : (- lenZ vs <= i < 0)%Z -> vget vs i = nth (Z.to_nat (lenZ vs + i)) vs origin_.
Proof.
  intros H. unfold vget, py_get, py_index. unfold lenZ in *.
  replace (0 <=? i)%Z with false by lia.
  replace (- Z.of_nat (length vs) <=? i)%Z with true by lia.
  rewrite (nth_error_nth' vs origin_); [reflexivity|]. lia.
Qed.
Lemma remove_nth_split {A} (l1 : list A) b l2 : remove_nth (length l1) (l1 ++ b :: l2) = l1 ++ l2.
Proof. induction l1 as [|x l1 IH]; cbn; [reflexivity|]. rewrite IH. reflexivity. Qed.

Lemma del_at vs m : 3 <= length vs -> (- lenZ vs < m < lenZ vs - 1)%Z ->
  exists l1 b l2, vs = l1 ++ b :: l2 /\ (Z.of_nat (length l1) = m mod lenZ vs)%Z
    /\ py_del vs m = l1 ++ l2 /\ vget vs m = b
    /\ exists c w, l2 ++ l1 = c :: w /\ vget vs (m + 1) = c /\ last (l2 ++ l1) c = vget vs (m - 1).
Proof.
  intros Hl Hm.
  set (p := Z.to_nat (m mod lenZ vs)).
  assert (Hb : (0 <= m mod lenZ vs < lenZ vs)%Z) by (apply Z.mod_pos_bound; unfold lenZ; lia).
  assert (Hp : p < length vs) by (unfold p, lenZ in *; lia).
  assert (Hmp : (m mod lenZ vs = if (0 <=? m)%Z then m else lenZ vs + m)%Z).
  { destruct (Z.leb_spec 0 m).
    - apply Z.mod_small. lia.
    - symmetry. apply (Z.mod_unique _ _ (-1)); lia. }
  assert (Hn : nth_error vs p <> None) by (apply nth_error_Some; exact Hp).
  destruct (nth_error vs p) as [b|] eqn:Eb; [|congruence].
  apply nth_error_split in Eb. destruct Eb as (l1 & l2 & Ev & El).
  exists l1, b, l2. split; [exact Ev|]. split; [unfold p in El; lia|].
  assert (Hlen : lenZ vs = (Z.of_nat (length l1) + 1 + Z.of_nat (length l2))%Z).
  { unfold lenZ. rewrite Ev, app_length. cbn. lia. }
  assert (Hpz : Z.of_nat (length l1) = (if (0 <=? m)%Z then m else lenZ vs + m)%Z).
  { rewrite El. unfold p. rewrite Z2Nat.id by lia. exact Hmp. }
  split.
  { unfold py_del, py_index. fold (lenZ vs). destruct (Z.leb_spec 0 m).
    - replace (m <? lenZ vs)%Z with true by lia.
      replace (Z.to_nat m) with (length l1) by lia. rewrite Ev. apply remove_nth_split.
    - replace (- lenZ vs <=? m)%Z with true by lia.
      replace (Z.to_nat (lenZ vs + m)) with (length l1) by lia. rewrite Ev. apply remove_nth_split. }
  split.
  { destruct (Z.leb_spec 0 m); [rewrite vget_nonneg by lia | rewrite vget_neg by lia];
    [replace (Z.to_nat m) with (length l1) by lia | replace (Z.to_nat (lenZ vs + m)) with (length l1) by lia];
    rewrite Ev at 1; rewrite app_nth2 by lia; rewrite Nat.sub_diag; reflexivity. }
  assert (Hne : l2 ++ l1 <> []).
  { intros E. apply app_eq_nil in E. destruct E as (-> & ->). rewrite Ev in Hl. cbn in Hl. lia. }
  destruct (l2 ++ l1) as [|c w] eqn:Ew; [congruence|]. exists c, w. split; [reflexivity|]. split.
  - destruct l2 as [|c' l2].
    + (* the last vertex: m = -1 *)
      assert (m = -1)%Z by (cbn in Hlen; destruct (Z.leb_spec 0 m); lia). subst m.
      rewrite vget_nonneg by lia. cbn [app] in Ew. subst l1. rewrite Ev. reflexivity.
    + cbn [app] in Ew. injection Ew as -> Ew.
      cbn [length] in Hlen.
      destruct (Z.leb_spec 0 m).
      * rewrite vget_nonneg by lia. replace (Z.to_nat (m + 1)) with (length l1 + 1) by lia.
        rewrite Ev. rewrite app_nth2 by lia. replace (length l1 + 1 - length l1) with 1 by lia. reflexivity.
      * rewrite vget_neg by lia. replace (Z.to_nat (lenZ vs + (m + 1))) with (length l1 + 1) by lia.
        rewrite Ev at 1. rewrite app_nth2 by lia. replace (length l1 + 1 - length l1) with 1 by lia. reflexivity.
  - rewrite <- Ew.
    destruct (Z.eq_dec m 0) as [->|Hm0].
    + (* the first vertex *)
      assert (length l1 = 0) by (cbn in Hpz; lia). destruct l1; [|cbn in *; lia].
      rewrite app_nil_r. cbn [app] in Ev. rewrite vget_neg by lia.
      assert (l2 <> []) by (intros ->; rewrite Ev in Hl; cbn in Hl; lia).
      destruct (exists_last H0) as (l & a & E). rewrite E, last_last.
      rewrite Ev, E. unfold lenZ. cbn [length]. rewrite app_length. cbn [length].
      replace (Z.to_nat (Z.of_nat (S (length l + 1)) + (0 - 1))) with (S (length l)) by lia.
      cbn [nth]. rewrite app_nth2 by lia. rewrite Nat.sub_diag. reflexivity.
    + assert (l1 <> []).
      { intros ->. cbn in Hpz. destruct (Z.leb_spec 0 m); lia. }
      destruct (exists_last H) as (l & a & E). rewrite E in *. rewrite app_assoc, last_last.
      rewrite app_length in Hpz. cbn [length] in Hpz.
      destruct (Z.leb_spec 0 m).
      * rewrite vget_nonneg by lia. replace (Z.to_nat (m - 1)) with (length l) by lia.
        rewrite Ev, <- app_assoc, app_nth2 by lia. rewrite Nat.sub_diag. reflexivity.
      * rewrite vget_neg by lia. replace (Z.to_nat (lenZ vs + (m - 1))) with (length l) by lia.
        rewrite Ev at 1. rewrite <- app_assoc, app_nth2 by lia. rewrite Nat.sub_diag. reflexivity.
Qed.

Lemma is_collinear_spec v a b : is_collinear v a b = true <-> collinear v a b.
Proof. unfold is_collinear. rewrite orientation_eqb_eq. apply orientation_col. Qed.
Lemma collinear_rot a b c : collinear a b c <-> collinear b c a.
Proof. unfold collinear, cross. split; intros H; rewrite <- H; ring. Qed.
Lemma collinear_swap a b c : collinear a b c -> collinear a c b.
Proof.
  unfold collinear, cross. intros H.
  transitivity (- ((px b - px a) * (py c - py a) - (py b - py a) * (px c - px a)))%Qc; [ring|].
  rewrite H. ring.
Qed.

(** ** Deletion steps. *)
Inductive drop1 : contour -> contour -> Prop :=
| drop1_intro l1 b l2 : 2 <= length (l1 ++ l2) -> collinear_between l1 b l2 ->
    drop1 (l1 ++ b :: l2) (l1 ++ l2).
Inductive drops : contour -> contour -> Prop :=
| drops_refl l : drops l l
| drops_step l m n : drop1 l m -> drops m n -> drops l n.
Lemma drops_trans l m n : drops l m -> drops m n -> drops l n.
Proof. induction 1; auto. intros. eapply drops_step; eauto. Qed.

Lemma drop1_nodup l m : drop1 l m -> NoDup l -> NoDup m.
Proof. intros []. apply NoDup_remove_1. Qed.
Lemma drops_nodup l m : drops l m -> NoDup l -> NoDup m.
Proof. induction 1; auto. intros Hd. apply IHdrops. eapply drop1_nodup; eauto. Qed.
Lemma drop1_subsequence l m : drop1 l m -> subsequence m l.
Proof.
  intros [l1 b l2 _ _]. induction l1 as [|x l1 IH]; cbn; [apply sub_skip, subsequence_refl|].
  apply sub_keep, IH.
Qed.
Lemma subsequence_trans {A} (l m n : list A) : subsequence l m -> subsequence m n -> subsequence l n.
Proof.
  intros H1 H2. revert l H1. induction H2 as [|x m n H2 IH|x m n H2 IH]; intros l H1.
  - exact H1.
  - apply sub_skip, IH, H1.
  - inversion H1; subst; [apply sub_skip, IH; assumption | apply sub_keep, IH; assumption].
Qed.
Lemma drops_subsequence l m : drops l m -> subsequence m l.
Proof.
  induction 1; [apply subsequence_refl|]. eapply subsequence_trans; [exact IHdrops|].
  apply drop1_subsequence; assumption.
Qed.
Lemma drops_area l m : drops l m -> doubled_area m = doubled_area l.
Proof.
  induction 1 as [|l m n H1 H2 IH]; [reflexivity|]. rewrite IH. destruct H1 as [l1 b l2 Hl Hc].
  symmetry. apply area_drop; [lia|exact Hc].
Qed.
Lemma drop1_turn l m : drop1 l m -> exists a b c, In (a, b, c) (cyc l) /\ collinear a b c.
Proof.
  intros [l1 b l2 Hl (a & c & w & Ew & Ea & Hcol)]. exists a, b, c. split; [|exact Hcol].
  assert (H2 : length (l2 ++ l1) = length (l1 ++ l2)) by (rewrite !app_length; lia).
  destruct w as [|d w]; [rewrite Ew in H2; cbn in H2; lia|].
  assert (Hw : d :: w <> []) by discriminate.
  destruct (exists_last Hw) as (l0 & a' & E). rewrite E in *.
  assert (a' = a).
  { rewrite <- Ea, Ew. change (c :: l0 ++ [a']) with ((c :: l0) ++ [a']). rewrite last_last. reflexivity. }
  subst a'.
  apply (cyc_rot (b :: l2) l1); [rewrite app_length in *; cbn; lia|].
  cbn [app]. rewrite Ew. change (b :: c :: l0 ++ [a]) with ((b :: c :: l0) ++ [a]).
  apply (cyc_rot [a] (b :: c :: l0)); [cbn; lia|]. cbn [app]. apply cyc_head.
Qed.
Lemma drops_strict l m : drops l m -> strict l -> m = l.
Proof.
  intros H Hs. destruct H as [|l' m' n H1 H2]; [reflexivity|]. exfalso.
  destruct (drop1_turn _ _ H1) as (x & y & z & Hin & Hc).
  assert (Hl' : 2 <= length l') by (destruct H1 as [l1 b l2 Hl _]; rewrite app_length in *; cbn; lia).
  exact (proj1 (strict_good l' Hl') Hs _ _ _ Hin Hc).
Qed.
Lemma drops_good l m x : drops l m -> NoDup l -> 3 <= length m -> good l x -> good m x.
Proof.
  induction 1 as [|l m n H1 H2 IH]; auto. intros Hd Hl Hg.
  pose proof (drop1_nodup _ _ H1 Hd) as Hd'. apply IH; [exact Hd'|exact Hl|].
  destruct H1 as [l1 b l2 _ Hc]. apply (good_drop l1 b l2); auto.
  assert (Hle : forall u v, drops u v -> length v <= length u).
  { clear. induction 1 as [|l m n H1 H2 IH]; [lia|]. destruct H1. rewrite app_length in *. cbn. lia. }
  apply Hle in H2. lia.
Qed.
Lemma drops_length l m : drops l m -> length m <= length l.
Proof. induction 1 as [|l m n H1 H2 IH]; [lia|]. destruct H1. rewrite app_length in *. cbn. lia. Qed.

(** ** The two phases. *)
Lemma compress_down_drops fuel : forall n vs, 1 <= n -> drops vs (compress_down fuel (- Z.of_nat n) vs).
Proof.
  induction fuel as [|fuel IH]; intros n vs Hn; [apply drops_refl|]. cbn [compress_down].
  destruct ((Z.max 2 (- - Z.of_nat n) <? lenZ vs)%Z && _)%bool eqn:E; [|apply drops_refl].
  apply andb_true_iff in E. destruct E as (E1 & E2). apply is_collinear_spec in E2.
  unfold lenZ in E1.
  destruct (del_at vs (- Z.of_nat n + 1)) as (l1 & b & l2 & Ev & _ & Ed & Eb & c & w & Ew & Ec & Ea);
    [lia|unfold lenZ; lia|].
  eapply drops_step; [|apply IH; exact Hn]. rewrite Ed. rewrite Ev at 1. constructor.
  - rewrite Ev, app_length in E1. cbn [length] in E1. rewrite app_length. apply Z.ltb_lt in E1. lia.
  - exists (last (l2 ++ l1) c), c, w. split; [exact Ew|]. split; [reflexivity|].
    rewrite Ea, <- Eb, <- Ec. apply collinear_rot.
    replace (- Z.of_nat n + 1 + 1)%Z with (- Z.of_nat n + 2)%Z by lia.
    replace (- Z.of_nat n + 1 - 1)%Z with (- Z.of_nat n)%Z by lia. exact E2.
Qed.
Lemma compress_phase1_drops n vs : drops vs (compress_phase1 n vs).
Proof.
  revert vs. induction n as [|n IH]; intros vs; [apply drops_refl|]. cbn [compress_phase1].
  eapply drops_trans; [|apply IH]. apply compress_down_drops. lia.
Qed.

(** Everything about one run of [compress_up]. *)
Lemma compress_up_spec fuel : forall k vs, (0 <= k < lenZ vs)%Z -> length vs <= fuel + 2 ->
  let vs' := compress_up fuel k vs in
  drops vs vs' /\ (k <= lenZ vs')%Z
  /\ (NoDup vs -> 3 <= length vs' -> (k < lenZ vs')%Z -> good vs' (vget vs' (k - 1)))
  /\ (3 <= length vs' -> forall j, (-1 <= j < k - 1)%Z -> vget vs' j = vget vs j).
Proof.
  induction fuel as [|fuel IH]; intros k vs Hk Hf; cbn [compress_up].
  - cbn zeta. split; [apply drops_refl|]. split; [lia|]. split; [intros; lia|]. auto.
  - destruct ((Z.max 2 k <? lenZ vs)%Z && _)%bool eqn:E; cbn zeta.
    + apply andb_true_iff in E. destruct E as (E1 & E2). apply is_collinear_spec in E2.
      assert (Hl : 3 <= length vs) by (unfold lenZ in *; lia).
      destruct (del_at vs (k - 1) Hl) as (l1 & b & l2 & Ev & El & Ed & Eb & c & w & Ew & Ec & Ea); [lia|].
      assert (Hcol : collinear_between l1 b l2).
      { exists (last (l2 ++ l1) c), c, w. split; [exact Ew|]. split; [reflexivity|].
        rewrite Ea, <- Eb, <- Ec.
        replace (k - 1 - 1)%Z with (k - 2)%Z by lia. replace (k - 1 + 1)%Z with k by lia.
        apply collinear_swap. exact (proj1 (collinear_rot _ _ _) E2). }
      assert (Hlen : lenZ vs = (lenZ (l1 ++ l2) + 1)%Z).
      { unfold lenZ. rewrite Ev, !app_length. cbn. lia. }
      assert (Hd1 : drop1 vs (py_del vs (k - 1))).
      { rewrite Ed. rewrite Ev at 1. constructor; [|exact Hcol]. unfold lenZ in *. lia. }
      rewrite Ed in *.
      destruct (Z.eq_dec k (lenZ (l1 ++ l2))) as [Hke|Hke].
      * (* the index is now past the end *)
        assert (Hstop : compress_up fuel k (l1 ++ l2) = l1 ++ l2).
        { destruct fuel; cbn [compress_up]; [reflexivity|].
          replace (Z.max 2 k <? lenZ (l1 ++ l2))%Z with false by lia. reflexivity. }
        rewrite Hstop. split; [eapply drops_step; [exact Hd1|apply drops_refl]|].
        split; [lia|]. split; [intros; lia|].
        intros _ j Hj.
        assert (Hmod : ((k - 1) mod lenZ vs = k - 1)%Z) by (apply Z.mod_small; lia).
        rewrite Hmod in El.
        destruct (Z.eq_dec j (-1)) as [->|].
        -- rewrite !vget_neg by (unfold lenZ in *; lia).
           assert (l2 <> []) by (intros ->; rewrite app_nil_r in *; unfold lenZ in *; lia).
           rewrite Ev. unfold lenZ. rewrite !app_length. cbn [length].
           rewrite !app_nth2 by (destruct l2; [congruence|cbn [length] in *; lia]).
           replace (Z.to_nat (Z.of_nat (length l1 + S (length l2)) + -1) - length l1)
             with (S (Z.to_nat (Z.of_nat (length l1 + length l2) + -1) - length l1))
             by (destruct l2; [congruence|cbn [length] in *; lia]).
           reflexivity.
        -- rewrite !vget_nonneg by lia. rewrite Ev. rewrite !app_nth1 by lia. reflexivity.
      * specialize (IH k (l1 ++ l2)).
        destruct IH as (I1 & I2 & I3 & I4); [lia|unfold lenZ in *; lia|].
        split; [eapply drops_step; [exact Hd1|exact I1]|].
        split; [exact I2|]. split.
        -- intros Hnd. apply I3. eapply drop1_nodup; eassumption.
        -- intros H3 j Hj. rewrite I4 by assumption.
           assert (Hk1 : (0 <= k - 1)%Z) by lia.
           assert (Hmod : ((k - 1) mod lenZ vs = k - 1)%Z) by (apply Z.mod_small; lia).
           rewrite Hmod in El.
           pose proof (drops_length _ _ I1) as Hdl.
           destruct (Z.eq_dec j (-1)) as [->|].
           ++ rewrite !vget_neg by (unfold lenZ in *; lia).
              assert (l2 <> []) by (intros ->; rewrite app_nil_r in *; unfold lenZ in *; lia).
              rewrite Ev. unfold lenZ. rewrite !app_length. cbn [length].
              rewrite !app_nth2 by (destruct l2; [congruence|cbn [length] in *; lia]).
              replace (Z.to_nat (Z.of_nat (length l1 + S (length l2)) + -1) - length l1)
                with (S (Z.to_nat (Z.of_nat (length l1 + length l2) + -1) - length l1))
                by (destruct l2; [congruence|cbn [length] in *; lia]).
              reflexivity.
           ++ rewrite !vget_nonneg by lia. rewrite Ev. rewrite !app_nth1 by lia. reflexivity.
    + split; [apply drops_refl|]. split; [lia|]. split; [|auto].
      intros Hnd Hl Hkl. apply andb_false_iff in E. destruct E as [E|E]; [unfold lenZ in *; lia|].
      destruct (del_at vs (k - 1) Hl) as (l1 & b & l2 & Ev & El & Ed & Eb & c & w & Ew & Ec & Ea); [unfold lenZ in *; lia|].
      intros u v Hin Hc. rewrite Eb in *.
      (* the turn at b is the one tested *)
      assert (Ht : In (last (l2 ++ l1) c, b, c) (cyc vs)).
      { assert (H2 : length (l2 ++ l1) + 1 = length vs) by (rewrite Ev, !app_length; cbn; lia).
        destruct w as [|d w]; [rewrite Ew in H2; cbn in H2; lia|].
        assert (Hw : d :: w <> []) by discriminate.
        destruct (exists_last Hw) as (l & a' & E'). rewrite E' in *.
        rewrite Ew. change (c :: l ++ [a']) with ((c :: l) ++ [a']). rewrite last_last.
        rewrite Ev. apply (cyc_rot (b :: l2) l1); [rewrite app_length in *; cbn; lia|].
        cbn [app]. rewrite Ew. change (b :: c :: l ++ [a']) with ((b :: c :: l) ++ [a']).
        apply (cyc_rot [a'] (b :: c :: l)); [cbn; lia|]. cbn [app]. apply cyc_head. }
      apply turn_cyc in Ht; [|lia]. apply turn_cyc in Hin; [|lia].
      destruct Ht as (i & Hi1 & Hi2 & Hi3). destruct Hin as (j & Hj1 & Hj2 & Hj3).
      assert (Hi : i < length vs) by (apply nth_error_Some; congruence).
      assert (Hj : j < length vs) by (apply nth_error_Some; congruence).
      assert (Hij : S i mod length vs = S j mod length vs).
      { apply (proj1 (NoDup_nth_error vs) Hnd); [apply Nat.mod_upper_bound; lia|congruence]. }
      assert (i = j).
      { destruct (Nat.eq_dec (S i) (length vs)) as [Ei|Ei]; destruct (Nat.eq_dec (S j) (length vs)) as [Ej|Ej];
        try rewrite Ei in Hij; try rewrite Ej in Hij; try rewrite Nat.mod_same in Hij by lia;
        try rewrite (Nat.mod_small (S i)) in Hij by lia; try rewrite (Nat.mod_small (S j)) in Hij by lia; lia. }
      subst j. rewrite Hi1 in Hj1. rewrite Hi3 in Hj3. injection Hj1 as <-. injection Hj3 as <-.
      assert (Ht : is_collinear (vget vs (k - 1)) (vget vs (k - 2)) (vget vs k) = true); [|congruence].
      apply is_collinear_spec. rewrite Eb.
      replace (k - 2)%Z with (k - 1 - 1)%Z by lia. rewrite <- Ea.
      replace (vget vs k) with (vget vs (k - 1 + 1)) by (f_equal; lia). rewrite Ec.
      apply collinear_swap. exact (proj1 (collinear_rot _ _ _) Hc).
Qed.

Lemma compress_phase2_drops fuel : forall k vs, (0 <= k)%Z -> drops vs (compress_phase2 fuel k vs).
Proof.
  induction fuel as [|fuel IH]; intros k vs Hk; [apply drops_refl|]. cbn [compress_phase2].
  destruct (Z.ltb_spec k (lenZ vs)); [|apply drops_refl].
  destruct (compress_up_spec (length vs) k vs) as (H1 & _); [lia|lia|].
  eapply drops_trans; [exact H1|apply IH; lia].
Qed.
Lemma compress_up_small fuel k vs : length vs <= 2 -> compress_up fuel k vs = vs.
Proof.
  intros H. destruct fuel; [reflexivity|]. cbn [compress_up].
  replace (Z.max 2 k <? lenZ vs)%Z with false; [reflexivity|]. unfold lenZ. lia.
Qed.
Lemma compress_phase2_small fuel : forall k vs, length vs <= 2 -> compress_phase2 fuel k vs = vs.
Proof.
  induction fuel as [|fuel IH]; intros k vs H; [reflexivity|]. cbn [compress_phase2].
  destruct (k <? lenZ vs)%Z; [|reflexivity]. rewrite compress_up_small by exact H. apply IH, H.
Qed.
Lemma compress_phase2_good fuel : forall k vs, NoDup vs -> (0 <= k <= lenZ vs)%Z ->
  (lenZ vs < Z.of_nat fuel + k)%Z ->
  (forall j, (-1 <= j < k - 1)%Z -> good vs (vget vs j)) ->
  let vs' := compress_phase2 fuel k vs in
  length vs' <= 2 \/ forall j, (-1 <= j < lenZ vs' - 1)%Z -> good vs' (vget vs' j).
Proof.
  induction fuel as [|fuel IH]; intros k vs Hnd Hk Hf Hg; [lia|]. cbn [compress_phase2].
  destruct (Z.ltb_spec k (lenZ vs)) as [Hlt|Hge]; cbn zeta.
  - destruct (compress_up_spec (length vs) k vs) as (H1 & H2 & H3 & H4); [lia|lia|].
    set (vs1 := compress_up (length vs) k vs) in *.
    destruct (le_lt_dec (length vs1) 2) as [Hs|Hs].
    { left. rewrite compress_phase2_small by exact Hs. exact Hs. }
    pose proof (drops_nodup _ _ H1 Hnd) as Hnd1. pose proof (drops_length _ _ H1) as Hle.
    assert (Hk1 : forall j, (-1 <= j < k - 1)%Z -> good vs1 (vget vs1 j)).
    { intros j Hj. rewrite H4 by (assumption || lia).
      apply (drops_good vs); auto. }
    destruct (Z.eq_dec k (lenZ vs1)) as [Hke|Hke].
    + right.
      assert (Hstop : compress_phase2 fuel (k + 1) vs1 = vs1).
      { destruct fuel; cbn [compress_phase2]; [reflexivity|].
        replace (k + 1 <? lenZ vs1)%Z with false by lia. reflexivity. }
      rewrite Hstop. intros j Hj. apply Hk1. lia.
    + apply IH; [exact Hnd1|lia|unfold lenZ in *; lia|].
      intros j Hj. destruct (Z.eq_dec j (k - 1)) as [->|].
      * apply H3; [exact Hnd|lia|lia].
      * apply Hk1. lia.
  - right. intros j Hj. apply Hg. lia.
Qed.

Lemma compress_drops vs : drops vs (compress_contour vs).
Proof.
  unfold compress_contour. destruct vs as [|v vs]; [apply drops_refl|].
  eapply drops_trans; [apply compress_phase1_drops|]. apply compress_phase2_drops. lia.
Qed.
Lemma compress_strict vs : NoDup vs ->
  length (compress_contour vs) <= 2 \/ strict (compress_contour vs).
Proof.
  intros Hnd. unfold compress_contour. destruct vs as [|v vs]; [cbn; lia|].
  set (vs1 := compress_phase1 (length (v :: vs) - 1) (v :: vs)).
  assert (Hd1 : NoDup vs1) by (eapply drops_nodup; [apply compress_phase1_drops|exact Hnd]).
  pose proof (compress_phase2_good (S (length vs1)) 0 vs1 Hd1) as H. cbv zeta in H.
  set (vs2 := compress_phase2 (S (length vs1)) 0 vs1) in *.
  destruct H as [H|H]; [unfold lenZ; lia|unfold lenZ; lia|intros; lia|left; exact H|].
  destruct (le_lt_dec (length vs2) 2) as [Hs|Hs]; [left; exact Hs|right].
  apply strict_good; [lia|]. intros m a c Hin.
  assert (Hm : In m vs2).
  { apply turn_cyc in Hin; [|lia]. destruct Hin as (i & _ & Hi & _). eapply nth_error_In, Hi. }
  apply In_nth with (d := origin_) in Hm. destruct Hm as (i & Hi & Em).
  destruct (Nat.eq_dec (S i) (length vs2)) as [Ei|Ei].
  - assert (Hv : vget vs2 (-1) = m).
    { rewrite vget_neg by (unfold lenZ; lia). rewrite <- Em. f_equal. unfold lenZ. lia. }
    rewrite <- Hv in *. apply (H (-1)%Z); [unfold lenZ; lia|exact Hin].
  - assert (Hv : vget vs2 (Z.of_nat i) = m).
    { rewrite vget_nonneg by (unfold lenZ; lia). rewrite <- Em. f_equal. lia. }
    rewrite <- Hv in *. apply (H (Z.of_nat i)); [unfold lenZ; lia|exact Hin].
Qed.
Lemma compress_nodup vs : NoDup vs -> NoDup (compress_contour vs).
Proof. apply drops_nodup, compress_drops. Qed.
Lemma compress_subsequence vs : subsequence (compress_contour vs) vs.
Proof. apply drops_subsequence, compress_drops. Qed.
Lemma compress_unchanged vs : strict vs -> compress_contour vs = vs.
Proof. apply drops_strict, compress_drops. Qed.
Lemma compress_area vs : doubled_area (compress_contour vs) = doubled_area vs.
Proof. apply drops_area, compress_drops. Qed.
Lemma subsequence_incl {A} (l m : list A) : subsequence l m -> incl l m.
Proof.
  induction 1 as [|x l m H IH|x l m H IH]; intros y Hy; [destruct Hy| |].
  - right. apply IH, Hy.
  - destruct Hy as [<-|Hy]; [left; reflexivity | right; apply IH, Hy].
Qed.
Lemma compress_incl vs : incl (compress_contour vs) vs.
Proof. apply subsequence_incl, compress_subsequence. Qed.
Lemma compress_spec vs : NoDup vs ->
  subsequence (compress_contour vs) vs
  /\ NoDup (compress_contour vs)
  /\ (length (compress_contour vs) <= 2 \/ strict (compress_contour vs))
  /\ doubled_area (compress_contour vs) = doubled_area vs.
Proof.
  intros H. split; [apply compress_subsequence|]. split; [apply compress_nodup, H|].
  split; [apply compress_strict, H|apply compress_area].
Qed.
