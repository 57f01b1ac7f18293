(** The prime helpers of utils.py. *)
From Verif Require Import Base Utils Spec LoopProofs.
From Coq Require Import Znumtheory.
Local Open Scope Z_scope.

Lemma prime_intro v : 1 < v -> (forall n, 1 < n < v -> ~ (n | v)) -> prime v.
Proof. intros H1 H2. apply prime_alt. split; assumption. Qed.
Lemma prime_no_divisor v n : prime v -> 1 < n < v -> ~ (n | v).
Proof. intros H. apply prime_alt in H. apply H. Qed.

Lemma is_prime_spec v : 3 < v -> v mod 2 <> 0 ->
  (is_prime v = Ok true /\ prime v) \/ (is_prime v = Ok false /\ ~ prime v).
Proof.
  intros Hv H2. unfold is_prime.
  destruct (v mod 2 =? 0) eqn:E2; [apply Z.eqb_eq in E2; contradiction|].
  destruct (v mod 3 =? 0) eqn:E3.
  - right. split; [reflexivity|]. intros Hp. apply Z.eqb_eq in E3.
    apply (prime_no_divisor v 3 Hp); [lia|]. apply Z.mod_divide; lia.
  - apply Z.eqb_neq in E3.
    apply (while_total (fun d => 6 <= d /\ (6 | d) /\ forall k, 2 <= k < d - 1 -> ~ (k | v))
             (fun d => Z.to_nat (v - d + 6))
             (fun r => r = Ok true /\ prime v \/ r = Ok false /\ ~ prime v)).
    + intros d (Hd & (q & Hq) & Hk).
      destruct (d * d - 2 * d + 1 <=? v) eqn:El.
      * apply Z.leb_le in El.
        destruct (v mod (d - 1) =? 0) eqn:Ea.
        { right; split; [reflexivity|]. intros Hp. apply Z.eqb_eq in Ea.
          apply (prime_no_divisor v (d - 1) Hp); [nia|]. apply Z.mod_divide; lia. }
        destruct (v mod (d + 1) =? 0) eqn:Eb.
        { right; split; [reflexivity|]. intros Hp. apply Z.eqb_eq in Eb.
          apply (prime_no_divisor v (d + 1) Hp); [nia|]. apply Z.mod_divide; lia. }
        apply Z.eqb_neq in Ea, Eb.
        split; [|nia]. split; [lia|]. split; [exists (q + 1); lia|].
        intros k Hk2 Hdiv.
        assert (H2' : forall m, k <> 2 * m).
        { intros m ->. apply H2. apply Z.mod_divide; [lia|]. destruct Hdiv as (z & Hz). exists (z * m). lia. }
        assert (H3' : forall m, k <> 3 * m).
        { intros m ->. apply E3. apply Z.mod_divide; [lia|]. destruct Hdiv as (z & Hz). exists (z * m). lia. }
        assert (k <> d - 1) by (intros ->; apply Ea; apply Z.mod_divide; [lia|exact Hdiv]).
        assert (k <> d + 1) by (intros ->; apply Eb; apply Z.mod_divide; [lia|exact Hdiv]).
        destruct (Z_lt_ge_dec k (d - 1)) as [Hlt|Hge]; [apply (Hk k); [lia|exact Hdiv]|].
        pose proof (H2' (3 * q)). pose proof (H2' (3 * q + 1)). pose proof (H2' (3 * q + 2)).
        pose proof (H3' (2 * q + 1)). lia.
      * apply Z.leb_gt in El. left; split; [reflexivity|]. apply prime_intro; [lia|].
        intros n Hn (m & Hm).
        destruct (Z_lt_ge_dec n (d - 1)) as [Hlt|Hge].
        { apply (Hk n); [lia|]. exists m; exact Hm. }
        assert (1 < m) by nia. assert (m < d - 1) by nia.
        apply (Hk m); [lia|]. exists n. lia.
    + split; [lia|]. split; [exists 1; lia|]. intros k Hk (z & Hz).
      assert (k = 2 \/ k = 3 \/ k = 4) as [-> | [-> | ->]] by lia.
      * apply H2. apply Z.mod_divide; [lia|]. exists z; lia.
      * apply E3. apply Z.mod_divide; [lia|]. exists z; lia.
      * apply H2. apply Z.mod_divide; [lia|]. exists (2 * z); lia.
    + rewrite Z.abs_eq by lia. lia.
Qed.

Lemma prime_odd p : prime p -> 2 < p -> p mod 2 <> 0.
Proof.
  intros Hp H H0. apply (prime_no_divisor p 2 Hp); [lia|]. apply Z.mod_divide; lia.
Qed.
Lemma prime_dec_or p : prime p \/ ~ prime p.
Proof. destruct (prime_dec p); auto. Qed.
Lemma prime_5 : prime 5.
Proof.
  destruct (is_prime_spec 5) as [(_ & H)|(H & _)]; [lia|discriminate|exact H|].
  vm_compute in H. discriminate.
Qed.

(** The loop of [to_prior_prime]. *)
Lemma to_prior_prime_spec v : 5 <= v ->
  exists p, to_prior_prime v = Ok p /\ prime p /\ 5 <= p <= v /\ forall q, prime q -> q <= v -> q <= p.
Proof.
  intros Hv. unfold to_prior_prime.
  replace (v >? 2) with true by (symmetry; apply Z.gtb_lt; lia). cbn [assert_ rbind].
  pose proof (Z.land_ones v 1 ltac:(lia)) as Hl. change (Z.ones 1) with 1 in Hl. rewrite Hl.
  change (2 ^ 1) with 2.
  pose proof (Z.mod_pos_bound v 2 ltac:(lia)). pose proof (Z.div_mod v 2 ltac:(lia)).
  apply (while_total
    (fun s => 5 <= s <= v /\ s mod 2 <> 0 /\ forall q, prime q -> q <= v -> q <= s)
    (fun s => Z.to_nat s)
    (fun r => exists p, r = Ok p /\ prime p /\ 5 <= p <= v /\ forall q, prime q -> q <= v -> q <= p)).
  - intros s (Hs & Ho & Hq).
    destruct (is_prime_spec s ltac:(lia) Ho) as [(-> & Hp)|(-> & Hp)]; cbn [rbind].
    + exists s. auto.
    + assert (s <> 5) by (intros ->; apply Hp, prime_5).
      assert (s mod 2 = 1) by (pose proof (Z.mod_pos_bound s 2 ltac:(lia)); lia).
      assert (H7 : s <> 6) by (intros ->; discriminate).
      assert (Hm : (s - 2) mod 2 = 1).
      { replace (s - 2) with (s + (-1) * 2) by lia. rewrite Z_mod_plus_full. assumption. }
      split; [|lia]. split; [lia|]. split; [lia|].
      intros q Hpq Hqv. specialize (Hq q Hpq Hqv).
      assert (q <> s) by congruence.
      destruct (Z.eq_dec q (s - 1)) as [->|]; [|lia]. exfalso.
      apply (prime_odd _ Hpq ltac:(lia)).
      replace (s - 1) with ((s - 2) + 1) by lia. rewrite Z.add_mod, Hm by lia. reflexivity.
  - assert (Hm : (v + (v mod 2 - 1)) mod 2 = 1).
    { assert (v mod 2 = 0 \/ v mod 2 = 1) as [E|E] by lia; rewrite E in *.
      - replace (v + (0 - 1)) with (1 + (v / 2 - 1) * 2) by lia. rewrite Z_mod_plus_full. reflexivity.
      - replace (v + (1 - 1)) with v by lia. assumption. }
    split; [|split; [lia|]].
    + assert (v mod 2 = 0 \/ v mod 2 = 1) as [E|E] by lia; rewrite E in *; [|lia].
      assert (v <> 5) by (intros ->; discriminate). lia.
    + intros q Hpq Hqv. destruct (Z_le_gt_dec q 2); [|].
      { assert (v mod 2 = 0 \/ v mod 2 = 1) as [E|E] by lia; rewrite E in *; lia. }
      pose proof (prime_odd q Hpq ltac:(lia)).
      assert (v mod 2 = 0 \/ v mod 2 = 1) as [E|E] by lia; rewrite E in *; [|lia].
      assert (q <> v) by congruence. lia.
  - assert (v mod 2 = 0 \/ v mod 2 = 1) as [E|E] by lia; rewrite E in *; lia.
Qed.

(** There is a prime in [v, v! + 1]. *)
Lemma prime_divisor n : 1 < n -> exists p, prime p /\ (p | n).
Proof.
  intros Hn. assert (H0 : 0 <= n) by lia. revert n H0 Hn.
  apply (Z_lt_induction (fun n => 1 < n -> exists p, prime p /\ (p | n))).
  intros n IH Hn. destruct (prime_dec n) as [Hp|Hp].
  - exists n. split; [exact Hp | apply Z.divide_refl].
  - destruct (not_prime_divide n Hn Hp) as (d & Hd & Hdiv).
    destruct (IH d) as (p & Hpp & Hpd); [lia|lia|]. exists p. split; [exact Hpp|].
    eapply Z.divide_trans; eassumption.
Qed.
Lemma factorial_pos n : 0 < factorial n.
Proof. induction n as [|n IH]; [reflexivity|]. change (factorial (S n)) with (Z.of_nat (S n) * factorial n). nia. Qed.
Lemma factorial_divide n k : 1 <= k <= Z.of_nat n -> (k | factorial n).
Proof.
  induction n as [|n IH]; intros Hk; [lia|].
  change (factorial (S n)) with (Z.of_nat (S n) * factorial n).
  destruct (Z.eq_dec k (Z.of_nat (S n))) as [->|].
  - apply Z.divide_factor_l.
  - apply Z.divide_mul_r, IH. lia.
Qed.
Lemma factorial_ge n : 2 <= Z.of_nat n -> Z.of_nat n <= factorial n.
Proof.
  destruct n as [|n]; [lia|]. change (factorial (S n)) with (Z.of_nat (S n) * factorial n).
  pose proof (factorial_pos n). nia.
Qed.
Lemma euclid v : 2 <= v -> exists p, prime p /\ v < p <= factorial (Z.to_nat v) + 1.
Proof.
  intros Hv. pose proof (factorial_pos (Z.to_nat v)).
  destruct (prime_divisor (factorial (Z.to_nat v) + 1)) as (p & Hp & Hd); [lia|].
  exists p. split; [exact Hp|]. pose proof (prime_ge_2 p Hp). split.
  - destruct (Z_lt_ge_dec v p) as [|Hge]; [assumption|]. exfalso.
    assert (Hf : (p | factorial (Z.to_nat v))) by (apply factorial_divide; lia).
    assert (H1 : (p | 1)).
    { replace 1 with (factorial (Z.to_nat v) + 1 - factorial (Z.to_nat v)) by lia.
      apply Z.divide_sub_r; assumption. }
    apply Z.divide_pos_le in H1; lia.
  - apply Z.divide_pos_le; [lia|exact Hd].
Qed.

Lemma lor_1 v : Z.lor v 1 = if v mod 2 =? 0 then v + 1 else v.
Proof.
  pose proof (Z.mod_pos_bound v 2 ltac:(lia)). pose proof (Z.div_mod v 2 ltac:(lia)) as Hdm.
  destruct (v mod 2 =? 0) eqn:E.
  - apply Z.eqb_eq in E. rewrite E in Hdm.
    assert (Ha : Z.land v 1 = 0).
    { pose proof (Z.land_ones v 1 ltac:(lia)) as Hl. change (Z.ones 1) with 1 in Hl. rewrite Hl. exact E. }
    rewrite <- (Z.lxor_lor v 1 Ha). symmetry. apply Z.add_nocarry_lxor. exact Ha.
  - apply Z.eqb_neq in E. apply Z.bits_inj'. intros n Hn. rewrite Z.lor_spec.
    destruct (Z.eq_dec n 0) as [->|Hn0].
    + rewrite Z.bit0_odd. rewrite Zodd_mod. replace (v mod 2) with 1 by lia. reflexivity.
    + change 1 with (2 ^ 0) at 1. rewrite Z.pow2_bits_false by lia. apply orb_false_r.
Qed.

Lemma to_next_prime_spec v : 3 <= v ->
  exists p, to_next_prime v = Ok p /\ prime p /\ 5 <= p /\ v <= p
            /\ forall q, prime q -> 3 < q -> v <= q -> p <= q.
Proof.
  intros Hv. unfold to_next_prime.
  replace (v >? 2) with true by (symmetry; apply Z.gtb_lt; lia). cbn [assert_ rbind].
  destruct (Z.eq_dec v 3) as [->|Hn3].
  { exists 5. split; [vm_compute; reflexivity|]. split; [exact prime_5|]. split; [lia|]. split; [lia|].
    intros q Hq H3 _. assert (q <> 4); [|lia]. intros ->. revert Hq. intros Hq.
    apply (prime_no_divisor 4 2 Hq); [lia|]. exists 2; reflexivity. }
  destruct (euclid v ltac:(lia)) as (P & HP & HPv).
  pose proof (factorial_ge (Z.to_nat v) ltac:(lia)).
  set (F := factorial (Z.to_nat v)) in *. rewrite Z2Nat.id in * by lia.
  rewrite lor_1.
  pose proof (Z.mod_pos_bound v 2 ltac:(lia)). pose proof (Z.div_mod v 2 ltac:(lia)).
  apply (while_total
    (fun s => v <= s /\ s mod 2 = 1 /\ s <= P /\ forall q, prime q -> v <= q -> s <= q)
    (fun s => Z.to_nat (F + 2 - s))
    (fun r => exists p, r = Ok p /\ prime p /\ 5 <= p /\ v <= p
            /\ forall q, prime q -> 3 < q -> v <= q -> p <= q)).
  - intros s (Hs & Ho & HsP & Hq).
    destruct (is_prime_spec s ltac:(lia) ltac:(lia)) as [(-> & Hp)|(-> & Hp)]; cbn [rbind].
    + exists s. split; [reflexivity|]. split; [exact Hp|].
      assert (s <> 4) by (intros ->; discriminate). split; [lia|]. split; [lia|]. auto.
    + assert (Hn : forall q, prime q -> v <= q -> s + 2 <= q).
      { intros q Hpq Hqv. specialize (Hq q Hpq Hqv). assert (q <> s) by congruence.
        destruct (Z.eq_dec q (s + 1)) as [->|]; [|lia]. exfalso.
        apply (prime_odd _ Hpq ltac:(lia)). rewrite Z.add_mod, Ho by lia. reflexivity. }
      split.
      * split; [lia|]. split; [replace (s + 2) with (s + 1 * 2) by lia; rewrite Z_mod_plus_full; exact Ho|].
        split; [apply Hn; [exact HP|lia] | exact Hn].
      * assert (s < P) by (specialize (Hn P HP ltac:(lia)); lia). lia.
  - destruct (v mod 2 =? 0) eqn:E; [apply Z.eqb_eq in E | apply Z.eqb_neq in E].
    + assert (Hn : forall q, prime q -> v <= q -> v + 1 <= q).
      { intros q Hpq Hqv. assert (q <> v); [|lia]. intros ->.
        apply (prime_odd v Hpq); [lia|exact E]. }
      split; [lia|]. split; [rewrite Z.add_mod, E by lia; reflexivity|].
      split; [apply Hn; [exact HP|lia] | exact Hn].
    + split; [lia|]. split; [lia|]. split; [lia|]. intros q _ Hqv; exact Hqv.
  - destruct (v mod 2 =? 0); lia.
Qed.

Lemma to_next_prime_small v : v <= 2 -> to_next_prime v = Raise AssertionError.
Proof. intros H. unfold to_next_prime. destruct (v >? 2) eqn:E; [apply Z.gtb_lt in E; lia | reflexivity]. Qed.
Lemma to_prior_prime_small v : v <= 2 -> to_prior_prime v = Raise AssertionError.
Proof. intros H. unfold to_prior_prime. destruct (v >? 2) eqn:E; [apply Z.gtb_lt in E; lia | reflexivity]. Qed.
Lemma to_next_prime_ge v p : to_next_prime v = Ok p -> 3 <= v /\ prime p /\ 5 <= p /\ v <= p
            /\ forall q, prime q -> 3 < q -> v <= q -> p <= q.
Proof.
  intros H. destruct (Z_le_gt_dec v 2) as [Hl|Hg].
  - rewrite to_next_prime_small in H by lia. discriminate.
  - destruct (to_next_prime_spec v ltac:(lia)) as (p' & E & H1). rewrite E in H. injection H as <-.
    intuition lia.
Qed.

Lemma next_prime_spec v : 3 <= v -> exists p, to_next_prime v = Ok p /\ smallest_prime_above v p.
Proof.
  intros H. destruct (to_next_prime_spec v H) as (p & E & H1 & H2 & H3 & H4). exists p.
  split; [exact E|]. split; [exact H1|]. intuition lia.
Qed.
Lemma prior_prime_spec v : 5 <= v -> exists p, to_prior_prime v = Ok p /\ largest_prime_below v p.
Proof.
  intros H. destruct (to_prior_prime_spec v H) as (p & E & H1 & H2 & H3). exists p.
  split; [exact E|]. split; [exact H1|]. intuition lia.
Qed.
Lemma small_primes :
  to_next_prime 3 = Ok 5 /\ to_next_prime 4 = Ok 5 /\ to_prior_prime 3 = Ok 1 /\ to_prior_prime 4 = Ok 1
  /\ forall v, v <= 2 -> to_next_prime v = Raise AssertionError /\ to_prior_prime v = Raise AssertionError.
Proof.
  repeat (split; [reflexivity|]). intros v H. split; [apply to_next_prime_small|apply to_prior_prime_small]; exact H.
Qed.
