(** Bertrand's postulate, after Erdős: between [n] (excluded) and [2 n] there is a prime. *)
From Coq Require Import ZArith Znumtheory Zpow_facts Lia List FinFun.
Import ListNotations.
Open Scope Z_scope.

(** ** Factorials and binomial coefficients. *)
Fixpoint fct (n : nat) : Z := match n with O => 1 | S k => Z.of_nat n * fct k end.
Lemma fct_S n : fct (S n) = Z.of_nat (S n) * fct n. Proof. reflexivity. Qed.
Lemma fct_pos n : 0 < fct n. Proof. induction n; [reflexivity|]. rewrite fct_S. nia. Qed.
(** [bin a b] is the binomial coefficient of [a + b] and [a]. *)
Fixpoint bin (a : nat) : nat -> Z :=
  fix binb (b : nat) : Z := match a, b with
                            | O, _ => 1
                            | _, O => 1
                            | S a', S b' => bin a' b + binb b'
                            end.
Lemma bin_0 a : bin a 0 = 1. Proof. destruct a; reflexivity. Qed.
Lemma bin_S a b : bin (S a) (S b) = bin a (S b) + bin (S a) b. Proof. reflexivity. Qed.
Lemma bin_fct a : forall b, bin a b * fct a * fct b = fct (a + b).
Proof.
  induction a as [|a IHa]; [intros [|b]; [reflexivity|]; change (bin 0 (S b)) with 1; rewrite Nat.add_0_l; change (fct 0) with 1; lia|].
  induction b as [|b IHb]; [rewrite bin_0, Nat.add_0_r; change (fct 0) with 1; lia|].
  rewrite bin_S. specialize (IHa (S b)).
  replace (S a + S b)%nat with (S (a + S b)) by lia. rewrite (fct_S (a + S b)).
  replace (S a + b)%nat with (a + S b)%nat in IHb by lia.
  rewrite (fct_S a) in *. rewrite (fct_S b) in *. set (F := fct (a + S b)) in *. set (x := bin a (S b)) in *. set (y := bin (S a) b) in *.
  assert (x * (Z.of_nat (S a) * fct a) * (Z.of_nat (S b) * fct b) = Z.of_nat (S a) * F) by (rewrite <- IHa; ring).
  assert (y * (Z.of_nat (S a) * fct a) * (Z.of_nat (S b) * fct b) = Z.of_nat (S b) * F) by (rewrite <- IHb; ring).
  replace (Z.of_nat (S (a + S b))) with (Z.of_nat (S a) + Z.of_nat (S b)) by lia.
  rewrite (Z.mul_add_distr_r _ _ F). rewrite <- H, <- H0. ring.
Qed.
Lemma bin_pos a b : 0 < bin a b.
Proof.
  pose proof (bin_fct a b). pose proof (fct_pos a). pose proof (fct_pos b). pose proof (fct_pos (a + b)). nia.
Qed.
Lemma central_step n : Z.of_nat (S n) * bin (S n) (S n) = 2 * (2 * Z.of_nat n + 1) * bin n n.
Proof.
  pose proof (bin_fct (S n) (S n)) as H1. pose proof (bin_fct n n) as H2.
  replace (S n + S n)%nat with (S (S (n + n))) in H1 by lia. rewrite !fct_S in H1. rewrite <- H2 in H1.
  pose proof (fct_pos n) as F. set (f := fct n) in *. set (x := bin (S n) (S n)) in *. set (y := bin n n) in *.
  set (N := Z.of_nat (S n)) in *. assert (EN : Z.of_nat n = N - 1) by lia.
  replace (Z.of_nat (S (S (n + n)))) with (2 * N) in H1 by lia. replace (Z.of_nat (S (n + n))) with (2 * N - 1) in H1 by lia.
  rewrite EN. apply (Z.mul_reg_l _ _ (N * (f * f))); [nia|].
  transitivity (x * (N * f) * (N * f)); [ring|]. rewrite H1. ring.
Qed.
Lemma central_lower n : (0 < n)%nat -> 4 ^ Z.of_nat n <= 2 * Z.of_nat n * bin n n.
Proof.
  induction n as [|[|n] IH]; intros Hn; [lia|vm_compute; discriminate|].
  specialize (IH ltac:(lia)). pose proof (central_step (S n)) as St. set (N := Z.of_nat (S n)) in *.
  replace (Z.of_nat (S (S n))) with (N + 1) in * by lia. rewrite Z.pow_add_r by lia. change (4 ^ 1) with 4.
  pose proof (bin_pos (S n) (S n)). nia.
Qed.
Lemma odd_step m : Z.of_nat (S (S m)) * bin (S m) (S (S m)) = 2 * (2 * Z.of_nat m + 3) * bin m (S m).
Proof.
  pose proof (bin_fct (S m) (S (S m))) as H1. pose proof (bin_fct m (S m)) as H2.
  replace (S m + S (S m))%nat with (S (S (m + S m))) in H1 by lia. repeat rewrite fct_S in H1. repeat rewrite fct_S in H2.
  rewrite <- H2 in H1. pose proof (fct_pos m) as F. set (f := fct m) in *. set (x := bin (S m) (S (S m))) in *. set (y := bin m (S m)) in *.
  set (N := Z.of_nat (S m)) in *. replace (Z.of_nat (S (S m))) with (N + 1) in * by lia. replace (Z.of_nat m) with (N - 1) by lia.
  replace (Z.of_nat (S (S (m + S m)))) with (2 * N + 1) in H1 by lia. replace (Z.of_nat (S (m + S m))) with (2 * N) in H1 by lia.
  apply (Z.mul_reg_l _ _ (N * N * (f * f))); [nia|].
  transitivity (x * (N * f) * ((N + 1) * (N * f))); [ring|]. rewrite H1. ring.
Qed.
Lemma odd_upper m : bin m (S m) <= 4 ^ Z.of_nat m.
Proof.
  induction m as [|m IH]; [vm_compute; discriminate|]. pose proof (odd_step m) as St. set (N := Z.of_nat (S m)) in *.
  replace (Z.of_nat (S (S m))) with (N + 1) in * by lia. replace (Z.of_nat m) with (N - 1) in * by lia.
  assert (E : 4 ^ N = 4 * 4 ^ (N - 1)). { replace N with (1 + (N - 1)) at 1 by lia. rewrite Z.pow_add_r by lia. reflexivity. }
  rewrite E. pose proof (bin_pos m (S m)). assert (1 <= N) by lia. nia.
Qed.

(** ** Primes. *)
Lemma prime_fct p k : prime p -> p <= Z.of_nat k -> (p | fct k).
Proof.
  intros Pp. induction k as [|k IH]; intros H; [pose proof (prime_ge_2 _ Pp); lia|]. rewrite fct_S.
  destruct (Z.eq_dec p (Z.of_nat (S k))) as [-> |N]; [apply Z.divide_factor_l|]. apply Z.divide_mul_r, IH. lia.
Qed.
Lemma prime_not_fct p k : prime p -> Z.of_nat k < p -> ~ (p | fct k).
Proof.
  intros Pp. pose proof (prime_ge_2 _ Pp). induction k as [|k IH]; intros H0 D.
  - change (fct 0) with 1 in D. apply Z.divide_1_r_nonneg in D; lia.
  - rewrite fct_S in D. apply prime_mult in D; [|exact Pp]. destruct D as [D|D]; [|apply IH in D; [exact D|lia]].
    apply Z.divide_pos_le in D; lia.
Qed.
(** Product of the primes of a list. *)
Fixpoint prod (l : list Z) : Z := match l with [] => 1 | x :: l' => x * prod l' end.
Lemma prod_app l m : prod (l ++ m) = prod l * prod m.
Proof. induction l as [|x l IH]; [cbn [app prod]; ring|]. cbn [app prod]. rewrite IH. ring. Qed.
Lemma prod_pos l : (forall x, In x l -> 0 < x) -> 0 < prod l.
Proof.
  induction l as [|x l IH]; intros H; [reflexivity|]. cbn [prod]. specialize (H x (or_introl eq_refl)) as Hx.
  specialize (IH (fun y Hy => H y (or_intror Hy))). nia.
Qed.
Lemma prime_prod p l : prime p -> (p | prod l) -> exists x, In x l /\ (p | x).
Proof.
  intros Pp. induction l as [|x l IH]; intros D; cbn [prod] in D.
  - pose proof (prime_ge_2 _ Pp). apply Z.divide_1_r_nonneg in D; lia.
  - apply prime_mult in D; [|exact Pp]. destruct D as [D|D]; [exists x; split; [left; reflexivity|exact D]|].
    destruct (IH D) as (y & Hy & Hd). exists y. split; [right; exact Hy|exact Hd].
Qed.
Lemma prod_primes_dvd l N : NoDup l -> (forall p, In p l -> prime p /\ (p | N)) -> (prod l | N).
Proof.
  induction l as [|p l IH]; intros Hn H; [apply Z.divide_1_l|]. inversion Hn as [|? ? Hp Hl]; subst. cbn [prod].
  destruct (H p (or_introl eq_refl)) as (Pp & (k & Ek)). assert (Hl' := IH Hl (fun q Hq => H q (or_intror Hq))).
  assert (R : rel_prime (prod l) p).
  { apply rel_prime_sym, prime_rel_prime; [exact Pp|]. intros D. destruct (prime_prod _ _ Pp D) as (q & Hq & Dq).
    destruct (H q (or_intror Hq)) as (Pq & _). apply prime_div_prime in Dq; [|assumption..]. subst q. contradiction. }
  assert (prod l | k).
  { apply (Gauss _ p); [rewrite Z.mul_comm, <- Ek; exact Hl'|exact R]. }
  rewrite Ek, (Z.mul_comm k p). apply Z.mul_divide_mono_l. assumption.
Qed.
(** The primes up to [n], above [a]. *)
Definition upto (a n : nat) : list Z := filter (fun z => if prime_dec z then true else false) (map Z.of_nat (seq (S a) (n - a))).
Lemma upto_in a n p : In p (upto a n) <-> prime p /\ Z.of_nat a < p <= Z.of_nat n.
Proof.
  unfold upto. rewrite filter_In, in_map_iff. split.
  - intros ((x & <- & Hx) & Hp). apply in_seq in Hx. destruct (prime_dec (Z.of_nat x)); [|discriminate]. split; [assumption|lia].
  - intros (Pp & H). split; [exists (Z.to_nat p); split; [lia|apply in_seq; lia]|]. destruct (prime_dec p); [reflexivity|contradiction].
Qed.
Lemma upto_nodup a n : NoDup (upto a n).
Proof. apply NoDup_filter. apply FinFun.Injective_map_NoDup; [intros x y; apply Nat2Z.inj|apply seq_NoDup]. Qed.
Lemma upto_split a b c : (a <= b <= c)%nat -> upto a c = upto a b ++ upto b c.
Proof.
  intros H. unfold upto. replace (c - a)%nat with ((b - a) + (c - b))%nat by lia. rewrite seq_app, map_app, filter_app.
  replace (S a + (b - a))%nat with (S b) by lia. reflexivity.
Qed.
Lemma upto_pos a n : 0 < prod (upto a n).
Proof. apply prod_pos. intros x Hx. apply upto_in in Hx. lia. Qed.
Lemma upto_one k : prod (upto k (S k)) <= Z.of_nat (S k).
Proof.
  unfold upto. replace (S k - k)%nat with 1%nat by lia. cbn [seq map filter]. destruct (prime_dec (Z.of_nat (S k))); cbn [prod]; lia.
Qed.
Lemma primorial_upper n : prod (upto 0 n) <= 4 ^ Z.of_nat n.
Proof.
  induction n as [n IH] using lt_wf_ind. destruct (Nat.lt_ge_cases n 3) as [L|L].
  - destruct n as [|[|[|n]]]; [vm_compute; discriminate| | |lia].
    + pose proof (upto_one 0). change (Z.of_nat 1) with 1 in *. lia.
    + rewrite (upto_split 0 1 2), prod_app by lia. pose proof (upto_one 0). pose proof (upto_one 1).
      pose proof (upto_pos 0 1). pose proof (upto_pos 1 2). change (Z.of_nat 1) with 1 in *. change (Z.of_nat 2) with 2 in *. change (4 ^ 2) with 16. nia.
  - destruct (Nat.Even_or_Odd n) as [(m & Em)|(m & Em)].
    + (* n is even, not a prime *)
      assert (E : upto (n - 1) n = []).
      { destruct (upto (n - 1) n) as [|p l] eqn:El; [reflexivity|]. exfalso. assert (Hp : In p (upto (n - 1) n)) by (rewrite El; left; reflexivity).
        apply upto_in in Hp. destruct Hp as (Pp & Hp). assert (p = 2 * Z.of_nat m) by lia. subst p.
        assert (2 = 2 * Z.of_nat m) by (apply prime_div_prime; [exact prime_2|exact Pp|apply Z.divide_factor_l]). lia. }
      rewrite (upto_split 0 (n - 1) n), E, app_nil_r by lia. specialize (IH (n - 1)%nat ltac:(lia)).
      etransitivity; [exact IH|]. apply Z.pow_le_mono_r; lia.
    + rewrite (upto_split 0 (S m) n) by lia. rewrite prod_app. specialize (IH (S m) ltac:(lia)).
      replace (Z.of_nat n) with (Z.of_nat (S m) + Z.of_nat m) by lia. rewrite Z.pow_add_r by lia.
      apply Z.mul_le_mono_nonneg; [apply Z.lt_le_incl, upto_pos|exact IH|apply Z.lt_le_incl, upto_pos|].
      etransitivity; [|apply odd_upper]. apply Z.divide_pos_le; [apply bin_pos|]. apply prod_primes_dvd; [apply upto_nodup|].
      intros p Hp. apply upto_in in Hp. destruct Hp as (Pp & Hp). split; [exact Pp|].
      pose proof (bin_fct m (S m)) as F. assert (D : (p | fct (m + S m))) by (apply prime_fct; [exact Pp|lia]). rewrite <- F in D.
      apply prime_mult in D; [|exact Pp]. destruct D as [D|D]; [|destruct (prime_not_fct p (S m) Pp ltac:(lia) D)].
      apply prime_mult in D; [|exact Pp]. destruct D as [D|D]; [exact D|destruct (prime_not_fct p m Pp ltac:(lia) D)].
Qed.

(** ** Powers of a prime in m! / ((m/2)!)^2. *)
Section Factors.
  Context (p : nat) (Pp : prime (Z.of_nat p)).
  Let P := Z.of_nat p.
  Lemma p_ge_2 : (2 <= p)%nat. Proof. pose proof (prime_ge_2 _ Pp). lia. Qed.
  Lemma fct_factor m : exists u, fct m = P ^ Z.of_nat (m / p) * fct (m / p) * u /\ ~ (P | u).
  Proof.
    pose proof p_ge_2 as H2. induction m as [|m (u & E & Hu)].
    - exists 1. rewrite Nat.div_small by lia. split; [reflexivity|]. intros D. apply Z.divide_1_r_nonneg in D; unfold P in *; lia.
    - pose proof (Nat.div_mod m p ltac:(lia)) as D1. pose proof (Nat.mod_upper_bound m p ltac:(lia)) as D2.
      destruct (Nat.eq_dec (S (m mod p)) p) as [Ep|Ep].
      + assert (Q : (S m / p = S (m / p))%nat) by (symmetry; apply (Nat.div_unique (S m) p (S (m / p)) 0); lia).
        exists u. rewrite Q. split; [|exact Hu]. rewrite !fct_S. rewrite E.
        replace (P ^ Z.of_nat (S (m / p))) with (P * P ^ Z.of_nat (m / p)) by (rewrite Nat2Z.inj_succ, Z.pow_succ_r; lia).
        replace (Z.of_nat (S m)) with (P * Z.of_nat (S (m / p))) by (unfold P; rewrite <- Nat2Z.inj_mul; f_equal; lia).
        ring.
      + assert (Q : (S m / p = m / p)%nat) by (symmetry; apply (Nat.div_unique (S m) p (m / p) (S (m mod p))); lia).
        exists (Z.of_nat (S m) * u). rewrite Q. split; [rewrite fct_S, E; ring|]. intros D. apply prime_mult in D; [|exact Pp].
        destruct D as [(k & Ek)|D]; [|exact (Hu D)].
        assert (Hm : (S m mod p = S (m mod p))%nat) by (symmetry; apply (Nat.mod_unique (S m) p (m / p)); lia).
        assert (Hk : (S m = Z.to_nat k * p)%nat) by (unfold P in Ek; nia). rewrite Hk, Nat.mod_mul in Hm by lia. lia.
  Qed.
  (** [swing m d]: [d] is m! / ((m/2)!)^2. *)
  Definition swing (m : nat) (d : Z) : Prop := d * (fct (m / 2) * fct (m / 2)) = fct m.
  Lemma swing_exists m : exists d, swing m d.
  Proof.
    unfold swing. destruct (Nat.Even_or_Odd m) as [(k & ->)|(k & ->)].
    - exists (bin k k). replace (2 * k / 2)%nat with k by (rewrite Nat.mul_comm, Nat.div_mul; lia).
      replace (2 * k)%nat with (k + k)%nat by lia. rewrite <- bin_fct. ring.
    - exists (bin k (S k) * Z.of_nat (S k)). replace ((2 * k + 1) / 2)%nat with k by (apply (Nat.div_unique _ 2 k 1); lia).
      replace (2 * k + 1)%nat with (k + S k)%nat by lia. rewrite <- bin_fct, fct_S. ring.
  Qed.
  Lemma swing_step m d d' : swing m d -> swing (m / p) d' ->
    exists u v, ~ (P | u) /\ d * v = P ^ Z.of_nat ((m / p) mod 2) * d' * u.
  Proof.
    unfold swing. intros H H'. destruct (fct_factor m) as (u & E & Hu). destruct (fct_factor (m / 2)) as (v & E' & Hv).
    pose proof p_ge_2 as H2.
    assert (Q : (m / 2 / p = m / p / 2)%nat) by (rewrite !Nat.div_div by lia; f_equal; lia). rewrite Q in E'.
    exists u, (v * v). split; [exact Hu|].
    rewrite E in H. rewrite E' in H. rewrite <- H' in H. set (f := fct (m / p / 2)) in *.
    pose proof (fct_pos (m / p / 2)) as Ff. fold f in Ff.
    pose proof (Nat.div_mod (m / p) 2 ltac:(lia)) as Dm. set (q := (m / p / 2)%nat) in *. set (e := ((m / p) mod 2)%nat) in *.
    set (W := P ^ Z.of_nat q) in *.
    assert (PW : P ^ Z.of_nat (m / p) = W * W * P ^ Z.of_nat e).
    { rewrite Dm. rewrite Nat2Z.inj_add, Nat2Z.inj_mul, Z.pow_add_r by lia. f_equal. unfold W. rewrite <- Z.pow_add_r by lia. f_equal. lia. }
    rewrite PW in H. assert (0 < W) by (unfold W, P; apply Z.pow_pos_nonneg; lia).
    apply (Z.mul_reg_l _ _ (W * W * (f * f))); [nia|].
    transitivity (d * (W * f * v * (W * f * v))); [ring|]. rewrite H. ring.
  Qed.
  Lemma prime_power_coprime a u d : ~ (P | u) -> (P ^ Z.of_nat a | d * u) -> (P ^ Z.of_nat a | d).
  Proof.
    intros Hu D. apply (Gauss _ u); [rewrite Z.mul_comm; exact D|]. rewrite <- (Z.pow_1_r u). apply Zpow_facts.rel_prime_Zpower; try lia. apply prime_rel_prime; assumption.
  Qed.
  Lemma swing_power m : (1 <= m)%nat -> forall d a, swing m d -> (P ^ Z.of_nat a | d) -> P ^ Z.of_nat a <= Z.of_nat m.
  Proof.
    pose proof p_ge_2 as H2. induction m as [m IH] using lt_wf_ind. intros Hm d a Hd Ha.
    destruct (swing_exists (m / p)) as (d' & Hd'). destruct (swing_step m d d' Hd Hd') as (u & v & Hu & E).
    assert (D : (P ^ Z.of_nat a | P ^ Z.of_nat ((m / p) mod 2) * d')).
    { apply (prime_power_coprime a u); [exact Hu|]. rewrite <- E. apply Z.divide_mul_l. exact Ha. }
    pose proof (Nat.div_mod m p ltac:(lia)) as Dm.
    destruct (Nat.eq_dec (m / p) 0) as [Z0|N0].
    - rewrite Z0 in *. change (0 mod 2)%nat with 0%nat in D. unfold swing in Hd'. cbn in Hd'. replace d' with 1 in D by lia.
      change (P ^ Z.of_nat 0 * 1) with 1 in D.
      assert (0 <= P ^ Z.of_nat a) by (apply Z.pow_nonneg; unfold P; lia). apply Z.divide_1_r_nonneg in D; lia.
    - assert (Lt : (m / p < m)%nat) by (apply Nat.div_lt; lia).
      assert (Pm : P * Z.of_nat (m / p) <= Z.of_nat m) by (unfold P; nia).
      destruct a as [|a]; [change (P ^ Z.of_nat 0) with 1; lia|].
      assert (D2 : (P ^ Z.of_nat a | d')).
      { assert (e : ((m / p) mod 2 < 2)%nat) by (apply Nat.mod_upper_bound; lia). destruct ((m / p) mod 2)%nat as [|[|x]]; [| |lia].
        - change (P ^ Z.of_nat 0) with 1 in D. rewrite Z.mul_1_l in D. etransitivity; [|exact D]. rewrite Nat2Z.inj_succ, Z.pow_succ_r by lia.
          apply Z.divide_factor_r.
        - change (Z.of_nat 1) with 1 in D. rewrite Z.pow_1_r, Nat2Z.inj_succ, Z.pow_succ_r in D by lia.
          apply Z.mul_divide_cancel_l in D; [exact D|unfold P; lia]. }
      specialize (IH _ Lt ltac:(lia) d' a Hd' D2). rewrite Nat2Z.inj_succ, Z.pow_succ_r by lia. unfold P in *. nia.
  Qed.
End Factors.

(** ** A number is at most the product of bounds of its prime powers. *)
Lemma full_power p N : prime p -> 0 < N -> exists (a : nat) M, N = p ^ Z.of_nat a * M /\ ~ (p | M) /\ 0 < M.
Proof.
  intros Pp. pose proof (prime_ge_2 _ Pp) as H2. intros H. rewrite <- (Z2Nat.id N) in * by lia.
  induction (Z.to_nat N) as [n IH] using lt_wf_ind. destruct (Zdivide_dec p (Z.of_nat n)) as [(k & Ek)|D].
  - destruct (IH (Z.to_nat k)) as (a & M & E & HM & HM0); [nia|nia|]. exists (S a), M. split; [|auto].
    rewrite Z2Nat.id in E by nia. rewrite Ek, E, Nat2Z.inj_succ, Z.pow_succ_r by lia. ring.
  - exists 0%nat, (Z.of_nat n). split; [change (Z.of_nat 0) with 0; rewrite Z.pow_0_r; lia|auto].
Qed.
Lemma prime_divisor N : 1 < N -> exists p, prime p /\ (p | N).
Proof.
  intros H. rewrite <- (Z2Nat.id N) in * by lia. induction (Z.to_nat N) as [n IH] using lt_wf_ind.
  destruct (prime_dec (Z.of_nat n)) as [P|P]; [exists (Z.of_nat n); split; [exact P|apply Z.divide_refl]|].
  destruct (not_prime_divide _ H P) as (d & Hd & Dd). destruct (IH (Z.to_nat d)) as (p & Pp & Dp); [lia|lia|].
  exists p. split; [exact Pp|]. rewrite Z2Nat.id in Dp by lia. etransitivity; eassumption.
Qed.
Lemma bounded_by_powers (B : Z -> Z) l : forall N, 0 < N -> (forall p, prime p -> (p | N) -> In p l) ->
  (forall p a, In p l -> prime p -> (p ^ Z.of_nat a | N) -> p ^ Z.of_nat a <= B p) -> (forall p, In p l -> prime p) -> N <= prod (map B l).
Proof.
  induction l as [|p l IH]; intros N H0 H1 H2 H3; cbn [map prod].
  - destruct (Z.le_gt_cases N 1) as [|L]; [assumption|]. destruct (prime_divisor N L) as (p & Pp & D). destruct (H1 p Pp D).
  - specialize (H3 p (or_introl eq_refl)) as Pp. destruct (full_power p N Pp H0) as (a & M & E & HM & HM0).
    assert (DM : (M | N)) by (rewrite E; apply Z.divide_factor_r).
    assert (L1 : p ^ Z.of_nat a <= B p) by (apply H2; [left; reflexivity|exact Pp|rewrite E; apply Z.divide_factor_l]).
    assert (L2 : M <= prod (map B l)).
    { apply IH; [exact HM0| | |intros q Hq; apply H3; right; exact Hq].
      - intros q Pq Dq. assert (Dq' : (q | N)) by (etransitivity; eassumption). destruct (H1 q Pq Dq') as [-> |Hin]; [contradiction|exact Hin].
      - intros q b Hin Pq Dq. apply H2; [right; exact Hin|exact Pq|]. etransitivity; eassumption. }
    rewrite E. assert (0 < p ^ Z.of_nat a) by (apply Z.pow_pos_nonneg; pose proof (prime_ge_2 _ Pp); lia). nia.
Qed.
Lemma prod_le (f g : Z -> Z) l : (forall x, In x l -> 0 < f x <= g x) -> prod (map f l) <= prod (map g l).
Proof.
  induction l as [|x l IH]; intros H; [cbn; lia|]. cbn [map prod]. specialize (H x (or_introl eq_refl)) as Hx.
  specialize (IH (fun y Hy => H y (or_intror Hy))). assert (0 < prod (map f l)); [|nia].
  apply prod_pos. intros y Hy. apply in_map_iff in Hy. destruct Hy as (z & <- & Hz). apply H. right. exact Hz.
Qed.
Lemma prod_const c l : 1 <= c -> forall n, (length l <= n)%nat -> prod (map (fun _ : Z => c) l) <= c ^ Z.of_nat n.
Proof.
  intros Hc. induction l as [|x l IH]; intros n Hn; cbn [map prod].
  - assert (0 < c ^ Z.of_nat n) by (apply Z.pow_pos_nonneg; lia). lia.
  - destruct n as [|n]; [cbn in Hn; lia|]. cbn [length] in Hn. specialize (IH n ltac:(lia)). rewrite Nat2Z.inj_succ, Z.pow_succ_r by lia. nia.
Qed.

Lemma filter_len (f : Z -> bool) l : (length (filter f l) <= length l)%nat.
Proof. induction l as [|x l IH]; cbn; [lia|]. destruct (f x); cbn; lia. Qed.

(** ** The inequality. *)
Lemma central_upper n r : (3 < n)%nat -> (r <= 2 * n / 3)%nat -> (2 * n < S r * S r)%nat ->
  (forall p, prime p -> Z.of_nat n < p <= 2 * Z.of_nat n -> False) ->
  bin n n <= (2 * Z.of_nat n) ^ Z.of_nat r * 4 ^ Z.of_nat (2 * n / 3).
Proof.
  intros Hn Hr Hs Hno. set (t := (2 * n / 3)%nat) in *.
  assert (Ht : (3 * t <= 2 * n < 3 * S t)%nat).
  { pose proof (Nat.div_mod (2 * n) 3 ltac:(lia)). pose proof (Nat.mod_upper_bound (2 * n) 3 ltac:(lia)). fold t in H. lia. }
  assert (Sw : swing (2 * n) (bin n n)).
  { unfold swing. replace (2 * n / 2)%nat with n by (rewrite Nat.mul_comm, Nat.div_mul; lia). replace (2 * n)%nat with (n + n)%nat by lia.
    rewrite <- bin_fct. ring. }
  assert (Pow : forall p a, prime p -> (p ^ Z.of_nat a | bin n n) -> p ^ Z.of_nat a <= 2 * Z.of_nat n).
  { intros p a Pp D. pose proof (prime_ge_2 _ Pp). rewrite <- (Z2Nat.id p) in * by lia.
    pose proof (swing_power (Z.to_nat p) Pp (2 * n) ltac:(lia) (bin n n) a Sw D). lia. }
  set (B := fun p => if p <=? Z.of_nat r then 2 * Z.of_nat n else p).
  assert (L : bin n n <= prod (map B (upto 0 t))).
  { apply bounded_by_powers; [apply bin_pos| | |intros p Hp; apply upto_in in Hp; apply Hp].
    - intros p Pp D. apply upto_in. split; [exact Pp|]. pose proof (prime_ge_2 _ Pp) as P2. split; [lia|].
      destruct (Z.le_gt_cases p (Z.of_nat t)) as [|Gt]; [assumption|]. exfalso.
      assert (D1 : (p ^ Z.of_nat 1 | bin n n)) by (change (Z.of_nat 1) with 1; rewrite Z.pow_1_r; exact D).
      pose proof (Pow p 1%nat Pp D1) as L1. change (Z.of_nat 1) with 1 in L1. rewrite Z.pow_1_r in L1.
      destruct (Z.le_gt_cases p (Z.of_nat n)) as [Le|G]; [|apply (Hno p Pp); lia].
      (* the middle primes *)
      set (q := Z.to_nat p). assert (Eq : Z.of_nat q = p) by (unfold q; lia). assert (Pq : prime (Z.of_nat q)) by (rewrite Eq; exact Pp).
      assert (Q : (2 * n / q = 2)%nat) by (symmetry; apply (Nat.div_unique _ q 2 (2 * n - 2 * q)); lia).
      assert (S2 : swing (2 * n / q) 2) by (rewrite Q; reflexivity).
      destruct (swing_step q Pq (2 * n) (bin n n) 2 Sw S2) as (u & v & Hu & E). rewrite Q in E. change (2 mod 2)%nat with 0%nat in E.
      change (Z.of_nat 0) with 0 in E. rewrite Z.pow_0_r, Z.mul_1_l in E.
      assert (D2 : (p | 2 * u)) by (rewrite <- E; apply Z.divide_mul_l, D). apply prime_mult in D2; [|exact Pp]. rewrite Eq in Hu.
      destruct D2 as [D2|D2]; [|contradiction]. apply Z.divide_pos_le in D2; [|lia]. lia.
    - intros p a Hp Pp D. unfold B. pose proof (Pow p a Pp D) as L. destruct (Z.leb_spec p (Z.of_nat r)); [exact L|].
      pose proof (prime_ge_2 _ Pp). destruct a as [|[|a]]; [change (Z.of_nat 0) with 0; rewrite Z.pow_0_r; lia|change (Z.of_nat 1) with 1; rewrite Z.pow_1_r; lia|].
      exfalso. assert (p ^ 2 <= p ^ Z.of_nat (S (S a))) by (apply Z.pow_le_mono_r; lia). rewrite Z.pow_2_r in H1. nia. }
  etransitivity; [exact L|]. rewrite (upto_split 0 r t) by lia. rewrite map_app, prod_app.
  assert (Bpos : forall l, (forall p, In p l -> prime p) -> 0 < prod (map B l)).
  { intros l Hl. apply prod_pos. intros x Hx. apply in_map_iff in Hx. destruct Hx as (p & <- & Hp). apply Hl in Hp. apply prime_ge_2 in Hp.
    unfold B. destruct (_ <=? _); lia. }
  apply Z.mul_le_mono_nonneg.
  - apply Z.lt_le_incl, Bpos. intros p Hp. apply upto_in in Hp. apply Hp.
  - etransitivity; [apply (prod_le B (fun _ => 2 * Z.of_nat n))|].
    + intros p Hp. apply upto_in in Hp. unfold B. destruct (Z.leb_spec p (Z.of_nat r)); lia.
    + apply prod_const; [lia|]. unfold upto. etransitivity; [apply filter_len|]. rewrite map_length, seq_length. lia.
  - apply Z.lt_le_incl, Bpos. intros p Hp. apply upto_in in Hp. apply Hp.
  - etransitivity; [|apply (primorial_upper t)]. rewrite (upto_split 0 r t), prod_app by lia.
    assert (E : map B (upto r t) = upto r t).
    { rewrite <- (map_id (upto r t)) at 2. apply map_ext_in. intros p Hp. apply upto_in in Hp. unfold B. destruct (Z.leb_spec p (Z.of_nat r)); lia. }
    rewrite E. pose proof (upto_pos 0 r). pose proof (upto_pos r t). nia.
Qed.
Lemma sixth_power s : 32 <= s -> s ^ 6 <= 2 ^ (s - 2).
Proof.
  intros H. replace s with (32 + Z.of_nat (Z.to_nat (s - 32))) by lia. induction (Z.to_nat (s - 32)) as [|k IH]; [vm_compute; discriminate|].
  set (x := 32 + Z.of_nat k) in *. replace (32 + Z.of_nat (S k)) with (x + 1) by lia.
  replace (x + 1 - 2) with (Z.succ (x - 2)) by lia. rewrite Z.pow_succ_r by lia.
  assert (E : forall y, y ^ 6 = (y * y * y) * (y * y * y)) by (intros y; ring).
  assert (S3 : 10 * ((x + 1) * (x + 1) * (x + 1)) <= 11 * (x * x * x)) by nia.
  assert (0 <= (x + 1) * (x + 1) * (x + 1)) by (apply Z.mul_nonneg_nonneg; nia).
  rewrite E in *. set (a := (x + 1) * (x + 1) * (x + 1)) in *. set (b := x * x * x) in *. nia.
Qed.
Lemma bertrand_large n : (512 <= n)%nat -> exists p, prime p /\ Z.of_nat n < p <= 2 * Z.of_nat n.
Proof.
  intros Hn. destruct (upto n (2 * n)) as [|p l] eqn:El.
  2:{ exists p. assert (Hp : In p (upto n (2 * n))) by (rewrite El; left; reflexivity). apply upto_in in Hp. split; [apply Hp|lia]. }
  exfalso.
  assert (Hno : forall p, prime p -> Z.of_nat n < p <= 2 * Z.of_nat n -> False).
  { intros p Pp H. assert (Hp : In p (upto n (2 * n))) by (apply upto_in; split; [exact Pp|lia]). rewrite El in Hp. destruct Hp. }
  clear El. set (N := Z.of_nat n) in *. set (R := Z.sqrt (2 * N)).
  destruct (Z.sqrt_spec (2 * N) ltac:(lia)) as (R1 & R2). fold R in R1, R2.
  assert (R0 : 0 <= R) by apply Z.sqrt_nonneg.
  assert (R32 : 32 <= R) by nia. set (r := Z.to_nat R). assert (Er : Z.of_nat r = R) by lia.
  set (t := (2 * n / 3)%nat). assert (T : 3 * Z.of_nat t <= 2 * N).
  { pose proof (Nat.mul_div_le (2 * n) 3 ltac:(lia)). fold t in H. unfold N. lia. }
  assert (Hr : (r <= t)%nat) by (apply Nat.div_le_lower_bound; [lia|]; nia).
  pose proof (central_upper n r ltac:(lia) Hr ltac:(nia) Hno) as U. fold t N in U. rewrite Er in U.
  pose proof (central_lower n ltac:(lia)) as L. fold N in L. set (s := R + 1).
  assert (B : 4 ^ N <= (2 * N) ^ s * 4 ^ Z.of_nat t).
  { etransitivity; [exact L|]. unfold s. rewrite Z.pow_add_r, Z.pow_1_r by lia. nia. }
  assert (F : 0 < 4 ^ N) by (apply Z.pow_pos_nonneg; lia).
  assert (B3 : (4 ^ N) ^ 3 <= ((2 * N) ^ s * 4 ^ Z.of_nat t) ^ 3) by (apply Z.pow_le_mono_l; lia).
  rewrite Z.pow_mul_l, <- !Z.pow_mul_r in B3 by lia.
  assert (B4 : 4 ^ (N * 3) <= (2 * N) ^ (s * 3) * 4 ^ (2 * N)).
  { etransitivity; [exact B3|]. apply Z.mul_le_mono_nonneg_l; [apply Z.pow_nonneg; lia|]. apply Z.pow_le_mono_r; lia. }
  replace (N * 3) with (N + 2 * N) in B4 by lia. rewrite Z.pow_add_r in B4 by lia.
  assert (B5 : 4 ^ N <= (2 * N) ^ (s * 3)) by (apply (Zmult_le_reg_r _ _ (4 ^ (2 * N))); [apply Z.lt_gt, Z.pow_pos_nonneg; lia|exact B4]).
  assert (S33 : 33 <= s) by (unfold s; lia). assert (SN : (s - 2) * s < 2 * N) by (unfold s; nia).
  assert (SN2 : 2 * N <= s * s) by (unfold s; lia). clear - B5 S33 SN SN2 Hn. assert (HN : 0 <= N) by (unfold N; lia). clearbody N s.
  pose proof (sixth_power s ltac:(lia)) as S6. clear n Hn. apply (Z.lt_irrefl (4 ^ N)). eapply Z.le_lt_trans; [exact B5|].
  apply Z.le_lt_trans with ((s ^ 6) ^ s).
  { clear B5 S6. rewrite <- Z.pow_mul_r by lia. replace (6 * s) with (2 * (s * 3)) by lia. rewrite (Z.pow_mul_r s 2) by lia.
    apply Z.pow_le_mono_l. rewrite Z.pow_2_r. lia. }
  apply Z.le_lt_trans with ((2 ^ (s - 2)) ^ s).
  { apply Z.pow_le_mono_l. split; [apply Z.pow_nonneg; clear - S33; lia|exact S6]. }
  clear B5 S6. rewrite <- Z.pow_mul_r by lia. replace (4 ^ N) with (2 ^ (2 * N)) by (rewrite Z.pow_mul_r by lia; reflexivity).
  apply Z.pow_lt_mono_r; lia.
Qed.
(** Small cases, by trial division. *)
Definition is_prime_b (p : Z) : bool := forallb (fun k => negb (p mod Z.of_nat k =? 0)) (seq 2 (Z.to_nat p - 2)).
Lemma is_prime_b_prime p : 1 < p -> is_prime_b p = true -> prime p.
Proof.
  intros H1 H. apply prime_alt. split; [exact H1|]. intros d Hd (k & Ek). unfold is_prime_b in H. rewrite forallb_forall in H.
  specialize (H (Z.to_nat d) ltac:(apply in_seq; lia)). rewrite Z2Nat.id in H by lia. rewrite Ek, Z.mod_mul in H by lia. discriminate.
Qed.
Lemma bertrand_small n : 1 <= n < 631 -> exists p, prime p /\ n < p <= 2 * n.
Proof.
  intros H.
  assert (step : forall p q, prime q -> q <= 2 * p -> p <= n < q -> exists p, prime p /\ n < p <= 2 * n).
  { intros p q Pq Hq Hn. exists q. split; [exact Pq|lia]. }
  assert (Pr : forall q, is_prime_b q = true -> 1 < q -> prime q) by (intros; apply is_prime_b_prime; assumption).
  destruct (Z.lt_ge_cases n 2); [apply (step 1 2); [apply Pr; [reflexivity|lia]|lia|lia]|].
  destruct (Z.lt_ge_cases n 3); [apply (step 2 3); [apply Pr; [reflexivity|lia]|lia|lia]|].
  destruct (Z.lt_ge_cases n 5); [apply (step 3 5); [apply Pr; [reflexivity|lia]|lia|lia]|].
  destruct (Z.lt_ge_cases n 7); [apply (step 5 7); [apply Pr; [reflexivity|lia]|lia|lia]|].
  destruct (Z.lt_ge_cases n 13); [apply (step 7 13); [apply Pr; [reflexivity|lia]|lia|lia]|].
  destruct (Z.lt_ge_cases n 23); [apply (step 13 23); [apply Pr; [reflexivity|lia]|lia|lia]|].
  destruct (Z.lt_ge_cases n 43); [apply (step 23 43); [apply Pr; [reflexivity|lia]|lia|lia]|].
  destruct (Z.lt_ge_cases n 83); [apply (step 43 83); [apply Pr; [reflexivity|lia]|lia|lia]|].
  destruct (Z.lt_ge_cases n 163); [apply (step 83 163); [apply Pr; [reflexivity|lia]|lia|lia]|].
  destruct (Z.lt_ge_cases n 317); [apply (step 163 317); [apply Pr; [reflexivity|lia]|lia|lia]|].
  apply (step 317 631); [apply Pr; [reflexivity|lia]|lia|lia].
Qed.
Theorem bertrand_Z n : 1 <= n -> exists p, prime p /\ n < p /\ p <= 2 * n.
Proof.
  intros H. destruct (Z.lt_ge_cases n 631) as [L|L].
  - destruct (bertrand_small n ltac:(lia)) as (p & Pp & Hp). exists p. split; [exact Pp|lia].
  - destruct (bertrand_large (Z.to_nat n) ltac:(lia)) as (p & Pp & Hp). exists p. split; [exact Pp|lia].
Qed.
