(** The grid of points in general position (base.py:930-1047). *)
From Verif Require Import Base Prog Geometry Ctx Utils Factories Strategies Spec ProgProofs
  GeomProofs ListProofs PrimeProofs.
From Coq Require Import Znumtheory.
Local Open Scope Z_scope.

(** ** A quadratic polynomial takes each value at most twice modulo a prime. *)
Lemma in_zrange n i : In i (zrange n) <-> 0 <= i < n.
Proof.
  unfold zrange. rewrite in_map_iff. split.
  - intros (k & <- & Hk). apply in_seq in Hk. lia.
  - intros H. exists (Z.to_nat i). rewrite in_seq. lia.
Qed.
Lemma zrange_nodup n : NoDup (zrange n).
Proof.
  unfold zrange. apply FinFun.Injective_map_NoDup; [intros x y; lia|]. apply seq_NoDup.
Qed.
Lemma zrange_length n : length (zrange n) = Z.to_nat n.
Proof. unfold zrange. rewrite map_length, seq_length. reflexivity. Qed.

Lemma count_z_map v (f : Z -> Z) l : count_z v (map f l) = length (filter (fun i => f i =? v) l).
Proof. induction l as [|x l IH]; cbn; [reflexivity|]. destruct (f x =? v); cbn; congruence. Qed.
Lemma sparse_map (f : Z -> Z) l :
  NoDup l ->
  (forall i j k, In i l -> In j l -> In k l -> f i = f j -> f i = f k -> i = j \/ i = k \/ j = k) ->
  forall v, (count_z v (map f l) <= 2)%nat.
Proof.
  intros Hd H v. rewrite count_z_map.
  pose proof (NoDup_filter (fun i => f i =? v) Hd) as Hf.
  assert (Hin : forall x, In x (filter (fun i => f i =? v) l) -> In x l /\ f x = v).
  { intros x Hx. apply filter_In in Hx. destruct Hx as (Hx & E). apply Z.eqb_eq in E. auto. }
  destruct (filter (fun i => f i =? v) l) as [|a [|b [|c t]]]; cbn; try lia. exfalso.
  destruct (Hin a) as (Ha & Ea); [cbn; auto|]. destruct (Hin b) as (Hb & Eb); [cbn; auto|].
  destruct (Hin c) as (Hc & Ec); [cbn; auto|].
  inversion Hf as [|? ? Hn1 Hf1]; subst. inversion Hf1 as [|? ? Hn2 _]; subst.
  destruct (H a b c Ha Hb Hc) as [-> |[-> | ->]]; try congruence.
  - apply Hn1; cbn; auto.
  - apply Hn1; cbn; auto.
  - apply Hn2; cbn; auto.
Qed.
Lemma sparse_intro l : (forall v, (count_z v l <= 2)%nat) -> are_indices_sparse l = true.
Proof. intros H. unfold are_indices_sparse. apply forallb_forall. intros x _. apply Nat.leb_le, H. Qed.

Lemma mod_eq_divide p a b : 0 < p -> a mod p = b mod p -> (p | a - b).
Proof.
  intros Hp H. exists (a / p - b / p).
  pose proof (Z.div_mod a p ltac:(lia)). pose proof (Z.div_mod b p ltac:(lia)). nia.
Qed.
Lemma small_divide p x : 0 < p -> - p < x < p -> (p | x) -> x = 0.
Proof. intros Hp Hx (z & Hz). assert (z = 0) by nia. lia. Qed.

Section Quadratic.
  Context (p a b : Z) (Hp : prime p) (Ha : ~ (p | a)).
  Let Hp0 : 0 < p. Proof. pose proof (prime_ge_2 p Hp). lia. Qed.
  Lemma quadratic_at_most_two i j k : 0 <= i < p -> 0 <= j < p -> 0 <= k < p ->
    (p | (a * (i * i) + b * i) - (a * (j * j) + b * j)) ->
    (p | (a * (i * i) + b * i) - (a * (k * k) + b * k)) ->
    i = j \/ i = k \/ j = k.
  Proof.
    intros Hi Hj Hk H1 H2.
    replace ((a * (i * i) + b * i) - (a * (j * j) + b * j)) with ((i - j) * (a * (i + j) + b)) in H1 by ring.
    replace ((a * (i * i) + b * i) - (a * (k * k) + b * k)) with ((i - k) * (a * (i + k) + b)) in H2 by ring.
    apply prime_mult in H1; [|exact Hp]. apply prime_mult in H2; [|exact Hp].
    destruct H1 as [H1|H1]; [left; apply small_divide in H1; lia|].
    destruct H2 as [H2|H2]; [right; left; apply small_divide in H2; lia|].
    right; right.
    assert (H3 : (p | a * (j - k))).
    { replace (a * (j - k)) with ((a * (i + j) + b) - (a * (i + k) + b)) by ring.
      apply Z.divide_sub_r; assumption. }
    apply prime_mult in H3; [|exact Hp]. destruct H3 as [H3|H3]; [contradiction|].
    apply small_divide in H3; lia.
  Qed.
End Quadratic.

(** A scale between consecutive multiples of the prime is coprime to it. *)
Lemma scale_coprime p s scale : 0 < p -> s * p + 1 <= scale <= (s + 1) * p - 1 -> ~ (p | scale).
Proof.
  intros Hp H (z & Hz). assert (s * p < z * p) as H1 by lia. assert (z * p < (s + 1) * p) as H2 by lia.
  apply Z.mul_lt_mono_pos_r in H1; [|exact Hp]. apply Z.mul_lt_mono_pos_r in H2; [|exact Hp]. lia.
Qed.

Lemma grid_sparse p scale : prime p -> ~ (p | scale) ->
  are_index_sequence_pair_sparse (zrange p) (map (fun i => (scale * (i * i)) mod p) (zrange p)) = true.
Proof.
  intros Hp Hs. pose proof (prime_ge_2 p Hp).
  assert (Hc : forall (g : Z -> Z -> Z),
    map (fun ab => g (fst ab) (snd ab))
      (combine (zrange p) (map (fun i => (scale * (i * i)) mod p) (zrange p)))
    = map (fun i => g i ((scale * (i * i)) mod p)) (zrange p)).
  { intros g. generalize (zrange p). intros l. induction l as [|x l IH]; cbn; [reflexivity|].
    f_equal. exact IH. }
  unfold are_index_sequence_pair_sparse.
  rewrite (Hc Z.add), (Hc Z.sub).
  rewrite !andb_true_iff. repeat split; apply sparse_intro.
  - intros v. rewrite <- (map_id (zrange p)). apply sparse_map; [apply zrange_nodup|]. auto.
  - apply sparse_map; [apply zrange_nodup|]. intros i j k Hi Hj Hk H1 H2.
    apply in_zrange in Hi, Hj, Hk.
    apply (quadratic_at_most_two p scale 0 Hp Hs); try assumption.
    + replace (scale * (i * i) + 0 * i - (scale * (j * j) + 0 * j)) with (scale * (i * i) - scale * (j * j)) by ring.
      apply mod_eq_divide; [lia|exact H1].
    + replace (scale * (i * i) + 0 * i - (scale * (k * k) + 0 * k)) with (scale * (i * i) - scale * (k * k)) by ring.
      apply mod_eq_divide; [lia|exact H2].
  - apply sparse_map; [apply zrange_nodup|]. intros i j k Hi Hj Hk H1 H2.
    apply in_zrange in Hi, Hj, Hk.
    assert (Hm : forall x, (i + (scale * (i * i)) mod p = x + (scale * (x * x)) mod p) ->
      (p | scale * (i * i) + 1 * i - (scale * (x * x) + 1 * x))).
    { intros x Hx.
      pose proof (Z.div_mod (scale * (i * i)) p ltac:(lia)). pose proof (Z.div_mod (scale * (x * x)) p ltac:(lia)).
      exists (scale * (i * i) / p - scale * (x * x) / p). lia. }
    apply (quadratic_at_most_two p scale 1 Hp Hs); auto.
  - apply sparse_map; [apply zrange_nodup|]. intros i j k Hi Hj Hk H1 H2.
    apply in_zrange in Hi, Hj, Hk.
    assert (Hm : forall x, (i - (scale * (i * i)) mod p = x - (scale * (x * x)) mod p) ->
      (p | scale * (i * i) + -1 * i - (scale * (x * x) + -1 * x))).
    { intros x Hx.
      pose proof (Z.div_mod (scale * (i * i)) p ltac:(lia)). pose proof (Z.div_mod (scale * (x * x)) p ltac:(lia)).
      exists (scale * (i * i) / p - scale * (x * x) / p). lia. }
    apply (quadratic_at_most_two p scale (-1) Hp Hs); auto.
Qed.

(** ** The points. *)
Lemma coordinate_ok l i : 0 <= i < lenZ l -> coordinate l i = Ok (nth (Z.to_nat i) l (Q2Qc 0)).
Proof.
  intros H. unfold coordinate. rewrite py_get_nth by exact H.
  rewrite (nth_error_nth' l (Q2Qc 0)); [reflexivity|]. unfold lenZ in H. lia.
Qed.
Definition at_index (l : list Qc) (i : Z) : Qc := nth (Z.to_nat i) l (Q2Qc 0).
Lemma at_index_in l i : 0 <= i < lenZ l -> In (at_index l i) l.
Proof. intros H. apply nth_In. unfold lenZ in H. lia. Qed.
Lemma at_index_inj l i j : NoDup l -> 0 <= i < lenZ l -> 0 <= j < lenZ l ->
  at_index l i = at_index l j -> i = j.
Proof.
  intros Hd Hi Hj H. unfold lenZ in *. apply (NoDup_nth l (Q2Qc 0)) in H; [lia|exact Hd|lia|lia].
Qed.

Lemma x_indices_ok p xs ys scale : prime p -> ~ (p | scale) -> p <= lenZ xs -> p <= lenZ ys ->
  x_indices_to_points p xs ys scale
  = Ok (map (fun i => Pt (at_index xs i) (at_index ys ((scale * (i * i)) mod p))) (zrange p)).
Proof.
  intros Hp Hs Hx Hy. pose proof (prime_ge_2 p Hp). unfold x_indices_to_points.
  rewrite grid_sparse by assumption. cbn [assert_ rbind]. apply mapM_total. intros i Hi.
  apply in_zrange in Hi. pose proof (Z.mod_pos_bound (scale * (i * i)) p ltac:(lia)).
  rewrite !coordinate_ok by lia. reflexivity.
Qed.
Lemma y_indices_ok p xs ys scale : prime p -> ~ (p | scale) -> p <= lenZ xs -> p <= lenZ ys ->
  y_indices_to_points p xs ys scale
  = Ok (map (fun i => Pt (at_index xs ((scale * (i * i)) mod p)) (at_index ys i)) (zrange p)).
Proof.
  intros Hp Hs Hx Hy. pose proof (prime_ge_2 p Hp). unfold y_indices_to_points.
  rewrite grid_sparse by assumption. cbn [assert_ rbind]. apply mapM_total. intros i Hi.
  apply in_zrange in Hi. pose proof (Z.mod_pos_bound (scale * (i * i)) p ltac:(lia)).
  rewrite !coordinate_ok by lia. reflexivity.
Qed.

Lemma x_points_spec p xs ys scale : prime p -> ~ (p | scale) -> p <= lenZ xs -> p <= lenZ ys ->
  NoDup xs -> NoDup ys ->
  let l := map (fun i => Pt (at_index xs i) (at_index ys ((scale * (i * i)) mod p))) (zrange p) in
  NoDup (map px l) /\ at_most_twice py l /\ lenZ l = p
  /\ forall q, In q l -> In (px q) xs /\ In (py q) ys.
Proof.
  intros Hp Hs Hx Hy Hdx Hdy l. pose proof (prime_ge_2 p Hp).
  assert (Hm : forall i, 0 <= (scale * (i * i)) mod p < p) by (intros; apply Z.mod_pos_bound; lia).
  repeat split.
  - unfold l. rewrite map_map. cbn [px].
    apply NoDup_map_inj; [|apply zrange_nodup].
    intros i j Hi Hj E. apply in_zrange in Hi, Hj. apply at_index_inj in E; auto; lia.
  - intros u v w Hu Hv Hw H1 H2. unfold l in *. apply in_map_iff in Hu, Hv, Hw.
    destruct Hu as (i & <- & Hi). destruct Hv as (j & <- & Hj). destruct Hw as (k & <- & Hk).
    cbn in H1, H2. apply in_zrange in Hi, Hj, Hk.
    pose proof (Hm i). pose proof (Hm j). pose proof (Hm k).
    apply at_index_inj in H1; [|exact Hdy|lia|lia]. apply at_index_inj in H2; [|exact Hdy|lia|lia].
    destruct (quadratic_at_most_two p scale 0 Hp Hs i j k) as [-> |[-> | ->]]; auto.
    + replace (scale * (i * i) + 0 * i - (scale * (j * j) + 0 * j)) with (scale * (i * i) - scale * (j * j)) by ring.
      apply mod_eq_divide; [lia|exact H1].
    + replace (scale * (i * i) + 0 * i - (scale * (k * k) + 0 * k)) with (scale * (i * i) - scale * (k * k)) by ring.
      apply mod_eq_divide; [lia|exact H2].
  - unfold l, lenZ. rewrite map_length, zrange_length. lia.
  - unfold l in *. apply in_map_iff in H0. destruct H0 as (i & <- & Hi). apply in_zrange in Hi. cbn.
    apply at_index_in; lia.
  - unfold l in *. apply in_map_iff in H0. destruct H0 as (i & <- & Hi). apply in_zrange in Hi. cbn.
    pose proof (Hm i). apply at_index_in; lia.
Qed.
Lemma y_points_spec p xs ys scale : prime p -> ~ (p | scale) -> p <= lenZ xs -> p <= lenZ ys ->
  NoDup xs -> NoDup ys ->
  let l := map (fun i => Pt (at_index xs ((scale * (i * i)) mod p)) (at_index ys i)) (zrange p) in
  NoDup (map py l) /\ at_most_twice px l /\ lenZ l = p
  /\ forall q, In q l -> In (px q) xs /\ In (py q) ys.
Proof.
  intros Hp Hs Hx Hy Hdx Hdy l.
  destruct (x_points_spec p ys xs scale Hp Hs Hy Hx Hdy Hdx) as (H1 & H2 & H3 & H4).
  set (l' := map (fun i => Pt (at_index ys i) (at_index xs ((scale * (i * i)) mod p))) (zrange p)) in *.
  assert (El : l = map (fun q => Pt (py q) (px q)) l') by (unfold l, l'; rewrite map_map; reflexivity).
  assert (Hin : forall q, In q l -> In (Pt (py q) (px q)) l').
  { intros q Hq. rewrite El in Hq. apply in_map_iff in Hq. destruct Hq as (r & <- & Hr). destruct r; exact Hr. }
  repeat split.
  - rewrite El, map_map. cbn. exact H1.
  - intros u v w Hu Hv Hw E1 E2. apply Hin in Hu, Hv, Hw.
    destruct (H2 _ _ _ Hu Hv Hw E1 E2) as [E|[E|E]]; injection E as Ea Eb; [left|right;left|right;right];
    apply point_ext; assumption.
  - rewrite El. unfold lenZ in *. rewrite map_length. exact H3.
  - apply Hin, H4 in H. apply H.
  - apply Hin, H4 in H. apply H.
Qed.
Lemma at_most_twice_nodup {A B} (f : A -> B) l : NoDup (map f l) -> at_most_twice f l.
Proof.
  intros H a b c Ha Hb _ E _. left.
  induction l as [|x l IH]; [destruct Ha|]. cbn in H. inversion H as [|? ? Hn Hd]; subst.
  destruct Ha as [<-|Ha], Hb as [<-|Hb]; auto.
  - exfalso. apply Hn. rewrite E. apply in_map, Hb.
  - exfalso. apply Hn. rewrite <- E. apply in_map, Ha.
Qed.

(** ** The strategy. *)
Record grid_ok (xs : scalars) (ys : option scalars) (mn : Z) (mx : option Z) (l : list point) : Prop := {
  grid_min : 3 <= mn;
  grid_lower : exists lower, to_next_prime mn = Ok lower /\ lower <= lenZ l;
  grid_upper : forall m lower, mx = Some m -> to_next_prime mn = Ok lower -> lenZ l <= Z.max m lower;
  grid_size : exists n xl yl, n = Z.min (lenZ xl) (lenZ yl) /\ NoDup xl /\ NoDup yl
    /\ (forall x, In x xl -> drawable xs x) /\ (forall y, In y yl -> drawable (ordinates xs ys) y)
    /\ largest_prime_below n (lenZ l) /\ (forall q, In q l -> In (px q) xl /\ In (py q) yl);
  grid_nodup : NoDup l;
  grid_once : NoDup (map px l) \/ NoDup (map py l);
  grid_twice : at_most_twice px l /\ at_most_twice py l;
  grid_drawable : forall q, In q l -> drawable_point xs ys q
}.

Lemma grid_sound xs ys mn mx l :
  generates (to_point_sequence_in_general_position_strategy xs ys mn mx) l ->
  grid_ok xs ys mn mx l.
Proof.
  unfold to_point_sequence_in_general_position_strategy. intros H.
  apply gen_bind in H. destruct H as (lower & Hl & H). apply gen_lift in Hl.
  apply gen_bind in H. destruct H as (xl & Hxl & H). apply gen_unique_scalars in Hxl.
  apply gen_bind in H. destruct H as (yl & Hyl & H). apply gen_unique_scalars in Hyl.
  apply gen_bind in H. destruct H as (p & Hp & H). apply gen_lift in Hp.
  destruct Hxl as (Hdx & _ & Hsx & Hinx). destruct Hyl as (Hdy & _ & Hsy & Hiny).
  destruct (to_next_prime_ge mn lower Hl) as (Hmn & Hpl & Hl5 & Hml & Hmin).
  set (xl' := isort qleb xl) in *. set (yl' := isort qleb yl) in *.
  assert (Hlx : lenZ xl' = lenZ xl) by (unfold lenZ, xl'; rewrite isort_length; reflexivity).
  assert (Hly : lenZ yl' = lenZ yl) by (unfold lenZ, yl'; rewrite isort_length; reflexivity).
  assert (Hdx' : NoDup xl') by (apply isort_nodup; exact Hdx).
  assert (Hdy' : NoDup yl') by (apply isort_nodup; exact Hdy).
  assert (Hinx' : forall x, In x xl' -> drawable xs x) by (intros x Hx; apply isort_in in Hx; apply Hinx; exact Hx).
  assert (Hiny' : forall y, In y yl' -> drawable (ordinates xs ys) y) by (intros y Hy; apply isort_in in Hy; apply Hiny; auto).
  destruct Hsx as (Hsx1 & Hsx2). destruct Hsy as (Hsy1 & Hsy2).
  destruct (to_prior_prime_spec (Z.min (lenZ xl') (lenZ yl')) ltac:(lia)) as (p' & E & Hpp & Hp5 & Hpmax).
  rewrite E in Hp. injection Hp as ->.
  assert (Hlow : lower <= p) by (apply Hpmax; [exact Hpl|lia]).
  assert (Hpx : p <= lenZ xl') by lia. assert (Hpy : p <= lenZ yl') by lia.
  assert (Hl_ : exists scale, ~ (p | scale) /\
    (x_indices_to_points p xl' yl' scale = Ok l \/ y_indices_to_points p xl' yl' scale = Ok l)).
  { apply gen_alt in H. destruct H as [H|H];
    (apply gen_bind in H; destruct H as (scale & Hsc & H); apply gen_lift in H;
     apply gen_bind in Hsc; destruct Hsc as (s & _ & Hsc); apply gen_integers in Hsc;
     destruct Hsc as (Ha & Hb); exists scale; split; [eapply scale_coprime; [lia|split; eassumption]|auto]). }
  assert (Hprops : (NoDup (map px l) /\ at_most_twice py l \/ NoDup (map py l) /\ at_most_twice px l)
     /\ lenZ l = p /\ forall q, In q l -> In (px q) xl' /\ In (py q) yl').
  { destruct Hl_ as (scale & Hs & [Hx|Hy]).
    - rewrite x_indices_ok in Hx by assumption. injection Hx as <-.
      destruct (x_points_spec p xl' yl' scale) as (H1 & H2 & H3 & H4); auto.
    - rewrite y_indices_ok in Hy by assumption. injection Hy as <-.
      destruct (y_points_spec p xl' yl' scale) as (H1 & H2 & H3 & H4); auto. }
  destruct Hprops as (Hc & Hlen & Hin).
  constructor.
  - exact Hmn.
  - exists lower. split; [exact Hl|lia].
  - intros m lower' -> E2. rewrite Hl in E2. injection E2 as <-.
    specialize (Hsx2 _ eq_refl). lia.
  - exists (Z.min (lenZ xl') (lenZ yl')), xl', yl'. rewrite Hlen.
    split; [reflexivity|]. split; [exact Hdx'|]. split; [exact Hdy'|]. split; [exact Hinx'|]. split; [exact Hiny'|].
    split; [|exact Hin]. split; [exact Hpp|]. split; [lia|]. exact Hpmax.
  - destruct Hc as [(H1 & _)|(H1 & _)]; apply NoDup_map_inv in H1; exact H1.
  - tauto.
  - destruct Hc as [(H1 & H2)|(H1 & H2)]; split; auto; apply at_most_twice_nodup; exact H1.
  - intros q Hq. apply Hin in Hq. split; [apply Hinx', Hq|apply Hiny', Hq].
Qed.

(** Exceptions. *)
Lemma grid_raises xs ys mn mx e : 3 <= mn ->
  can_raise (to_point_sequence_in_general_position_strategy xs ys mn mx) e ->
  exists lower, to_next_prime mn = Ok lower /\
  let upper := match mx with None => None | Some m => Some (Z.max m lower) end in
  (can_raise (unique_scalars xs lower upper) e \/ can_raise (unique_scalars (ordinates xs ys) lower upper) e).
Proof.
  intros Hmn. unfold to_point_sequence_in_general_position_strategy. intros H.
  destruct (to_next_prime_spec mn Hmn) as (lower & El & Hlp & Hl5 & _). exists lower. split; [exact El|].
  apply raise_bind in H. destruct H as [H|(lower' & Hl & H)].
  { apply raise_lift in H. congruence. }
  apply gen_lift in Hl. rewrite El in Hl. injection Hl as <-.
  apply raise_bind in H. destruct H as [H|(xl & Hxl & H)]; [left; exact H|].
  apply raise_bind in H. destruct H as [H|(yl & Hyl & H)]; [right; exact H|].
  apply gen_unique_scalars in Hxl, Hyl.
  destruct Hxl as (Hdx & _ & (Hsx & _) & _). destruct Hyl as (Hdy & _ & (Hsy & _) & _).
  set (xl' := isort qleb xl) in *. set (yl' := isort qleb yl) in *.
  assert (Hlx : lenZ xl' = lenZ xl) by (unfold lenZ, xl'; rewrite isort_length; reflexivity).
  assert (Hly : lenZ yl' = lenZ yl) by (unfold lenZ, yl'; rewrite isort_length; reflexivity).
  destruct (to_prior_prime_spec (Z.min (lenZ xl') (lenZ yl')) ltac:(lia)) as (p & E & Hpp & Hp5 & Hpmax).
  apply raise_bind in H. destruct H as [H|(p' & Hp & H)]; [apply raise_lift in H; congruence|].
  apply gen_lift in Hp. rewrite E in Hp. injection Hp as <-. exfalso.
  assert (Hsc : forall e, ~ can_raise (let! scale := integers 0 None in
    integers (scale * p + 1) (Some ((scale + 1) * p - 1))) e).
  { intros e' Hr. apply raise_bind in Hr. destruct Hr as [Hr|(s & _ & Hr)].
    - apply raise_integers in Hr. destruct Hr as (_ & h & Hh & _). discriminate.
    - apply raise_integers in Hr. destruct Hr as (_ & h & Hh & Hlt). injection Hh as <-. lia. }
  assert (Hco : forall scale, generates (let! scale := integers 0 None in
    integers (scale * p + 1) (Some ((scale + 1) * p - 1))) scale -> ~ (p | scale)).
  { intros scale Hg. apply gen_bind in Hg. destruct Hg as (s & _ & Hg). apply gen_integers in Hg.
    destruct Hg as (Ha & Hb). eapply scale_coprime; [lia|split; eassumption]. }
  apply raise_alt in H. destruct H as [H|H];
  (apply raise_bind in H; destruct H as [H|(scale & Hs & H)]; [eapply Hsc, H|];
   apply raise_lift in H; apply Hco in Hs).
  - rewrite x_indices_ok in H by (assumption || lia). discriminate.
  - rewrite y_indices_ok in H by (assumption || lia). discriminate.
Qed.

(** ** Exact description. *)
From Coq Require Import Sorted.
Lemma qleb_total x y : qleb x y = true \/ qleb y x = true.
Proof.
  rewrite !qleb_le. destruct (Qc_lt_eq_gt x y) as [H|[-> |H]]; [left; apply Qclt_le_weak, H | left; apply Qcle_refl | right; apply Qclt_le_weak, H].
Qed.
Lemma qleb_trans x y z : qleb x y = true -> qleb y z = true -> qleb x z = true.
Proof. rewrite !qleb_le. apply Qcle_trans. Qed.
Lemma sorted_strict l : StronglySorted (fun x y => qleb x y = true) l -> NoDup l -> StronglySorted Qclt l.
Proof.
  induction 1 as [|x l Hs IH Hf]; intros Hd; constructor; inversion Hd as [|? ? Hn Hd']; subst.
  - apply IH, Hd'.
  - rewrite Forall_forall in *. intros y Hy. specialize (Hf y Hy). apply qleb_le in Hf.
    apply Qcle_lt_or_eq in Hf. destruct Hf as [Hf| ->]; [exact Hf|contradiction].
Qed.
Lemma isort_strict l : NoDup l -> StronglySorted Qclt (isort qleb l).
Proof.
  intros Hd. apply sorted_strict; [apply isort_sorted; [apply qleb_total|apply qleb_trans]|apply isort_nodup, Hd].
Qed.
Lemma strict_nodup l : StronglySorted Qclt l -> NoDup l.
Proof.
  induction 1 as [|x l Hs IH Hf]; constructor; [|exact IH]. rewrite Forall_forall in Hf. intros Hin.
  apply Hf in Hin. revert Hin. apply Qlt_irrefl.
Qed.
Lemma isort_id l : StronglySorted Qclt l -> isort qleb l = l.
Proof.
  induction 1 as [|x l Hs IH Hf]; [reflexivity|]. cbn [isort]. rewrite IH.
  destruct l as [|y l]; [reflexivity|]. cbn [insert]. inversion Hf; subst.
  replace (qleb x y) with true; [reflexivity|]. symmetry. apply qleb_le. apply Qclt_le_weak. assumption.
Qed.

Lemma grid_exact xs ys mn mx l :
  generates (to_point_sequence_in_general_position_strategy xs ys mn mx) l <->
  3 <= mn /\
  exists lower xl yl p scale by_x,
    smallest_prime_above mn lower
    /\ StronglySorted Qclt xl /\ StronglySorted Qclt yl
    /\ size_ok (lenZ xl) lower (match mx with None => None | Some m => Some (Z.max m lower) end)
    /\ size_ok (lenZ yl) lower (match mx with None => None | Some m => Some (Z.max m lower) end)
    /\ (forall x, In x xl -> drawable xs x) /\ (forall y, In y yl -> drawable (ordinates xs ys) y)
    /\ largest_prime_below (Z.min (lenZ xl) (lenZ yl)) p
    /\ 0 < scale /\ ~ (p | scale)
    /\ l = grid_points xl yl p scale by_x.
Proof.
  unfold to_point_sequence_in_general_position_strategy. split.
  - intros H.
    apply gen_bind in H. destruct H as (lower & Hl & H). apply gen_lift in Hl.
    apply gen_bind in H. destruct H as (xl & Hxl & H). apply gen_unique_scalars in Hxl.
    apply gen_bind in H. destruct H as (yl & Hyl & H). apply gen_unique_scalars in Hyl.
    apply gen_bind in H. destruct H as (p & Hp & H). apply gen_lift in Hp.
    destruct Hxl as (Hdx & _ & Hsx & Hinx). destruct Hyl as (Hdy & _ & Hsy & Hiny).
    destruct (to_next_prime_ge mn lower Hl) as (Hmn & Hpl & Hl5 & Hml & Hmin).
    split; [exact Hmn|].
    set (xl' := isort qleb xl) in *. set (yl' := isort qleb yl) in *.
    assert (Hlx : lenZ xl' = lenZ xl) by (unfold lenZ, xl'; rewrite isort_length; reflexivity).
    assert (Hly : lenZ yl' = lenZ yl) by (unfold lenZ, yl'; rewrite isort_length; reflexivity).
    assert (Hinx' : forall x, In x xl' -> drawable xs x) by (intros x Hx; apply isort_in in Hx; apply Hinx; exact Hx).
    assert (Hiny' : forall y, In y yl' -> drawable (ordinates xs ys) y) by (intros y Hy; apply isort_in in Hy; apply Hiny; auto).
    pose proof Hsx as (Hsx1 & _). pose proof Hsy as (Hsy1 & _).
    destruct (to_prior_prime_spec (Z.min (lenZ xl') (lenZ yl')) ltac:(lia)) as (p' & E & Hpp & Hp5 & Hpmax).
    rewrite E in Hp. injection Hp as ->.
    assert (Hsc : exists scale by_x, 0 < scale /\ ~ (p | scale) /\ l = grid_points xl' yl' p scale by_x).
    { apply gen_alt in H. destruct H as [H|H];
      (apply gen_bind in H; destruct H as (scale & Hsc & H); apply gen_lift in H;
       apply gen_bind in Hsc; destruct Hsc as (s & Hs & Hsc); apply gen_integers in Hsc; apply gen_integers in Hs;
       destruct Hsc as (Ha & Hb); destruct Hs as (Hs & _); exists scale).
      - exists true. split; [nia|]. assert (Hc : ~ (p | scale)) by (eapply scale_coprime; [lia|split; eassumption]).
        split; [exact Hc|]. rewrite x_indices_ok in H by (assumption || lia). injection H as <-. reflexivity.
      - exists false. split; [nia|]. assert (Hc : ~ (p | scale)) by (eapply scale_coprime; [lia|split; eassumption]).
        split; [exact Hc|]. rewrite y_indices_ok in H by (assumption || lia). injection H as <-. reflexivity. }
    destruct Hsc as (scale & by_x & Hs0 & Hsp & ->).
    exists lower, xl', yl', p, scale, by_x. rewrite Hlx, Hly in *.
    split. { split; [exact Hpl|]. split; [lia|]. split; [exact Hml|exact Hmin]. }
    split; [apply isort_strict, Hdx|]. split; [apply isort_strict, Hdy|].
    split; [exact Hsx|]. split; [exact Hsy|]. split; [exact Hinx'|]. split; [exact Hiny'|].
    split; [split; [exact Hpp|]; split; [lia|exact Hpmax]|]. auto.
  - intros (Hmn & lower & xl & yl & p & scale & by_x & Hlow & Hsx & Hsy & Hzx & Hzy & Hix & Hiy & Hp & Hs0 & Hsp & ->).
    destruct (to_next_prime_spec mn Hmn) as (lower' & El & Hl1 & Hl2 & Hl3 & Hl4).
    destruct Hlow as (Hw1 & Hw2 & Hw3 & Hw4).
    assert (lower' = lower).
    { specialize (Hl4 lower Hw1 Hw2 Hw3). specialize (Hw4 lower' Hl1 ltac:(lia) Hl3). lia. }
    subst lower'. pose proof Hzx as (Hzx1 & _). pose proof Hzy as (Hzy1 & _).
    apply gen_bind. exists lower. split; [apply gen_lift; exact El|].
    apply gen_bind. exists xl. split.
    { apply gen_unique_scalars. split; [apply strict_nodup, Hsx|]. split; [lia|]. auto. }
    apply gen_bind. exists yl. split.
    { apply gen_unique_scalars. split; [apply strict_nodup, Hsy|]. split; [lia|]. auto. }
    rewrite !isort_id by assumption.
    destruct (to_prior_prime_spec (Z.min (lenZ xl) (lenZ yl)) ltac:(lia)) as (p' & E & Hpp & Hp5 & Hpmax).
    destruct Hp as (Hp1 & Hp2 & Hp3).
    assert (p' = p). { specialize (Hp3 p' Hpp ltac:(lia)). specialize (Hpmax p Hp1 ltac:(lia)). lia. }
    subst p'. apply gen_bind. exists p. split; [apply gen_lift; exact E|].
    assert (Hsc : generates (let! scale := integers 0 None in
      integers (scale * p + 1) (Some ((scale + 1) * p - 1))) scale).
    { apply gen_bind. exists (scale / p). split.
      - apply gen_integers. split; [apply Z.div_pos; lia|trivial].
      - apply gen_integers. pose proof (Z.div_mod scale p ltac:(lia)) as Hdm.
        pose proof (Z.mod_pos_bound scale p ltac:(lia)) as Hb.
        assert (scale mod p <> 0) by (intros E0; apply Hsp; apply Z.mod_divide; lia).
        split; nia. }
    apply gen_alt. destruct by_x; [left|right]; apply gen_bind; exists scale; (split; [exact Hsc|]); apply gen_lift.
    + rewrite x_indices_ok by (assumption || lia). reflexivity.
    + rewrite y_indices_ok by (assumption || lia). reflexivity.
Qed.
Lemma grid_sparse_spec xs ys mn mx l :
  generates (to_point_sequence_in_general_position_strategy xs ys mn mx) l ->
  mn <= lenZ l /\ NoDup l /\ (NoDup (map px l) \/ NoDup (map py l))
  /\ at_most_twice px l /\ at_most_twice py l /\ forall q, In q l -> drawable_point xs ys q.
Proof.
  intros H. apply grid_sound in H. destruct H as [H1 (lower & E & Hl) H3 H4 H5 H6 (H7 & H8) H9].
  apply to_next_prime_ge in E. split; [lia|]. auto.
Qed.
