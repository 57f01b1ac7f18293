(** Star contours are convex. *)
From Verif Require Import Base Geometry Ctx Utils Contracts Factories Prog Strategies Spec QcTac QcFast ProgProofs
  GeomProofs LoopProofs ListProofs CyclicProofs CompressProofs SegmentProofs GridProofs HelperProofs ConvexProofs
  StarProofs StarSpec StarFan StarOrder.
From Coq Require Import Lqa.
Open Scope Qc_scope.

(** ** Any fan. *)
Lemma sum_shift (g : nat -> Qc) n s : (forall k, g (k + n)%nat = g k) ->
  qsum (map (fun k => g (k + s)%nat) (seq 0 n)) = qsum (map g (seq 0 n)).
Proof.
  intros Hp.
  assert (Hq : forall l, qsum (l ++ [0]) = qsum l).
  { induction l as [|x l IH]; [reflexivity|]. cbn [app qsum fold_right]. unfold qsum in IH. rewrite IH. reflexivity. }
  assert (Hs : forall l x, qsum (l ++ [x]) = qsum l + x).
  { induction l as [|y l IH]; intros x; cbn [app qsum fold_right]; [ring|]. unfold qsum in IH. rewrite IH. ring. }
  induction s as [|s IH].
  - f_equal. apply map_ext. intros k. f_equal. lia.
  - rewrite <- IH. clear IH. destruct n as [|m]; [reflexivity|].
    transitivity (qsum (map (fun k => g (k + s)%nat) (seq 1 (S m)))).
    + rewrite <- seq_shift, map_map. f_equal. apply map_ext. intros k. f_equal. lia.
    + rewrite seq_S, map_app. cbn [map]. rewrite Hs. cbn [seq map qsum fold_right].
      replace (1 + m + s)%nat with (s + S m)%nat by lia. rewrite Hp. cbn [Nat.add]. unfold qsum. ring.
Qed.

Lemma fan_convex n p th O c : (3 <= n)%nat -> (forall k, p (k + n)%nat = p k) -> (forall k, (th (k + n)%nat == th k + 4)%Q) ->
  (forall k, (th k < th (S k))%Q) ->
  (forall i j, (i < j)%nat -> (th j - th i < 2)%Q -> left_turn O (p i) (p j)) ->
  (forall k, turn p k <> Q2Qc 0 /\ c <> p (S k) /\ in_angle (p (S k)) (p k) (p (S (S k))) c) ->
  (exists psi : Q,
    (forall k, left_turn O (p k) c -> exists z : Z, (0 < psi + 4 * inject_Z z - th k < 2)%Q)
    /\ (forall k, left_turn O c (p k) -> exists z : Z, (0 < th k - psi - 4 * inject_Z z < 2)%Q)) ->
  (forall q, qsum (map (fun k => (cross c q (p k) + cross c q (p (S k))) * cross c (p k) (p (S k))) (seq 0 n)) = 0) ->
  convexly n p 1 \/ convexly n p (- (1)).
Proof.
  intros Hn per thper inc rule angles angular balance.
  assert (D : (forall k, (k < n)%nat -> (th (S k) - th k < 2)%Q) \/ exists k, (k < n)%nat /\ (2 <= th (S k) - th k)%Q).
  { clear - th. induction n as [|m IH]; [left; intros; lia|]. destruct IH as [IH|(k & Hk & IH)].
    - destruct (Qlt_le_dec (th (S m) - th m) 2) as [H|H].
      + left. intros k Hk. destruct (Nat.eq_dec k m) as [->|E]; [exact H|apply IH; lia].
      + right. exists m. split; [lia|exact H].
    - right. exists k. split; [lia|exact IH]. }
  destruct D as [D|(k & Hk & D)].
  - left. apply (round n p th O Hn per thper inc rule c angles angular).
    intros k. assert (E : forall q r, (th (r + q * n)%nat == th r + 4 * inject_Z (Z.of_nat q))%Q).
    { induction q as [|q IHq]; intros r.
      - replace (r + 0 * n)%nat with r by lia. cbn [Z.of_nat]. change (inject_Z 0) with 0%Q. ring.
      - replace (r + S q * n)%nat with ((r + q * n) + n)%nat by lia. rewrite thper, IHq, Nat2Z.inj_succ, <- Z.add_1_r, inject_Z_plus.
        change (inject_Z 1) with 1%Q. ring. }
    pose proof (Nat.div_mod k n ltac:(lia)) as Dm. pose proof (Nat.mod_upper_bound k n ltac:(lia)) as B.
    pose proof (E (k / n)%nat (k mod n)) as E1. pose proof (E (k / n)%nat (S (k mod n))) as E2.
    replace (k mod n + k / n * n)%nat with k in E1 by nia. replace (S (k mod n) + k / n * n)%nat with (S k) in E2 by nia.
    pose proof (D (k mod n) B). lra.
  - set (s := S k). set (p' := fun j => p (j + s)%nat). set (th' := fun j => th (j + s)%nat).
    assert (C : convexly n p' 1 \/ convexly n p' (- (1))).
    { apply (half n p' th' O Hn) with (c := c).
      - intros j. unfold p'. replace (j + n + s)%nat with ((j + s) + n)%nat by lia. apply per.
      - intros j. unfold th'. replace (j + n + s)%nat with ((j + s) + n)%nat by lia. apply thper.
      - intros j. unfold th'. apply inc.
      - intros i j Hij. unfold th', p'. apply rule. lia.
      - intros j. apply (angles (j + s)%nat).
      - destruct angular as (a & A1 & A2). exists a. split; intros j; [apply A1|apply A2].
      - intros q. rewrite <- (balance q).
        apply (sum_shift (fun k => (cross c q (p k) + cross c q (p (S k))) * cross c (p k) (p (S k))) n s).
        intros j. cbn beta. replace (S (j + n)) with (S j + n)%nat by lia. rewrite !per. reflexivity.
      - unfold th', s. pose proof (thper k) as T. pose proof (thper (S k)) as T'. replace (n + S k)%nat with (S k + n)%nat by lia.
        replace (n - 1 + S k)%nat with (k + n)%nat by lia. lra. }
    assert (Tr : forall e, convexly n p' e -> convexly n p e).
    { intros e H j m H1 H2.
      assert (E : forall i, p i = p' (i + s * n - s)%nat).
      { intros i. unfold p'. replace (i + s * n - s + s)%nat with (i + s * n)%nat by nia.
        clear - per. generalize s. intros q. induction q as [|q IHq]; [f_equal; lia|].
        replace (i + S q * n)%nat with (i + q * n + n)%nat by lia. rewrite per. exact IHq. }
      rewrite (E j), (E (S j)), (E m). replace (S j + s * n - s)%nat with (S (j + s * n - s)) by nia.
      apply H; nia. }
    destruct C as [C|C]; [left|right]; apply Tr; exact C.
Qed.

(** ** Moving the center a little, so that it is no vertex. *)
Definition eventually (P : Qc -> Prop) : Prop := exists e0, 0 < e0 /\ forall e, 0 < e -> e <= e0 -> P e.
Lemma eventually_and P Q : eventually P -> eventually Q -> eventually (fun e => P e /\ Q e).
Proof.
  intros (a & Ha & P1) (b & Hb & P2). destruct (Qclt_le_dec a b) as [H|H].
  - exists a. split; [exact Ha|]. intros e H1 H2. split; [apply P1; assumption|apply P2; [assumption|clear - H H2; qcl]].
  - exists b. split; [exact Hb|]. intros e H1 H2. split; [apply P1; [assumption|clear - H H2; qcl]|apply P2; assumption].
Qed.
Lemma eventually_all {A} (P : A -> Qc -> Prop) l : (forall x, In x l -> eventually (P x)) ->
  eventually (fun e => forall x, In x l -> P x e).
Proof.
  induction l as [|x l IH]; intros H.
  - exists 1. split; [reflexivity|]. intros e _ _ x [].
  - destruct (eventually_and (P x) (fun e => forall y, In y l -> P y e)) as (e0 & E0 & E1).
    + apply H. left. reflexivity.
    + apply IH. intros y Hy. apply H. right. exact Hy.
    + exists e0. split; [exact E0|]. intros e G1 G2 y Hy. destruct (E1 e G1 G2) as (F1 & F2).
      destruct Hy as [<-|Hy]; [exact F1|apply F2; exact Hy].
Qed.
Lemma eventually_positive (a b : Qc) : 0 < a -> eventually (fun e => 0 < a + e * b).
Proof.
  intros Ha. destruct (Qclt_le_dec b 0) as [Hb|Hb].
  - exists (a / ((1 + 1) * - b)).
    assert (N : (1 + 1) * - b <> 0) by (intros E; clear - E Hb; qcl).
    assert (E : a / ((1 + 1) * - b) * ((1 + 1) * - b) = a) by (set (M := (1 + 1) * - b) in *; clearbody M; field; exact N).
    set (q := a / ((1 + 1) * - b)) in *. clearbody q.
    assert (Hq : 0 < q).
    { destruct (Qc_sign q) as [H|[H|H]]; [exact H|rewrite H in E; exfalso; clear - E Ha; qcl|exfalso; clear - E Ha H Hb; qcn]. }
    split; [exact Hq|]. intros e H1 H2. clear - E Ha Hb H1 H2. qcn.
  - exists 1. split; [reflexivity|]. intros e H1 _. assert (0 <= e * b) by (clear - H1 Hb; qcn). clear - Ha H. ql.
Qed.
Lemma eventually_imp (P Q : Qc -> Prop) : (forall e, 0 < e -> P e -> Q e) -> eventually P -> eventually Q.
Proof. intros H (e0 & E0 & E1). exists e0. split; [exact E0|]. intros e G1 G2. apply H; [exact G1|apply E1; assumption]. Qed.
Lemma smaller_moved x y x' y' : smaller_direction x y x' y' -> eventually (fun e => smaller_direction (x + e) y (x' + e) y').
Proof.
  intros [(H & K)|[(H & K & L)|(H & K & [L|(L & M & N)])]].
  - exists 1. split; [reflexivity|]. intros e _ _. left. auto.
  - eapply eventually_imp; [|apply (eventually_positive _ (y' - y) L)]. intros e _ G. right; left. split; [exact H|]. split; [exact K|].
    replace ((x + e) * y' - (x' + e) * y) with (x * y' - x' * y + e * (y' - y)) by ring. exact G.
  - eapply eventually_imp; [|apply (eventually_positive _ (y' - y) L)]. intros e _ G. right; right. split; [exact H|]. split; [exact K|]. left.
    replace ((x + e) * y' - (x' + e) * y) with (x * y' - x' * y + e * (y' - y)) by ring. exact G.
  - destruct N as [N|N].
    + exists 1. split; [reflexivity|]. intros e He _. right; right. split; [exact H|]. split; [exact K|]. right.
      split; [exact L|]. split; [clear - M He; qcl|]. auto.
    + eapply eventually_imp; [|apply (eventually_positive (- x') (- (1)) ltac:(clear - N; qcl))]. intros e He G. right; right.
      split; [exact H|]. split; [exact K|]. right. split; [exact L|]. split; [clear - M He; qcl|]. right. cbn beta in G. clear - G. qcl.
Qed.
Lemma nonzero_moved x y : eventually (fun e => x + e <> 0 \/ y <> 0).
Proof.
  destruct (Qclt_le_dec x 0) as [H|H].
  - eapply eventually_imp; [|apply (eventually_positive (- x) (- (1)) ltac:(clear - H; qcl))]. intros e He G. left. intros E. cbn beta in G.
    clear - E G. qcl.
  - exists 1. split; [reflexivity|]. intros e He _. left. intros E. clear - E He H. qcl.
Qed.

(** In the order of the directions from [O]. *)
Definition seen_in_order (O : point) (vs : list point) : Prop :=
  forall i j a b, (i < j)%nat -> nth_error vs i = Some a -> nth_error vs j = Some b ->
    smaller_direction (px a - px O) (py a - py O) (px b - px O) (py b - py O).
Lemma seen_moved O vs : seen_in_order O vs -> exists O', seen_in_order O' vs /\ ~ In O' vs.
Proof.
  intros H. set (P := fun (ij : nat * nat) (e : Qc) => forall a b, (fst ij < snd ij)%nat -> nth_error vs (fst ij) = Some a -> nth_error vs (snd ij) = Some b ->
    smaller_direction (px a - px O + e) (py a - py O) (px b - px O + e) (py b - py O)).
  destruct (eventually_and (fun e => forall ij, In ij (list_prod (seq 0 (length vs)) (seq 0 (length vs))) -> P ij e)
    (fun e => forall a, In a vs -> px a - px O + e <> 0 \/ py a - py O <> 0)) as (e & He & G).
  - apply eventually_all. intros (i, j) _. unfold P. cbn [fst snd].
    destruct (nth_error vs i) as [a|] eqn:Ea; [|exists 1; split; [reflexivity|]; intros e _ _ a b _ E; discriminate].
    destruct (nth_error vs j) as [b|] eqn:Eb; [|exists 1; split; [reflexivity|]; intros e _ _ a' b _ _ E; discriminate].
    destruct (Nat.lt_ge_cases i j) as [L|L]; [|exists 1; split; [reflexivity|]; intros e _ _ a' b' K; lia].
    eapply eventually_imp; [|apply (smaller_moved _ _ _ _ (H i j a b L Ea Eb))]. intros e _ G a' b' _ E1 E2.
    injection E1 as <-. injection E2 as <-. exact G.
  - apply eventually_all. intros a _. apply nonzero_moved.
  - destruct (G e He (Qcle_refl e)) as (G1 & G2). exists (Pt (px O - e) (py O)). split.
    + intros i j a b L Ea Eb. cbn [px py]. replace (px a - (px O - e)) with (px a - px O + e) by ring.
      replace (px b - (px O - e)) with (px b - px O + e) by ring.
      assert (Hi : (i < length vs)%nat) by (apply nth_error_Some; congruence).
      assert (Hj : (j < length vs)%nat) by (apply nth_error_Some; congruence).
      apply (G1 (i, j)); try assumption. apply in_prod; apply in_seq; lia.
    + intros Hin. destruct (G2 _ Hin) as [K|K]; apply K; cbn [px py]; ring.
Qed.

(** ** A contour as a periodic sequence. *)
Definition around_list (vs : list point) (d : point) (k : nat) : point := nth (k mod length vs) vs d.
Lemma around_per vs d k : (0 < length vs)%nat -> around_list vs d (k + length vs)%nat = around_list vs d k.
Proof.
  intros H. unfold around_list. rewrite <- (Nat.add_mod_idemp_r k (length vs)), Nat.mod_same, Nat.add_0_r by lia. reflexivity.
Qed.
Lemma around_small vs d k : (k < length vs)%nat -> around_list vs d k = nth k vs d.
Proof. intros H. unfold around_list. rewrite Nat.mod_small by exact H. reflexivity. Qed.
Lemma around_nth vs d k : (0 < length vs)%nat -> nth_error vs (k mod length vs) = Some (around_list vs d k).
Proof. intros H. unfold around_list. apply nth_error_nth'. apply Nat.mod_upper_bound. lia. Qed.
Lemma S_mod i n : (0 < n)%nat -> (S (i mod n) mod n = S i mod n)%nat.
Proof. intros H. rewrite <- (Nat.add_1_r (i mod n)), Nat.add_mod_idemp_l by lia. f_equal. lia. Qed.
Lemma SS_mod i n : (0 < n)%nat -> (S (S (i mod n)) mod n = S (S i) mod n)%nat.
Proof. intros H. rewrite <- (S_mod (S (i mod n)) n H), (S_mod i n H), (S_mod (S i) n H). reflexivity. Qed.
Lemma around_turn vs d k : (0 < length vs)%nat ->
  contour_turn vs (around_list vs d k) (around_list vs d (S k)) (around_list vs d (S (S k))).
Proof.
  intros H. exists (k mod length vs). split; [apply around_nth; exact H|].
  rewrite S_mod, SS_mod by exact H. split; apply around_nth; exact H.
Qed.

Lemma last_nth (l : list point) : forall x d d', last (x :: l) d = nth (length l) (x :: l) d'.
Proof.
  induction l as [|y l IH]; intros x d d'; [reflexivity|].
  change (last (x :: y :: l) d) with (last (y :: l) d). cbn [length]. exact (IH y d d').
Qed.
Lemma zip_seq {B} (f : point -> point -> B) vs d : (0 < length vs)%nat ->
  zip_with_prev f vs = map (fun k => f (around_list vs d (k + (length vs - 1))%nat) (around_list vs d (S (k + (length vs - 1))))) (seq 0 (length vs)).
Proof.
  intros H. destruct vs as [|x l]; [cbn in H; lia|]. set (vs := x :: l) in *.
  change (zip_with_prev f vs) with (map (fun ab => f (fst ab) (snd ab)) (combine (last vs x :: vs) vs)).
  assert (L : length (combine (last vs x :: vs) vs) = length vs) by (rewrite combine_length; cbn [length]; lia).
  apply nth_ext with (d := f d d) (d' := f d d).
  - rewrite !map_length, seq_length. exact L.
  - intros k Hk. rewrite map_length, L in Hk.
    rewrite (nth_indep _ (f d d) (f (fst (d, d)) (snd (d, d)))) by (rewrite map_length, L; exact Hk).
    rewrite (map_nth (fun ab => f (fst ab) (snd ab))).
    set (g := fun k => f (around_list vs d (k + (length vs - 1))%nat) (around_list vs d (S (k + (length vs - 1))))).
    rewrite (nth_indep (map g _) (f d d) (g 0%nat)) by (rewrite map_length, seq_length; exact Hk).
    rewrite (map_nth g), seq_nth by exact Hk. cbn [Nat.add]. unfold g.
    replace (S (k + (length vs - 1))) with (k + length vs)%nat by lia. rewrite around_per by exact H. rewrite (around_small vs d k Hk).
    assert (E : nth k (combine (last vs x :: vs) vs) (d, d) = (nth k (last vs x :: vs) d, nth k vs d)).
    { clear - Hk. generalize (last vs x). generalize dependent k. induction vs as [|y m IH]; intros k Hk z; [cbn in Hk; lia|].
      destruct k as [|k]; [reflexivity|]. cbn [length] in Hk. exact (IH k ltac:(lia) y). }
    rewrite E. cbn [fst snd]. f_equal. destruct k as [|k].
    + cbn [nth Nat.add]. rewrite around_small by lia. unfold vs. rewrite (last_nth l x x d). f_equal. cbn [length]. lia.
    + cbn [nth]. replace (S k + (length vs - 1))%nat with (k + length vs)%nat by lia. rewrite around_per by exact H.
      rewrite around_small by lia. reflexivity.
Qed.

Definition total (g : nat -> Qc) (n : nat) : Qc := qsum (map g (seq 0 n)).
Lemma total_ext f g n : (forall k, f k = g k) -> total f n = total g n.
Proof. intros H. unfold total. f_equal. apply map_ext, H. Qed.
Lemma total_linear a f b g n : total (fun k => a * f k + b * g k) n = a * total f n + b * total g n.
Proof.
  unfold total. induction (seq 0 n) as [|x l IH]; cbn [map qsum fold_right]; [ring|].
  unfold qsum in IH. rewrite IH. ring.
Qed.
Lemma total_telescope (g : nat -> Qc) n : (forall k, g (k + n)%nat = g k) -> total (fun k => g (S k) - g k) n = 0.
Proof.
  intros H. transitivity (total (fun k => 1 * g (k + 1)%nat + - (1) * g k) n).
  - apply total_ext. intros k. rewrite Nat.add_1_r. ring.
  - rewrite total_linear. unfold total. rewrite (sum_shift g n 1 H). ring.
Qed.
(** The first moments about the centroid vanish. *)
Lemma centroid_balance vs c d : (0 < length vs)%nat -> region_centroid vs = Ok c ->
  forall q, qsum (map (fun k => (cross c q (around_list vs d k) + cross c q (around_list vs d (S k)))
    * cross c (around_list vs d k) (around_list vs d (S k))) (seq 0 (length vs))) = 0.
Proof.
  intros H Hc q. unfold region_centroid in Hc. destruct (qeqb (doubled_area vs) 0) eqn:E0; [discriminate|].
  assert (Z : doubled_area vs <> 0) by (intros E; apply qeqb_eq in E; congruence).
  injection Hc as <-. set (p := around_list vs d). set (n := length vs) in *.
  assert (per : forall k, p (k + n)%nat = p k) by (intros k; apply around_per; exact H).
  assert (Sum : forall f : point -> point -> Qc, qsum (zip_with_prev f vs) = total (fun k => f (p k) (p (S k))) n).
  { intros f. rewrite (zip_seq f vs d H). fold n p. unfold total. symmetry.
    rewrite <- (sum_shift (fun k => f (p k) (p (S k))) n (n - 1)); [reflexivity|].
    intros k. cbn beta. replace (S (k + n)) with (S k + n)%nat by lia. rewrite !per. reflexivity. }
  unfold doubled_area in *. rewrite !Sum in *.
  set (D := total (fun k => shoelace (p k) (p (S k))) n) in *.
  set (Mx := total (fun k => (px (p k) + px (p (S k))) * shoelace (p k) (p (S k))) n).
  set (My := total (fun k => (py (p k) + py (p (S k))) * shoelace (p k) (p (S k))) n).
  assert (T : 1 + 1 + 1 <> 0) by (intros E; clear - E; qcl).
  set (cx := Mx / ((1 + 1 + 1) * D)). set (cy := My / ((1 + 1 + 1) * D)).
  assert (Ex : Mx = (1 + 1 + 1) * cx * D) by (unfold cx; field; auto).
  assert (Ey : My = (1 + 1 + 1) * cy * D) by (unfold cy; field; auto).
  clearbody cx cy. set (c := Pt cx cy).
  set (G := fun (cz : Qc) (z : point -> Qc) k => ((1 + 1) * cz - z (p k)) * shoelace c (p k)).
  assert (Gp : forall cz z k, G cz z (k + n)%nat = G cz z k) by (intros cz z k; unfold G; rewrite per; reflexivity).
  transitivity (total (fun k => 1 * ((px q - cx) * ((py (p k) + py (p (S k))) * shoelace (p k) (p (S k)))
      + - (px q - cx) * ((1 + 1 + 1) * cy * shoelace (p k) (p (S k)))) + 1 * ((px q - cx) * (G cy py (S k) - G cy py k)
      + 1 * (- (py q - cy) * ((px (p k) + px (p (S k))) * shoelace (p k) (p (S k)))
      + 1 * ((py q - cy) * ((1 + 1 + 1) * cx * shoelace (p k) (p (S k))) + - (py q - cy) * (G cx px (S k) - G cx px k))))) n).
  - apply total_ext. intros k. unfold G, cross, shoelace, c. cbn [px py]. ring.
  - rewrite !total_linear, !(total_telescope (G _ _) n (Gp _ _)). fold Mx My.
    assert (K : forall a, total (fun k => a * shoelace (p k) (p (S k))) n = a * D).
    { intros a. transitivity (total (fun k => a * shoelace (p k) (p (S k)) + 0 * 0) n); [apply total_ext; intros; ring|].
      rewrite (total_linear a _ 0 (fun _ => 0)). fold D. ring. }
    rewrite !K, Ex, Ey. ring.
Qed.

(** ** Points in the order of their directions form a fan. *)
Definition angle_of (O v : point) : Q := this (psi (px v - px O) (py v - py O)).
Lemma apart_coordinates O v : v <> O -> px v - px O <> 0 \/ py v - py O <> 0.
Proof.
  intros H. destruct (Qc_eq_dec (px v - px O) 0) as [E|E]; [right|left; exact E]. intros E'. apply H.
  destruct v as (a, b), O as (a', b'). cbn [px py] in *. f_equal; [clear - E; qcl|clear - E'; qcl].
Qed.
Lemma angle_range O v : v <> O -> (- 2 < angle_of O v <= 2)%Q.
Proof.
  intros H. destruct (psi_range _ _ (apart_coordinates O v H)) as (H1 & H2). unfold angle_of.
  set (z := psi _ _) in *. clearbody z. revert H1 H2. qc_unfold. qc_push. lra.
Qed.
Lemma angle_turn O u v : u <> O -> v <> O ->
  (left_turn O u v <-> (0 < angle_of O v - angle_of O u < 2 \/ angle_of O v - angle_of O u < - 2)%Q).
Proof.
  intros Hu Hv. unfold left_turn. pose proof (psi_cross _ _ _ _ (apart_coordinates O u Hu) (apart_coordinates O v Hv)) as H.
  replace (cross O u v) with ((px u - px O) * (py v - py O) - (px v - px O) * (py u - py O)) by (unfold cross; ring).
  rewrite H. unfold angle_of. set (a := psi (px v - px O) (py v - py O)). set (b := psi (px u - px O) (py u - py O)). clearbody a b. clear.
  qc_unfold. qc_push. split; intros [G|G]; try (left; lra); right; lra.
Qed.
Lemma angle_smaller O u v : u <> O -> v <> O ->
  smaller_direction (px u - px O) (py u - py O) (px v - px O) (py v - py O) -> (angle_of O u < angle_of O v)%Q.
Proof.
  intros Hu Hv H. apply (proj1 (smaller_psi _ _ _ _ (apart_coordinates O u Hu) (apart_coordinates O v Hv))) in H. exact H.
Qed.

Lemma seen_convexly O vs c : (3 <= length vs)%nat -> seen_in_order O vs -> strict vs -> region_centroid vs = Ok c ->
  (forall a b d, contour_turn vs a b d -> c <> b /\ in_angle b a d c) ->
  forall d, convexly (length vs) (around_list vs d) 1 \/ convexly (length vs) (around_list vs d) (- (1)).
Proof.
  intros Hn Hs Hst Hc Ha d. destruct (seen_moved O vs Hs) as (O' & Hs' & Hin). clear O Hs. rename O' into O. rename Hs' into Hs.
  set (n := length vs) in *. set (p := around_list vs d).
  assert (per : forall k, p (k + n)%nat = p k) by (intros k; apply around_per; fold n; lia).
  assert (In_p : forall k, In (p k) vs) by (intros k; eapply nth_error_In; apply (around_nth vs d k); fold n; lia).
  assert (Ne : forall k, p k <> O) by (intros k E; apply Hin; rewrite <- E; apply In_p).
  set (turns := fun k => (k / n)%nat). set (th := fun k => (angle_of O (p k) + 4 * inject_Z (Z.of_nat (k / n)))%Q).
  assert (Bound : forall k, (- 2 < angle_of O (p k) <= 2)%Q) by (intros k; apply angle_range, Ne).
  assert (thper : forall k, (th (k + n)%nat == th k + 4)%Q).
  { intros k. unfold th. rewrite per. replace ((k + n) / n)%nat with (k / n + 1)%nat.
    - rewrite Nat2Z.inj_add, inject_Z_plus. change (inject_Z (Z.of_nat 1)) with 1%Q. ring.
    - replace (k + n)%nat with (k + 1 * n)%nat by lia. rewrite Nat.div_add by lia. reflexivity. }
  assert (inc : forall k, (th k < th (S k))%Q).
  { intros k. unfold th. pose proof (Nat.div_mod k n ltac:(lia)) as D. pose proof (Nat.mod_upper_bound k n ltac:(lia)) as B.
    destruct (Nat.eq_dec (S (k mod n)) n) as [E|E].
    - replace (S k / n)%nat with (k / n + 1)%nat.
      + rewrite Nat2Z.inj_add, inject_Z_plus. change (inject_Z (Z.of_nat 1)) with 1%Q. pose proof (Bound k). pose proof (Bound (S k)). lra.
      + apply Nat.div_unique with (r := 0%nat); [lia|]. rewrite D at 1. nia.
    - replace (S k / n)%nat with (k / n)%nat by (apply Nat.div_unique with (r := S (k mod n)); nia).
      assert (A : (angle_of O (p k) < angle_of O (p (S k)))%Q); [|lra].
      apply angle_smaller; [apply Ne|apply Ne|]. apply (Hs (k mod n) (S (k mod n))); [lia| |].
      + apply around_nth. fold n. lia.
      + replace (S (k mod n)) with (S k mod length vs)%nat; [apply around_nth; fold n; lia|]. fold n.
        rewrite <- S_mod by lia. apply Nat.mod_small. lia. }
  assert (inclt : forall i j, (i < j)%nat -> (th i < th j)%Q).
  { intros i j H. induction H as [|j H IH]; [apply inc|]. pose proof (inc j). lra. }
  assert (rule : forall i j, (i < j)%nat -> (th j - th i < 2)%Q -> left_turn O (p i) (p j)).
  { intros i j Hij H. apply (angle_turn O _ _ (Ne i) (Ne j)). pose proof (inclt i j Hij) as L. unfold th in H, L.
    assert (Hd : (i / n <= j / n)%nat) by (apply Nat.div_le_mono; lia).
    pose proof (Bound i). pose proof (Bound j).
    destruct (Nat.eq_dec (i / n) (j / n)) as [E|E]; [rewrite E in *; left; lra|right].
    assert (inject_Z (Z.of_nat (i / n)) + 1 <= inject_Z (Z.of_nat (j / n)))%Q.
    { change 1%Q with (inject_Z 1). rewrite <- inject_Z_plus, <- Zle_Qle. lia. }
    lra. }
  apply (fan_convex n p th O c Hn per thper inc rule).
  - intros k. assert (Ht : contour_turn vs (p k) (p (S k)) (p (S (S k)))) by (apply around_turn; fold n; lia).
    split; [apply (Hst _ _ _ Ht)|apply (Ha _ _ _ Ht)].
  - exists (angle_of O c). split; intros k H.
    + assert (Nc : c <> O).
      { intros ->. unfold left_turn in H. replace (cross O (p k) O) with (Q2Qc 0) in H by (unfold cross; ring). revert H. apply Qlt_irrefl. }
      apply (angle_turn O _ _ (Ne k) Nc) in H. pose proof (angle_range O c Nc). pose proof (Bound k). unfold th. destruct H as [H|H].
      * exists (Z.of_nat (k / n)). lra.
      * exists (Z.of_nat (k / n) + 1)%Z. rewrite inject_Z_plus. change (inject_Z 1) with 1%Q. lra.
    + assert (Nc : c <> O).
      { intros ->. unfold left_turn in H. replace (cross O O (p k)) with (Q2Qc 0) in H by (unfold cross; ring). revert H. apply Qlt_irrefl. }
      apply (angle_turn O _ _ Nc (Ne k)) in H. pose proof (angle_range O c Nc). pose proof (Bound k). unfold th. destruct H as [H|H].
      * exists (Z.of_nat (k / n)). lra.
      * exists (Z.of_nat (k / n) - 1)%Z. unfold Z.sub. rewrite inject_Z_plus. change (inject_Z (- (1))) with (- (1))%Q. lra.
  - apply centroid_balance; [fold n; lia|exact Hc].
Qed.

(** ** In terms of the contour. *)
Lemma convexly_edges vs d s : (3 <= length vs)%nat -> convexly (length vs) (around_list vs d) s ->
  NoDup vs /\ forall a b, contour_edge vs a b -> forall e, In e vs -> e <> a -> e <> b -> 0 < s * cross a b e.
Proof.
  intros Hn H. set (n := length vs) in *.
  assert (F : forall i j, (i < n)%nat -> (j < n)%nat -> j <> i -> j <> (S i mod n)%nat ->
    0 < s * cross (around_list vs d i) (around_list vs d (S i)) (around_list vs d j)).
  { intros i j Hi Hj N1 N2.
    assert (G : exists m, (S i < m)%nat /\ (m < i + n)%nat /\ around_list vs d m = around_list vs d j).
    { destruct (Nat.lt_ge_cases i j) as [L|L].
      - exists j. rewrite Nat.mod_small in N2 by lia. split; [lia|]. split; [lia|reflexivity].
      - exists (j + n)%nat. destruct (Nat.eq_dec (S i) n) as [E|E].
        + rewrite E, Nat.mod_same in N2 by lia. split; [lia|]. split; [lia|apply around_per; fold n; lia].
        + split; [lia|]. split; [lia|apply around_per; fold n; lia]. }
    destruct G as (m & M1 & M2 & <-). apply (H i m M1 M2). }
  assert (Hd : NoDup vs).
  { apply NoDup_nth_error. intros i j Hi E. fold n in Hi.
    assert (Hj : (j < n)%nat) by (apply nth_error_Some; rewrite <- E; apply nth_error_Some; exact Hi).
    destruct (Nat.eq_dec i j) as [|N]; [assumption|exfalso].
    assert (Ep : around_list vs d i = around_list vs d j).
    { rewrite (around_small vs d i Hi), (around_small vs d j Hj).
      rewrite (nth_error_nth' vs d Hi), (nth_error_nth' vs d Hj) in E. injection E as ->. reflexivity. }
    destruct (Nat.eq_dec j (S i mod n)%nat) as [E1|E1].
    - assert (Ek : exists k, (k < n)%nat /\ k <> i /\ k <> (S i mod n)%nat).
      { clear - Hn. set (t := (S i mod n)%nat). clearbody t.
        destruct (Nat.eq_dec i 0), (Nat.eq_dec t 0), (Nat.eq_dec i 1), (Nat.eq_dec t 1);
        first [exists 0%nat; lia|exists 1%nat; lia|exists 2%nat; lia]. }
      destruct Ek as (k & K1 & K2 & K3). pose proof (F i k Hi K1 K2 K3) as L.
      assert (E2 : around_list vs d (S i) = around_list vs d i).
      { rewrite Ep, E1. unfold around_list. fold n. rewrite Nat.mod_mod by lia. reflexivity. }
      rewrite E2 in L. replace (s * cross _ _ _) with (Q2Qc 0) in L by (unfold cross; ring). revert L. apply Qlt_irrefl.
    - pose proof (F i j Hi Hj ltac:(auto) E1) as L. rewrite Ep in L.
      replace (s * cross _ _ _) with (Q2Qc 0) in L by (unfold cross; ring). revert L. apply Qlt_irrefl. }
  split; [exact Hd|]. intros a b (i & Ea & Eb) e He Na Nb. fold n in Eb.
  assert (Hi : (i < n)%nat) by (apply nth_error_Some; congruence).
  apply In_nth_error in He. destruct He as (j & Ej). assert (Hj : (j < n)%nat) by (apply nth_error_Some; congruence).
  assert (Pa : around_list vs d i = a) by (rewrite around_small by exact Hi; apply nth_error_nth; exact Ea).
  assert (Pb : around_list vs d (S i) = b) by (unfold around_list; fold n; apply nth_error_nth; exact Eb).
  assert (Pe : around_list vs d j = e) by (rewrite around_small by exact Hj; apply nth_error_nth; exact Ej).
  rewrite <- Pa, <- Pb, <- Pe. apply F; [exact Hi|exact Hj| |].
  - intros ->. congruence.
  - intros ->. congruence.
Qed.
