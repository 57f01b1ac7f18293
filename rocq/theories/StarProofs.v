(** Star contours. *)
From Verif Require Import Base Geometry Ctx Utils Contracts Factories Prog Strategies Spec QcTac ProgProofs
  GeomProofs LoopProofs ListProofs CyclicProofs CompressProofs SegmentProofs GridProofs HelperProofs ConvexProofs.
From Coq Require Import Lqa.

Lemma subsequence_length {A} (l m : list A) : subsequence l m -> length l <= length m.
Proof. induction 1; cbn [length]; lia. Qed.
Lemma subsequence_full {A} (l m : list A) : subsequence l m -> length l = length m -> l = m.
Proof.
  induction 1 as [|x l m H IH|x l m H IH]; intros E; [reflexivity| |].
  - apply subsequence_length in H. cbn [length] in E. lia.
  - cbn [length] in E. f_equal. apply IH. lia.
Qed.
Lemma subsequence_nodup {A} (l m : list A) : subsequence l m -> NoDup m -> NoDup l.
Proof.
  induction 1 as [|x l m H IH|x l m H IH]; intros Hd; inversion Hd; subst; auto.
  constructor; [|auto]. intros Hin. apply (subsequence_incl _ _ H) in Hin. contradiction.
Qed.
Lemma remove_nth_subsequence {A} k (l : list A) : subsequence (remove_nth k l) l.
Proof.
  revert k; induction l as [|x l IH]; intros k; destruct k; cbn [remove_nth]; try apply subsequence_refl.
  - apply sub_skip, subsequence_refl.
  - apply sub_keep, IH.
Qed.
Lemma py_del_subsequence {A} (l : list A) i : subsequence (py_del l i) l.
Proof. unfold py_del. destruct (py_index l i); [apply remove_nth_subsequence|apply subsequence_refl]. Qed.
Lemma remove_nth_shorter {A} k (l : list A) : k < length l -> length (remove_nth k l) < length l.
Proof.
  revert k; induction l as [|x l IH]; intros k H; cbn [length] in *; [lia|]. destruct k; cbn [remove_nth length]; [lia|].
  specialize (IH k ltac:(lia)). lia.
Qed.
Lemma py_del_shorter {A} (l : list A) i : (0 <= i < lenZ l)%Z -> length (py_del l i) < length l.
Proof.
  intros H. unfold lenZ in H. unfold py_del, py_index. replace (0 <=? i)%Z with true by lia.
  replace (i <? Z.of_nat (length l))%Z with true by lia. apply remove_nth_shorter. lia.
Qed.

(** ** Dropping vertices. *)
Lemma drop_subsequence fuel : forall i c vs, subsequence (drop_bad_angles fuel i c vs) vs.
Proof.
  induction fuel as [|fuel IH]; intros i c vs; cbn [drop_bad_angles]; [apply subsequence_refl|].
  destruct (Z.max i 2 <? lenZ vs)%Z; [|apply subsequence_refl].
  destruct (angle_contains_point _ _ _ _).
  - apply IH.
  - eapply subsequence_trans; [apply IH|apply py_del_subsequence].
Qed.
Definition angle_at (vs : list point) (i : Z) (c : point) : bool :=
  angle_contains_point (vget vs i) (vget vs (i - 1)) (vget vs ((i + 1) mod lenZ vs)) c.
Lemma drop_unchanged fuel : forall i c vs, (0 <= i)%Z -> (2 < lenZ vs)%Z -> (lenZ vs - i <= Z.of_nat fuel)%Z ->
  length (drop_bad_angles fuel i c vs) = length vs ->
  forall j, (i <= j < lenZ vs)%Z -> angle_at vs j c = true.
Proof.
  induction fuel as [|fuel IH]; intros i c vs Hi Hl Hf; cbn [drop_bad_angles].
  { intros _ j Hj. lia. }
  destruct (Z.ltb_spec (Z.max i 2) (lenZ vs)) as [Hlt|Hge]; [|intros _ j Hj; lia].
  fold (angle_at vs i c). destruct (angle_at vs i c) eqn:E.
  - intros H j Hj. destruct (Z.eq_dec j i) as [-> |Hne]; [exact E|].
    apply (IH (i + 1)%Z c vs); lia.
  - intros H. exfalso. pose proof (drop_subsequence fuel (i + 1) c (py_del vs i)) as Hs.
    apply subsequence_length in Hs. pose proof (py_del_shorter vs i ltac:(lia)). lia.
Qed.

(** ** Grouping. *)
Lemma last_of_groups_subsequence l : subsequence (last_of_groups l) (map snd l).
Proof.
  induction l as [|a l IH]; [constructor|]. cbn [last_of_groups map]. destruct l as [|b l].
  - cbn [map]. apply sub_keep, sub_nil.
  - destruct (qeqb (fst a) (fst b)); [apply sub_skip, IH|apply sub_keep, IH].
Qed.
Lemma mapM_snd {A} (f : A -> res Qc) l keyed :
  mapM (fun p => let* a := f p in Ok (a, p)) l = Ok keyed -> map snd keyed = l.
Proof.
  intros H. apply mapM_ok in H. induction H as [|x y l l' Hx H IH]; [reflexivity|]. cbn [map].
  destruct (f x) as [a|e] eqn:E; cbn [rbind] in Hx; [|discriminate]. injection Hx as <-. cbn [snd]. f_equal. exact IH.
Qed.
Lemma grouped_spec ctx c result keyed :
  mapM (fun p => let* a := to_segment_angle ctx c p in Ok (a, p)) result = Ok keyed ->
  let r := last_of_groups (isort angle_point_leb keyed) in
  incl r result /\ length r <= length result /\ (NoDup result -> NoDup r).
Proof.
  intros H r. pose proof (mapM_snd _ _ _ H) as E.
  pose proof (last_of_groups_subsequence (isort angle_point_leb keyed)) as Hs. fold r in Hs.
  assert (Hp : Permutation result (map snd (isort angle_point_leb keyed))).
  { rewrite <- E. apply Permutation_map, isort_perm. }
  split; [|split].
  - intros p Hp'. apply (subsequence_incl _ _ Hs) in Hp'. apply (Permutation_in _ (Permutation_sym Hp)). exact Hp'.
  - apply subsequence_length in Hs. rewrite (Permutation_length Hp). exact Hs.
  - intros Hd. apply (subsequence_nodup _ _ Hs). apply (Permutation_NoDup Hp Hd).
Qed.

(** ** One iteration. *)
Definition star_fixed (c : point) (r : list point) : Prop :=
  strict r /\ region_centroid r = Ok c /\ forall j, (0 <= j < lenZ r)%Z -> angle_at r j c = true.
Lemma star_step_spec ctx c0 result c r : NoDup result ->
  star_step ctx c0 result = Ok (c, r) ->
  incl r result /\ NoDup r /\ length r <= length result
  /\ (length r = length result -> length r <= 2 \/ star_fixed c r).
Proof.
  intros Hd. unfold star_step.
  destruct (mapM _ result) as [keyed|e] eqn:Ek; cbn [rbind]; [|discriminate].
  destruct (grouped_spec ctx c0 result keyed Ek) as (Hi & Hl & Hn). specialize (Hn Hd).
  set (r1 := last_of_groups (isort angle_point_leb keyed)) in *.
  destruct (Z.ltb_spec 2 (lenZ r1)) as [Hlt|Hge].
  - destruct (region_centroid r1) as [c1|e] eqn:Ec; cbn [rbind]; [|discriminate].
    pose proof (drop_subsequence (S (length r1)) 0 c1 r1) as Hs.
    remember (drop_bad_angles (S (length r1)) 0 c1 r1) as r2 eqn:Er2.
    intros H. injection H as <- <-.
    pose proof (compress_subsequence r2) as Hc.
    assert (Hd2 : NoDup r2) by (apply (subsequence_nodup _ _ Hs Hn)).
    split; [|split; [|split]].
    + intros p Hp. apply Hi. apply (subsequence_incl _ _ Hs). apply (subsequence_incl _ _ Hc). exact Hp.
    + apply compress_nodup. exact Hd2.
    + apply subsequence_length in Hs, Hc. lia.
    + intros E. pose proof (subsequence_length _ _ Hs) as L1. pose proof (subsequence_length _ _ Hc) as L2.
      assert (E2 : r2 = r1) by (apply subsequence_full; [exact Hs|lia]).
      assert (E3 : compress_contour r2 = r2) by (apply subsequence_full; [exact Hc|lia]).
      right. rewrite E3, E2. split; [|split; [exact Ec|]].
      * destruct (compress_strict r2 Hd2) as [H|H]; [|rewrite <- E2, <- E3; exact H].
        exfalso. unfold lenZ in Hlt. rewrite E2 in *. lia.
      * intros j Hj. apply (drop_unchanged (S (length r1)) 0); unfold lenZ in *; try lia.
        rewrite <- Er2, E2. reflexivity.
  - intros H. injection H as <- <-. split; [exact Hi|]. split; [exact Hn|]. split; [exact Hl|].
    intros _. left. unfold lenZ in Hge. lia.
Qed.

Lemma star_spec ctx points vs : NoDup points -> to_star_contour_vertices ctx points = Ok vs ->
  incl vs points /\ NoDup vs /\ (length vs <= 2 \/ exists c, star_fixed c vs).
Proof.
  intros Hd. unfold to_star_contour_vertices.
  apply (while_ok (fun st : point * list point * Z => let '(c, r, prev) := st in
    incl r points /\ NoDup r /\ (lenZ r <= prev)%Z /\ (lenZ r = prev -> length r <= 2 \/ star_fixed c r))
    (fun vs => incl vs points /\ NoDup vs /\ (length vs <= 2 \/ exists c, star_fixed c vs))).
  - intros ((c, r), prev) (H1 & H2 & H3 & H4).
    destruct (Z.ltb_spec 2 (lenZ r)) as [Hl|Hl]; cbn [andb].
    + destruct (Z.ltb_spec (lenZ r) prev) as [Hp|Hp]; cbn [andb].
      * destruct (star_step ctx c r) as [(c', r')|e] eqn:E; cbn [rbind]; [|exact I].
        apply (star_step_spec ctx c r c' r' H2) in E. destruct E as (E1 & E2 & E3 & E4).
        split; [eapply incl_tran; eassumption|]. split; [exact E2|]. unfold lenZ. split; [lia|].
        intros E. apply E4. lia.
      * split; [exact H1|]. split; [exact H2|]. destruct (H4 ltac:(lia)) as [H|H]; [auto|right; exists c; exact H].
    + split; [exact H1|]. split; [exact H2|]. left. unfold lenZ in Hl. lia.
  - split; [apply incl_refl|]. split; [exact Hd|]. split; [lia|]. intros H. lia.
Qed.

(** ** In terms of turns. *)
Lemma angle_at_turn (vs : contour) c : 2 <= length vs ->
  (forall j, (0 <= j < lenZ vs)%Z -> angle_at vs j c = true) ->
  forall a b d, contour_turn vs a b d -> angle_contains_point b a d c = true.
Proof.
  intros Hl H a b d (i & Ha & Hb & Hd).
  assert (Hi : i < length vs) by (apply nth_error_Some; congruence).
  set (j := S i mod length vs) in *.
  assert (Hj : j < length vs) by (apply Nat.mod_upper_bound; lia).
  specialize (H (Z.of_nat j)). unfold lenZ in H. specialize (H ltac:(lia)). unfold angle_at in H.
  assert (Hget : forall k p, nth_error vs k = Some p -> vget vs (Z.of_nat k) = p).
  { intros k p Hk. assert (k < length vs) by (apply nth_error_Some; congruence).
    unfold vget. rewrite py_get_nth by (unfold lenZ; lia). rewrite Nat2Z.id, Hk. reflexivity. }
  rewrite (Hget j b Hb) in H.
  assert (E1 : vget vs (Z.of_nat j - 1) = a).
  { destruct (Nat.eq_dec (S i) (length vs)) as [E|E].
    - assert (Ej : j = 0) by (unfold j; rewrite E; apply Nat.mod_same; lia). rewrite Ej. cbn [Z.of_nat].
      rewrite vget_neg by (unfold lenZ; lia). replace (Z.to_nat (lenZ vs + (0 - 1))) with i by (unfold lenZ; lia).
      apply nth_error_nth. exact Ha.
    - assert (Ej : j = S i) by (unfold j; apply Nat.mod_small; lia). rewrite Ej.
      replace (Z.of_nat (S i) - 1)%Z with (Z.of_nat i) by lia. apply Hget, Ha. }
  assert (E2 : vget vs ((Z.of_nat j + 1) mod lenZ vs) = d).
  { replace ((Z.of_nat j + 1) mod lenZ vs)%Z with (Z.of_nat (S j mod length vs)).
    - apply Hget. rewrite <- Hd. f_equal. unfold j.
      rewrite <- (Nat.add_1_r (S i)), <- (Nat.add_mod_idemp_l (S i) 1), Nat.add_1_r by lia. reflexivity.
    - unfold lenZ. rewrite Nat2Z.inj_mod. f_equal. lia. }
  rewrite E1, E2 in H. exact H.
Qed.

Lemma turn_of_edge (vs : contour) a b : 0 < length vs -> contour_edge vs a b ->
  exists c, contour_turn vs a b c.
Proof.
  intros Hl (i & Ha & Hb). set (k := S (S i) mod length vs).
  assert (k < length vs) by (apply Nat.mod_upper_bound; lia).
  destruct (nth_error vs k) as [c|] eqn:E; [|apply nth_error_None in E; lia].
  exists c, i. auto.
Qed.

Lemma star_strategy_spec ctx xs ys mn mx vs : (3 <= mn)%Z ->
  generates (to_star_vertex_sequence_strategy ctx xs ys mn mx) vs ->
  size_ok (lenZ vs) mn mx /\ NoDup vs /\ (forall p, In p vs -> drawable_point xs ys p)
  /\ strict vs /\ exists c, region_centroid vs = Ok c
    /\ forall a b d, contour_turn vs a b d -> c <> b /\ in_angle b a d c.
Proof.
  intros Hmn H. unfold to_star_vertex_sequence_strategy in H.
  apply gen_pfilter in H. destruct H as (H & Hs). apply size_valid in Hs.
  apply gen_bind in H. destruct H as (points & Hp & H). apply gen_lift in H. apply grid_sound in Hp.
  apply star_spec in H; [|apply (grid_nodup _ _ _ _ _ Hp)]. destruct H as (Hi & Hd & Hc).
  split; [exact Hs|]. split; [exact Hd|]. split; [intros p Hpi; apply (grid_drawable _ _ _ _ _ Hp), Hi, Hpi|].
  destruct Hs as (Hs & _). unfold lenZ in Hs.
  destruct Hc as [Hc|(c & Hst & Ec & Ha)]; [lia|]. split; [exact Hst|]. exists c. split; [exact Ec|].
  intros a b d Ht. apply (angle_contains_spec b a d c).
  - intros E. apply (Hst a b d Ht). apply (proj2 (collinear_rot a b d)).
    apply collinear_swap. exact E.
  - apply (angle_at_turn vs c); [lia|exact Ha|exact Ht].
Qed.

(** ** One direction. *)
Lemma sign_same_iff (x y : Qc) : (0 < x * y)%Qc <-> ((0 < x)%Qc /\ (0 < y)%Qc) \/ ((x < 0)%Qc /\ (y < 0)%Qc).
Proof.
  split.
  - intros H. destruct (Qc_lt_eq_gt x 0) as [Hx|[Hx|Hx]]; destruct (Qc_lt_eq_gt y 0) as [Hy|[Hy|Hy]]; try subst; auto;
    exfalso; qcn.
  - intros [(H1 & H2)|(H1 & H2)]; qcn.
Qed.
(** In an angle whose sides' lines miss [c]: both half angles turn as the whole one. *)
Lemma in_angle_signs b a d c : ~ collinear a b d -> in_angle b a d c -> ~ collinear a b c -> ~ collinear b d c ->
  (left_turn a b d <-> left_turn a b c) /\ (left_turn a b d <-> left_turn b d c).
Proof.
  intros Hst (s & t & Hs & Ht & Hx & Hy) H1 H2.
  assert (E1 : cross b a c = (t * cross b a d)%Qc) by (apply (cross_coordinates_a _ _ _ _ s); assumption).
  assert (E2 : cross d b c = (s * cross b a d)%Qc) by (apply (cross_coordinates_b _ _ _ _ s t); assumption).
  unfold collinear, left_turn in *.
  replace (cross a b d) with (- cross b a d)%Qc in * by (unfold cross; ring).
  replace (cross a b c) with (- cross b a c)%Qc in * by (unfold cross; ring).
  replace (cross b d c) with (- cross d b c)%Qc in * by (unfold cross; ring).
  rewrite E1, E2 in *. set (D := cross b a d) in *. clearbody D. clear E1 E2 Hx Hy.
  assert (t <> Q2Qc 0) by (intros ->; apply H1; ring). assert (s <> Q2Qc 0) by (intros ->; apply H2; ring).
  apply Qcle_lt_or_eq in Hs, Ht. destruct Hs as [Hs|Hs]; [|congruence]. destruct Ht as [Ht|Ht]; [|congruence].
  split; (split; intros HD; [qcn|]).
  - destruct (Qc_lt_eq_gt 0 (- D)) as [H'|[H'|H']]; [exact H'| |]; exfalso; qcn.
  - destruct (Qc_lt_eq_gt 0 (- D)) as [H'|[H'|H']]; [exact H'| |]; exfalso; qcn.
Qed.
Lemma turns_one_direction (vs : contour) c : 3 <= length vs -> strict vs ->
  (forall a b d, contour_turn vs a b d -> in_angle b a d c) ->
  (forall a b, contour_edge vs a b -> ~ collinear a b c) ->
  (forall a b d, contour_turn vs a b d -> left_turn a b d) \/ (forall a b d, contour_turn vs a b d -> right_turn a b d).
Proof.
  intros Hl Hst Ha He.
  assert (Hturn : forall i, i < length vs -> exists a b d, nth_error vs i = Some a
    /\ nth_error vs (S i mod length vs) = Some b /\ nth_error vs (S (S i) mod length vs) = Some d).
  { intros i Hi.
    assert (Hs : forall k, k < length vs -> exists p, nth_error vs k = Some p).
    { intros k Hk. destruct (nth_error vs k) eqn:E; [eauto|]. apply nth_error_None in E. lia. }
    destruct (Hs i Hi) as (a & Ea). destruct (Hs (S i mod length vs)) as (b & Eb); [apply Nat.mod_upper_bound; lia|].
    destruct (Hs (S (S i) mod length vs)) as (d & Ed); [apply Nat.mod_upper_bound; lia|]. eauto 10. }
  assert (Hsig : forall a b d, contour_turn vs a b d ->
    (left_turn a b d <-> left_turn a b c) /\ (left_turn a b d <-> left_turn b d c)).
  { intros a b d Ht. apply in_angle_signs.
    - apply Hst, Ht.
    - apply Ha, Ht.
    - apply He. destruct Ht as (i & H1 & H2 & H3). exists i. auto.
    - apply He. destruct Ht as (i & H1 & H2 & H3). exists (S i mod length vs). split; [exact H2|].
      rewrite <- H3. f_equal. rewrite <- (Nat.add_1_r (S i)), <- (Nat.add_mod_idemp_l (S i) 1), Nat.add_1_r by lia. reflexivity. }
  destruct (Hturn 0 ltac:(lia)) as (a0 & b0 & d0 & T0).
  assert (Hall : forall i, i < length vs -> forall a b, nth_error vs i = Some a -> nth_error vs (S i mod length vs) = Some b ->
    (left_turn a b c <-> left_turn a0 b0 c)).
  { induction i as [|i IH]; intros Hi a b Ea Eb.
    - destruct T0 as (Ea0 & Eb0 & _). rewrite Ea in Ea0. rewrite Eb in Eb0. injection Ea0 as ->. injection Eb0 as ->. reflexivity.
    - destruct (Hturn i ltac:(lia)) as (a' & b' & d' & E1 & E2 & E3).
      assert (Ht : contour_turn vs a' b' d') by (exists i; auto).
      rewrite Nat.mod_small in E2 by lia. rewrite Ea in E2. injection E2 as ->.
      rewrite Eb in E3. injection E3 as ->.
      destruct (Hsig _ _ _ Ht) as (S1 & S2). rewrite <- S2, S1. apply IH; [lia|exact E1|]. rewrite Nat.mod_small by lia. exact Ea. }
  assert (Hall' : forall a b d, contour_turn vs a b d -> (left_turn a b d <-> left_turn a0 b0 c)).
  { intros a b d Ht. destruct (Hsig _ _ _ Ht) as (S1 & _). rewrite S1. destruct Ht as (i & H1 & H2 & H3).
    apply (Hall i); auto. apply nth_error_Some. congruence. }
  destruct (Qc_lt_eq_gt 0 (cross a0 b0 c)) as [H|H].
  - left. intros a b d Ht. apply (Hall' a b d Ht). exact H.
  - right. intros a b d Ht. pose proof (Hall' a b d Ht) as Hi. pose proof (Hst a b d Ht) as Hc.
    unfold left_turn, right_turn, collinear in *. destruct (Qc_lt_eq_gt 0 (cross a b d)) as [H'|[H'|H']]; [|congruence|exact H'].
    exfalso. apply Hi in H'. destruct H as [H|H]; [rewrite <- H in H'; revert H'; apply Qlt_irrefl|].
    revert H H'. generalize (cross a0 b0 c). intros. qcl.
Qed.

(** ** Termination. *)
Lemma star_terminates ctx points : (forall y x, ctx_atan2 ctx y x <> Raise OutOfFuel) ->
  to_star_contour_vertices ctx points <> Raise OutOfFuel.
Proof.
  intros Ha. unfold to_star_contour_vertices.
  apply (while_total (fun _ => True)
    (fun st : point * list point * Z => let '(c, r, prev) := st in
       if (lenZ r <=? 2)%Z then 0 else length r - 2 + (if (lenZ r <? prev)%Z then 1 else 0))
    (fun x => x <> Raise OutOfFuel)).
  - intros ((c, r), prev) _.
    destruct (Z.ltb_spec 2 (lenZ r)) as [Hl|Hl]; cbn [andb]; [|discriminate].
    destruct (Z.ltb_spec (lenZ r) prev) as [Hp|Hp]; cbn [andb]; [|discriminate].
    destruct (star_step ctx c r) as [(c', r')|e] eqn:E; cbn [rbind].
    + split; [exact I|].
      assert (Hle : length r' <= length r).
      { unfold star_step in E. destruct (mapM _ r) as [keyed|e] eqn:Ek; cbn [rbind] in E; [|discriminate].
        destruct (grouped_spec ctx c r keyed Ek) as (_ & Hlen & _).
        set (r1 := last_of_groups (isort angle_point_leb keyed)) in *.
        destruct (Z.ltb_spec 2 (lenZ r1)) as [H2|H2].
        - destruct (region_centroid r1) as [c1|e]; cbn [rbind] in E; [|discriminate].
          pose proof (subsequence_length _ _ (drop_subsequence (S (length r1)) 0 c1 r1)) as L1.
          remember (drop_bad_angles (S (length r1)) 0 c1 r1) as r2 eqn:Er2. injection E as <- <-.
          pose proof (subsequence_length _ _ (compress_subsequence r2)) as L2. lia.
        - injection E as <- <-. exact Hlen. }
      unfold lenZ in *. destruct (Z.leb_spec (Z.of_nat (length r)) 2); [lia|].
      destruct (Z.leb_spec (Z.of_nat (length r')) 2); destruct (Z.ltb_spec (Z.of_nat (length r')) (Z.of_nat (length r)));
      destruct (Z.ltb_spec (Z.of_nat (length r)) prev); lia.
    + unfold star_step in E. destruct (mapM _ r) as [keyed|e'] eqn:Ek; cbn [rbind] in E.
      * destruct (2 <? _)%Z; [|discriminate]. unfold region_centroid in E.
        destruct (qeqb _ _); cbn [rbind] in E; [injection E as <-; discriminate|discriminate].
      * injection E as <-. apply mapM_raise in Ek. destruct Ek as (x & _ & Ek). unfold to_segment_angle in Ek.
        destruct (ctx_atan2 ctx _ _) as [a|e] eqn:E; cbn [rbind] in Ek; [discriminate|].
        injection Ek as <-. intros H. injection H as ->. apply (Ha _ _ E).
  - exact I.
  - unfold lenZ. destruct (Z.leb_spec (Z.of_nat (length points)) 2); [lia|].
    destruct (_ <? _)%Z; lia.
Qed.
