(** Carving contours out of any points: the only exceptions are failed assertions. *)
From Coq Require Import List Lia Permutation.
From Verif Require Import Base Utils Geometry Ctx Spec WindSpec QcTac QcFast GeomProofs ListProofs LoopProofs CycEdge
  QuadEdge Triangulation Factories QuadProofs QuadApiProofs TriProofs CarveProofs MultiProofs CompressProofs EdgeProofs ConvexProofs EdgesProofs
  DelGeo DelCyc DelMap DelFan DelOps DelCand DelMerge DelStart DelHeap DelFind DelHull DelCarve DelFlip DelWind DelBorder DelMouth
  DelRim Jordan DelGreen DelPoly DelTotal DelPolyTotal DelContour SteerSpec SteerProofs CornerProofs DelLoose DelEnds FuelProofs.
Import ListNotations.
Open Scope nat_scope.

(** A result, a failed assertion, or a loop given too few iterations. *)
Definition fair (e : exn) : Prop := e = AssertionError \/ e = OutOfFuel.
Definition faulty {A} (r : res A) : Prop := match r with Ok _ => True | Raise e => fair e end.
Lemma faulty_bind {A B} (r : res A) (f : A -> res B) : faulty r -> (forall a, r = Ok a -> faulty (f a)) -> faulty (rbind r f).
Proof. destruct r as [a|e]; cbn [rbind]; auto. Qed.
Lemma faulty_boundary fuel h t : faulty (to_boundary_edges fuel h t).
Proof.
  unfold to_boundary_edges. apply faulty_bind; [|intros; exact I].
  apply (while_inv (fun _ => True)); [|right; reflexivity|exact I]. intros (c & acc) _. destruct (edge_eqb _ _); exact I.
Qed.
Lemma faulty_key fuel h e : faulty (edge_key fuel h e).
Proof.
  unfold edge_key. apply faulty_bind; [|intros; exact I].
  apply (while_inv (fun _ => True)); [|right; reflexivity|exact I]. intros (c & w) _. cbv zeta.
  destruct (_ || _)%bool; cbn [assert_ rbind]; [|left; reflexivity]. destruct (edge_eqb _ _); exact I.
Qed.
Lemma faulty_fan fuel h c : faulty (flip_fan fuel h c).
Proof.
  unfold flip_fan. apply (while_inv (fun _ => True)); [|right; reflexivity|exact I]. intros h' _. destruct (edge_eqb _ _); exact I.
Qed.
Lemma faulty_delete h t e : faulty (tri_delete h t e).
Proof.
  unfold tri_delete. repeat (apply faulty_bind; [destruct (_ || _)%bool; [apply faulty_bind; [destruct (negb _); [exact I|left; reflexivity]|intros; exact I]|exact I]|intros ? _]). exact I.
Qed.
Lemma ear_range h e : (-3 <= ear_to_increment h e <= 1)%Z.
Proof.
  unfold ear_to_increment. cbv zeta. assert (B : forall b, (0 <= b2z b <= 1)%Z) by (intros []; cbn [b2z]; lia).
  repeat match goal with |- context [b2z ?b] => pose proof (B b); generalize dependent (b2z b); intros end. lia.
Qed.

(** ** The sets of ears. *)
Record ears (sets : list kset) (cands : list edge) : Prop := Ears {
  r_len : length sets = 5;
  r_ent : forall k q e, In (q, e) (nth k sets []) -> In e cands;
  r_nd : forall k, NoDup (List.map snd (nth k sets []));
  r_key : forall k q e1 e2, In (q, e1) (nth k sets []) -> In (q, e2) (nth k sets []) -> e1 = e2;
  r_one : forall i j e, In e (List.map snd (nth i sets [])) -> In e (List.map snd (nth j sets [])) -> i = j;
  r_cnd : NoDup cands }.
Lemma ears_pop sets cands k : ears sets cands -> nth k sets [] <> [] -> exists c s', kset_popmax (nth k sets []) = Ok (c, s')
  /\ Datatypes.S (length s') = length (nth k sets []) /\ In c cands /\ ears (set_nth k s' sets) cands /\ absent (set_nth k s' sets) c /\ k < length sets.
Proof.
  intros H Ne. destruct (popmax_some _ Ne) as (q & c & I & Hp).
  destruct (filter_one _ q c (r_nd _ _ H k) (r_key _ _ H k) I) as (Fl & Fi). set (s' := filter _ _) in *.
  assert (Lk : k < length sets) by (destruct (Nat.lt_ge_cases k (length sets)) as [|G]; [assumption|destruct Ne; apply nth_overflow, G]).
  assert (Nk : forall i, nth i (set_nth k s' sets) [] = if Nat.eqb i k then s' else nth i sets []) by (intros i; apply nth_set_nth, Lk).
  assert (Sub : forall i q e, In (q, e) (nth i (set_nth k s' sets) []) -> In (q, e) (nth i sets []) /\ e <> c).
  { intros i q' e. rewrite Nk. destruct (Nat.eqb_spec i k) as [-> |n]; [apply Fi|]. intros I'. split; [exact I'|]. intros ->. apply n. apply (r_one _ _ H i k c); apply in_snd; eauto. }
  exists c, s'. split; [exact Hp|]. split; [exact Fl|]. split; [apply (r_ent _ _ H k q), I|]. split; [|split; [|exact Lk]].
  - split.
    + rewrite set_nth_length. apply (r_len _ _ H).
    + intros i q' e I'. apply (r_ent _ _ H i q'), (Sub _ _ _ I').
    + intros i. rewrite Nk. destruct (Nat.eqb i k); [|apply (r_nd _ _ H)]. apply kset_popmax_spec in Hp; [|apply (r_nd _ _ H)]. apply Hp.
    + intros i q' e1 e2 I1 I2. apply (r_key _ _ H i q'); eapply Sub; eassumption.
    + intros i j e Hi Hj. apply in_snd in Hi, Hj. destruct Hi as (q1 & Hi). destruct Hj as (q2 & Hj). apply (r_one _ _ H i j e); apply in_snd; eexists; eapply Sub; eassumption.
    + apply (r_cnd _ _ H).
  - intros i Hi. apply in_snd in Hi. destruct Hi as (q' & Hi). apply Sub in Hi. apply (proj2 Hi). reflexivity.
Qed.
Lemma ears_add fuel h sets cands i e : ears sets cands -> In e cands -> absent sets e -> (0 <= i < 5)%Z ->
  match increments_add fuel h sets i e with
  | Ok sets' => ears sets' cands /\ (forall j, j <> Z.to_nat i -> nth j sets' [] = nth j sets []) /\ forall d, d <> e -> absent sets d -> absent sets' d
  | Raise x => fair x
  end.
Proof.
  intros H Ic Ab Hi. unfold increments_add.
  assert (Ei : py_index sets i = Some (Z.to_nat i)).
  { unfold py_index. rewrite (proj2 (Z.leb_le 0 i)) by lia. rewrite (proj2 (Z.ltb_lt _ _)) by (rewrite (r_len _ _ H); lia). reflexivity. }
  rewrite Ei. set (k := Z.to_nat i). unfold kset_add. pose proof (faulty_key fuel h e) as Fk. destruct (edge_key fuel h e) as [q0|x]; cbn [rbind]; [|exact Fk].
  set (s' := if existsb _ _ then _ else _).
  assert (Hs : s' = nth k sets [] \/ (s' = (q0, e) :: nth k sets [] /\ forall d, ~ In (q0, d) (nth k sets []))).
  { unfold s'. destruct (existsb _ _) eqn:Ex; [left; reflexivity|right; split; [reflexivity|]]. intros d Id.
    assert (X : existsb (fun ke : key * edge => key_eqb (fst ke) q0) (nth k sets []) = true) by (apply existsb_exists; exists (q0, d); split; [exact Id|apply key_eqb_refl]). congruence. }
  clearbody s'. assert (Lk : k < length sets) by (rewrite (r_len _ _ H); unfold k; lia).
  assert (Nk : forall i, nth i (set_nth k s' sets) [] = if Nat.eqb i k then s' else nth i sets []) by (intros j; apply nth_set_nth, Lk).
  assert (Sub : forall j q d, In (q, d) (nth j (set_nth k s' sets) []) -> In (q, d) (nth j sets []) \/ (j = k /\ d = e /\ q = q0 /\ forall d, ~ In (q0, d) (nth k sets []))).
  { intros j q d. rewrite Nk. destruct (Nat.eqb_spec j k) as [-> |n]; [|auto]. destruct Hs as [-> |(-> & Hq)]; [auto|]. intros [X|X]; [injection X as <- <-; auto|auto]. }
  split; [|split].
  - split.
    + rewrite set_nth_length. apply (r_len _ _ H).
    + intros j q d Id. destruct (Sub _ _ _ Id) as [X|(-> & -> & _)]; [apply (r_ent _ _ H _ _ _ X)|exact Ic].
    + intros j. rewrite Nk. destruct (Nat.eqb j k); [|apply (r_nd _ _ H)]. destruct Hs as [-> |(-> & _)]; [apply (r_nd _ _ H)|]. cbn [List.map snd]. constructor; [apply Ab|apply (r_nd _ _ H)].
    + intros j q d1 d2 I1 I2. destruct (Sub _ _ _ I1) as [X|(Ej & -> & Eq & Nq)]; destruct (Sub _ _ _ I2) as [Y|(Ej' & -> & Eq' & Nq')].
      * apply (r_key _ _ H j q); assumption.
      * subst. destruct (Nq' _ X).
      * subst. destruct (Nq _ Y).
      * reflexivity.
    + intros a b d Ha Hb. apply in_snd in Ha, Hb. destruct Ha as (q1 & Ha). destruct Hb as (q2 & Hb).
      destruct (Sub _ _ _ Ha) as [X|(Ea & E & _)]; destruct (Sub _ _ _ Hb) as [Y|(Eb & E' & _)].
      * apply (r_one _ _ H a b d); apply in_snd; eauto.
      * subst d. destruct (Ab a). apply in_snd. eauto.
      * subst d. destruct (Ab b). apply in_snd. eauto.
      * congruence.
    + apply (r_cnd _ _ H).
  - intros j n. rewrite Nk. destruct (Nat.eqb_spec j k) as [-> |]; [contradiction|reflexivity].
  - intros d n Ad j Ij. apply in_snd in Ij. destruct Ij as (q & Ij). destruct (Sub _ _ _ Ij) as [X|(_ & X & _)]; [|contradiction]. apply (Ad j). apply in_snd. eauto.
Qed.
Lemma ears_fold fuel h cands : forall es sets, ears sets cands -> NoDup es -> incl es cands -> (forall e, In e es -> absent sets e) ->
  match fold_increments fuel h ear_to_increment MAX_EAR_DECREMENT es sets with Ok sets' => ears sets' cands | Raise x => fair x end.
Proof.
  induction es as [|e es IH]; intros sets H N Inc Ab; cbn [fold_increments]; [exact H|]. change MAX_EAR_DECREMENT with 3%Z. apply NoDup_cons_iff in N. destruct N as (N1 & N2).
  pose proof (ear_range h e) as G. pose proof (ears_add fuel h sets cands (ear_to_increment h e + 3) e H (Inc e (or_introl eq_refl)) (Ab e (or_introl eq_refl)) ltac:(lia)) as A.
  destruct (increments_add _ _ _ _ _) as [sets'|x]; cbn [rbind]; [|exact A]. destruct A as (A1 & _ & A3). apply IH; [exact A1|exact N2|intros d Hd; apply Inc; right; exact Hd|].
  intros d Hd. apply A3; [intros ->; contradiction|apply Ab; right; exact Hd].
Qed.
Lemma ears_fresh fuel h cands : NoDup cands -> match to_ears_increments fuel h cands with Ok sets => ears sets cands | Raise x => fair x end.
Proof.
  intros N. unfold to_ears_increments. change (Z.to_nat (MAX_EAR_INCREMENT + 1 + MAX_EAR_DECREMENT)) with 5. apply ears_fold; [|exact N|apply incl_refl|].
  - split; [reflexivity| | | | |exact N].
    + intros k q e. rewrite nth_repeat_nil. intros [].
    + intros k. rewrite nth_repeat_nil. constructor.
    + intros k q e1 e2. rewrite nth_repeat_nil. intros [].
    + intros i j e. rewrite nth_repeat_nil. intros [].
  - intros e _ k. rewrite nth_repeat_nil. intros [].
Qed.
Lemma ears_without sets cands c : ears sets cands -> absent sets c -> ears sets (filter (fun x => negb (edge_eqb x c)) cands).
Proof.
  intros H Ab. split; try apply H; [|apply NoDup_filter, (r_cnd _ _ H)]. intros k q e I. apply filter_In. split; [apply (r_ent _ _ H k q), I|].
  apply negb_true_iff, edge_eqb_neq. intros ->. apply (Ab k), in_snd. eauto.
Qed.
Lemma ears_with sets cands c : ears sets cands -> ears sets (add_edge c cands).
Proof.
  intros H. unfold add_edge. destruct (mem_edge c cands) eqn:E; [exact H|]. split; try apply H.
  - intros k q e I. apply in_or_app. left. apply (r_ent _ _ H k q), I.
  - apply (Permutation_NoDup (l := c :: cands)); [apply Permutation_cons_append|]. constructor; [|apply (r_cnd _ _ H)]. intros X. apply mem_edge_in in X. congruence.
Qed.

(** ** The loop over the ears. *)
Lemma target_fair fuel target h : (0 <= target)%Z -> forall n sets cands, ears sets cands -> n <= length (nth (Z.to_nat (target + 3)) sets []) ->
  match target_ears n fuel target h sets cands with
  | Ok (found, sets', cands') => ears sets' cands' /\ match found with Some (c, _) => In c cands' /\ absent sets' c | None => True end
  | Raise x => fair x
  end.
Proof.
  intros Ht. induction n as [|n IH]; intros sets cands H Hn; cbn [target_ears]; [auto|].
  change MAX_EAR_DECREMENT with 3%Z. set (k := Z.to_nat (target + 3)) in *.
  destruct (ears_pop sets cands k H) as (c & s' & Hp & Ls & Ic & H1 & Ab & Lk); [intros E; rewrite E in Hn; cbn [length] in Hn; lia|].
  rewrite Hp. cbn [rbind]. assert (Ns : nth k (set_nth k s' sets) [] = s') by (rewrite nth_set_nth by exact Lk; rewrite Nat.eqb_refl; reflexivity).
  destruct (negb (is_ear h c)).
  - destruct (remove_ok c cands Ic (r_cnd _ _ H)) as (Hr & _). rewrite Hr. cbn [rbind]. apply IH; [apply ears_without; assumption|]. rewrite Ns. lia.
  - destruct (Z.eqb_spec (ear_to_increment h c) target) as [Et|Et]; [auto|].
    pose proof (ear_range h c) as G. pose proof (ears_add fuel h _ cands (ear_to_increment h c + 3) c H1 Ic Ab ltac:(lia)) as A.
    destruct (increments_add _ _ _ _ _) as [sets2|x]; cbn [rbind]; [|exact A]. destruct A as (A1 & A2 & _). apply IH; [exact A1|]. rewrite A2 by (unfold k; lia). rewrite Ns. lia.
Qed.
Lemma ear_step_fair fuel st : ears (vs_sets st) (vs_cands st) -> match ear_step fuel st with
  | Ok (inl st') => ears (vs_sets st') (vs_cands st')
  | Ok (inr _) => True
  | Raise x => fair x
  end.
Proof.
  intros H. unfold ear_step. destruct (vs_left st >? 0)%Z; [|exact I].
  pose proof (best_least (vs_left st) (skipn (Z.to_nat MAX_EAR_DECREMENT) (vs_sets st)) 0 None) as B.
  destruct (best_increment _ _ _ _) as [target|]; [|exact I]. destruct B as [B|B]; [|discriminate]. change MAX_EAR_DECREMENT with 3%Z.
  pose proof (target_fair fuel target (vs_heap st) (proj1 B) _ (vs_sets st) (vs_cands st) H (Nat.le_refl _)) as T.
  destruct (target_ears _ _ _ _ _ _) as [((found & sets) & cands)|x]; cbn [rbind]; [|exact T]. destruct T as (T1 & T2). destruct found as [(c & a)|].
  - pose proof (faulty_fan fuel (vs_heap st) c) as Ff. destruct (flip_fan _ _ _) as [h|x]; cbn [rbind]; [|exact Ff].
    destruct (a =? target)%Z; cbn [assert_ rbind]; [|left; reflexivity]. destruct T2 as (Ic & Ab).
    destruct (remove_ok c cands Ic (r_cnd _ _ T1)) as (Hr & _). rewrite Hr. cbn [rbind].
    pose proof (faulty_delete h (vs_tri st) c) as Fd. destruct (tri_delete _ _ _) as [(t & h1)|x]; cbn [rbind]; [|exact Fd]. cbn [vs_sets vs_cands].
    apply ears_with, ears_without; assumption.
  - pose proof (ears_fresh fuel (vs_heap st) cands (r_cnd _ _ T1)) as Fr. destruct (to_ears_increments _ _ _) as [sets'|x]; cbn [rbind]; [exact Fr|exact Fr].
Qed.

(** ** Carving. *)
Section T.
Context (ctx : context) (points : list point) (N : NoDup points) (NC : spread points) (L2 : 2 <= length points).
Context (Coins : is_change (length points) (ctx_coins ctx (length points))).
Let S := isort point_leb points.
Lemma carve_fair size : 4 * (length points * length points) + 6 * length points + 1 < Pos.to_nat (ctx_fuel ctx) -> faulty (to_vertex_sequence ctx points size).
Proof.
  intros Fuel. destruct (delaunay_total ctx points N L2 Coins) as (t & h & H1); [lia|].
  destruct (hull_state ctx points N (fun _ => Coins) t h NC H1) as (ep & P & m & Fa & inj & R & T & K & Rl & Rr & Hl & Hr). fold S in Fa, inj, R, T, K, Rl, Rr, Hl, Hr.
  pose proof (S_length points) as SL. fold S in SL. assert (Hf : length S < Pos.to_nat (ctx_fuel ctx)) by lia.
  destruct (boundary_done S h P m _ t (ctx_fuel ctx) R K Rl Hf) as (es & H2).
  unfold to_vertex_sequence. rewrite H1. cbn [rbind]. rewrite H2. cbn [rbind].
  pose proof (hull_cycle ctx points t h es ep P m inj NC R T K Rl Hl H2) as Cy. destruct (boundary_bd h P S m _ t _ es R K Rl H2) as (Nes & All & _).
  fold S in Cy. unfold to_vertex_sequence_. set (L := List.map (start h) es) in *.
  assert (Sh : shape S h t (points_set L) P m (hd S m) L).
  { split; auto; [|intros u Hu; apply points_set_in, Hu]. apply (triangulation_good ctx points t h). apply QuadSpec.triangulation_delaunay, H1. }
  destruct (lenZ (compress_contour L) <? MIN_CONTOUR_SIZE)%Z; [exact I|].
  destruct (fresh_total S (ctx_fuel ctx) Hf h t (points_set L) P m (hd S m) L es Sh All) as (sets & A1 & A2 & A3). rewrite A1. cbn [rbind].
  set (st0 := VState h t (points_set L) sets es _).
  pose proof (boundary_size S h t (points_set L) P m (hd S m) L Sh) as BL. assert (El : length es = length L) by (unfold L; rewrite map_length; reflexivity).
  pose proof (weight_most h (points_set L) es) as Wm.
  assert (A0 : ahead S ((length S - length L) * (4 * length S + 2) + 2 * weight h (points_set L) es + 0) st0).
  { exists P, m, (hd S m), L, 0. unfold st0. cbn [vs_heap vs_tri vs_points vs_sets vs_cands]. split; [exact Sh|]. split; [|auto].
    apply (fresh_kept S (ctx_fuel ctx) h t (points_set L) P m (hd S m) L es sets Sh Nes All A1). }
  assert (Hm : (length S - length L) * (4 * length S + 2) + 2 * weight h (points_set L) es + 0 < Pos.to_nat (ctx_fuel ctx)).
  { assert ((length S - length L) * (4 * length S + 2) <= length S * (4 * length S + 2)) by (apply Nat.mul_le_mono_r; lia). rewrite SL in *. lia. }
  pose proof (loop_ends S (ctx_fuel ctx) Hf st0 _ A0 Hm) as Tm.
  assert (Lo : forall st, while_ (ctx_fuel ctx) (mouth_step (ctx_fuel ctx)) st0 = Ok st -> loose S (vs_left st0 + corners L)%Z st).
  { intros st E. apply (loop_sound S (ctx_fuel ctx) (vs_left st0 + corners L) (vs_left st0) st0 st); [|exact E]. split; [|split; [right; reflexivity|lia]].
    exists P, m, (hd S m), L. split; [exact Sh|]. split; [|reflexivity]. apply (fresh_kept S (ctx_fuel ctx) h t (points_set L) P m (hd S m) L es sets Sh Nes All A1). }
  destruct (while_ (ctx_fuel ctx) (mouth_step (ctx_fuel ctx)) st0) as [st|e] eqn:Ew; cbn [rbind].
  2: { destruct e; try destruct Tm. left. reflexivity. }
  destruct (Lo st eq_refl) as (P1 & m1 & bd1 & L1 & Sh1 & _).
  destruct (boundary_done S (vs_heap st) P1 m1 bd1 (vs_tri st) (ctx_fuel ctx) (s_rep _ _ _ _ _ _ _ _ Sh1) (s_car _ _ _ _ _ _ _ _ Sh1) (s_left _ _ _ _ _ _ _ _ Sh1) Hf) as (es1 & H6).
  destruct (boundary_bd _ P1 S m1 _ _ _ es1 (s_rep _ _ _ _ _ _ _ _ Sh1) (s_car _ _ _ _ _ _ _ _ Sh1) (s_left _ _ _ _ _ _ _ _ Sh1) H6) as (Nes1 & _).
  assert (X : exists rs, (if (vs_left st >? 0)%Z then to_boundary_edges (ctx_fuel ctx) (vs_heap st) (vs_tri st) else Ok []) = Ok rs /\ NoDup rs).
  { destruct (vs_left st >? 0)%Z; [exists es1; auto|exists []; split; [reflexivity|constructor]]. }
  destruct X as (rs & Hrs & Nrs). rewrite Hrs. cbn [rbind].
  pose proof (ears_fresh (ctx_fuel ctx) (vs_heap st) rs Nrs) as Fr. destruct (to_ears_increments _ _ rs) as [es2|x]; cbn [rbind]; [|exact Fr].
  apply faulty_bind; [|intros st' _; unfold triangulation_to_border_vertices; apply faulty_bind; [apply faulty_boundary|intros; exact I]].
  apply (while_inv (fun s => ears (vs_sets s) (vs_cands s))); [|right; reflexivity|exact Fr].
  intros s Hs. pose proof (ear_step_fair (ctx_fuel ctx) s Hs) as Es. destruct (ear_step _ s) as [[s'|s']|x]; [exact Es|exact I|exact Es].
Qed.
End T.
(** ** Points on a line. *)
Definition flat (l : list point) : Prop := forall a b c, In a l -> In b l -> In c l -> cross a b c = 0%Qc.
Lemma flat_incl l l' : incl l' l -> flat l -> flat l'.
Proof. intros I F a b c Ia Ib Ic. apply F; apply I; assumption. Qed.
Lemma vget_in vs i : (- lenZ vs <= i < lenZ vs)%Z -> In (vget vs i) vs.
Proof.
  intros H. destruct (Z_lt_le_dec i 0) as [n|n]; [rewrite vget_neg by lia|rewrite vget_nonneg by lia]; apply nth_In; unfold lenZ in *; lia.
Qed.
Lemma remove_nth_length {A} : forall k (l : list A), k < length l -> Datatypes.S (length (remove_nth k l)) = length l.
Proof. induction k as [|k IH]; intros [|x l] H; cbn [length remove_nth] in *; try lia. rewrite IH; lia. Qed.
Lemma compress_down_flat fuel : forall n vs, 1 <= n -> length vs <= fuel -> flat vs -> length (compress_down fuel (- Z.of_nat n) vs) <= Nat.max 2 n.
Proof.
  induction fuel as [|fuel IH]; intros n vs Hn Hl F; cbn [compress_down]; [lia|].
  destruct (Z.ltb_spec (Z.max 2 (- - Z.of_nat n)) (lenZ vs)) as [Hz|Hz]; cbn [andb]; [|unfold lenZ in Hz; lia].
  assert (V : forall i, (- Z.of_nat n <= i <= 1)%Z -> In (vget vs i) vs) by (intros i Hi; apply vget_in; lia).
  rewrite (proj2 (is_collinear_spec _ _ _)) by (apply F; apply V; lia).
  assert (Ld : Datatypes.S (length (py_del vs (- Z.of_nat n + 1))) = length vs).
  { unfold py_del, py_index. unfold lenZ in Hz. destruct (Z.leb_spec 0 (- Z.of_nat n + 1)) as [z|z].
    - rewrite (proj2 (Z.ltb_lt _ _)) by lia. apply remove_nth_length. lia.
    - rewrite (proj2 (Z.leb_le _ _)) by lia. apply remove_nth_length. lia. }
  apply IH; [exact Hn|lia|]. apply (flat_incl vs); [|exact F]. intros x Hx. unfold py_del in Hx. destruct (py_index _ _) as [k|]; [|exact Hx]. revert Hx. clear.
  revert vs. induction k as [|k IHk]; intros [|y l]; cbn [remove_nth]; auto; intros Hx; [right; exact Hx|]. destruct Hx as [-> |Hx]; [left; reflexivity|right; apply IHk, Hx].
Qed.
Lemma compress_phase1_flat : forall n vs, flat vs -> length vs <= Datatypes.S n -> length (compress_phase1 n vs) <= 2.
Proof.
  induction n as [|n IH]; intros vs F L; cbn [compress_phase1]; [lia|].
  pose proof (compress_down_flat (length vs) (Datatypes.S n) vs ltac:(lia) (Nat.le_refl _) F) as D.
  pose proof (compress_down_drops (length vs) (Datatypes.S n) vs ltac:(lia)) as Dr. apply drops_subsequence, subsequence_incl in Dr.
  set (v := compress_down _ _ _) in *. clearbody v. destruct (Nat.leb_spec (length v) (Datatypes.S n)) as [q|q]; [apply IH; [apply (flat_incl vs); assumption|exact q]|].
  pose proof (drops_length _ _ (compress_phase1_drops n v)) as Q. lia.
Qed.
Lemma compress_flat vs : flat vs -> length (compress_contour vs) <= 2.
Proof.
  intros F. unfold compress_contour. cbv zeta. pose proof (compress_phase1_flat (length vs - 1) vs F ltac:(lia)) as P.
  destruct vs as [|v vs]; [cbn [length]; lia|]. pose proof (drops_length _ _ (compress_phase2_drops (Datatypes.S (length (compress_phase1 (length (v :: vs) - 1) (v :: vs)))) 0 (compress_phase1 (length (v :: vs) - 1) (v :: vs)) ltac:(lia))). lia.
Qed.
Section F.
Context (ctx : context) (points : list point) (N : NoDup points) (L2 : 2 <= length points) (F : flat points).
Context (Coins : is_change (length points) (ctx_coins ctx (length points))).
Lemma carve_flat size : 4 * (length points * length points) + 6 * length points + 1 < Pos.to_nat (ctx_fuel ctx) -> faulty (to_vertex_sequence ctx points size).
Proof.
  intros Fuel. destruct (delaunay_total ctx points N L2 Coins) as (t & h & H1); [lia|]. unfold to_vertex_sequence. rewrite H1. cbn [rbind].
  pose proof (faulty_boundary (ctx_fuel ctx) h t) as Fb. destruct (to_boundary_edges _ _ _) as [es|x] eqn:H2; cbn [rbind]; [|exact Fb]. unfold to_vertex_sequence_.
  assert (X : (lenZ (compress_contour (List.map (start h) es)) <? MIN_CONTOUR_SIZE)%Z = true); [|rewrite X; exact I].
  apply Z.ltb_lt. change MIN_CONTOUR_SIZE with 3%Z. unfold lenZ.
  assert (K : flat (List.map (start h) es)).
  { apply (flat_incl points); [|exact F]. intros p Hp. destruct (delaunay_winv ctx points t h (fun q => In q points) (fun q I => I) H1) as (W & Lt).
    apply (map_start_P (fun q => In q points) (h_count h) h es p W); [|exact Hp]. eapply boundary_live; eassumption. }
  apply compress_flat in K. lia.
Qed.
End F.
Section U.
Context (ctx : context) (Coins : forall n, 2 <= n -> is_change n (ctx_coins ctx n)).
Lemma carve_always points size : NoDup points -> 2 <= length points -> faulty (to_vertex_sequence ctx points size).
Proof.
  intros N L2. set (f := Pos.max (ctx_fuel ctx) (Pos.of_nat (2 + (4 * (length points * length points) + 6 * length points)))).
  assert (Lf : (ctx_fuel ctx <= f)%positive) by (unfold f; lia).
  assert (F : 4 * (length points * length points) + 6 * length points + 1 < Pos.to_nat f) by (unfold f; rewrite Pos2Nat.inj_max; rewrite Nat2Pos.id by lia; lia).
  assert (K : faulty (to_vertex_sequence (with_fuel ctx f) points size)).
  { destruct (all_collinear (isort point_leb points)) as [Sp|Fl]; [apply carve_fair; auto; apply Coins, L2|].
    apply carve_flat; auto; [|apply Coins, L2]. intros a b c Ia Ib Ic. apply Fl; apply isort_in; assumption. }
  destruct (upto_sequence ctx f Lf points size) as [E|E]; rewrite E; [right; reflexivity|exact K].
Qed.
End U.
