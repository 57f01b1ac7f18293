(** The loop that cuts mouths ends on any points: it yields a result or fails an assertion. *)
From Coq Require Import List Lia Permutation.
From Verif Require Import Base Utils Geometry Ctx Spec WindSpec QcTac QcFast GeomProofs ListProofs LoopProofs CycEdge
  QuadEdge Triangulation Factories QuadProofs QuadApiProofs TriProofs CarveProofs MultiProofs
  DelGeo DelCyc DelMap DelFan DelOps DelCand DelMerge DelStart DelHeap DelFind DelHull DelCarve DelFlip DelWind DelBorder DelMouth
  DelRim Jordan DelGreen DelPoly DelTotal DelPolyTotal DelContour SteerSpec SteerProofs CornerProofs DelLoose.
Import ListNotations.
Open Scope nat_scope.

Lemma while_ends {S R} (I : nat -> S -> Prop) (Q : res R -> Prop) (body : S -> res (S + R)) n s k :
  (forall k s, I k s -> match body s with
    | Ok (inl s') => exists k', k' < k /\ I k' s'
    | Ok (inr r) => Q (Ok r)
    | Raise e => Q (Raise e) end) ->
  I k s -> k < Pos.to_nat n -> Q (while_ n body s).
Proof.
  intros Hb. unfold while_. rewrite loop_nloop. revert s k.
  induction (Pos.to_nat n) as [|j IH]; intros s k Hi Hm; [lia|].
  cbn [nloop]. specialize (Hb k s Hi). destruct (body s) as [[s'|r]|e]; [|exact Hb|exact Hb].
  destruct Hb as (k' & Hk & Hi'). apply (IH s' k' Hi'). lia.
Qed.
(** A result, or a failed assertion. *)
Definition tame {A} (r : res A) : Prop := match r with Ok _ | Raise AssertionError => True | Raise _ => False end.

(** ** The weight of the candidates: one for a mouth, two for any other edge. *)
Definition blunt (h : heap) (pts : list point) (e : edge) : bool := mem_point (end_ h (left_from_start h e)) pts.
Definition weight (h : heap) (pts : list point) (cands : list edge) : nat := length cands + length (filter (blunt h pts) cands).
Lemma blunt_mouth h pts e : blunt h pts e = false <-> mouth h pts e.
Proof. apply mem_point_not. Qed.
Lemma filter_most {A} (f : A -> bool) l : length (filter f l) <= length l.
Proof. induction l as [|x l IH]; [reflexivity|]. cbn [filter]. destruct (f x); cbn [length]; lia. Qed.
Lemma weight_most h pts l : weight h pts l <= 2 * length l.
Proof. unfold weight. pose proof (filter_most (blunt h pts) l). lia. Qed.
Lemma weight_keep h h1 pts l : (forall d, In d l -> mouth h pts d -> mouth h1 pts d) -> weight h1 pts l <= weight h pts l.
Proof.
  unfold weight. induction l as [|x l IH]; intros K; [reflexivity|]. specialize (IH (fun d I => K d (or_intror I))). cbn [filter length].
  destruct (blunt h1 pts x) eqn:E1; destruct (blunt h pts x) eqn:E2; cbn [length]; try lia.
  apply blunt_mouth, (K x (or_introl eq_refl)), blunt_mouth in E2. congruence.
Qed.
Lemma weight_gain h h1 pts l c : (forall d, In d l -> mouth h pts d -> mouth h1 pts d) -> In c l -> ~ mouth h pts c -> mouth h1 pts c -> weight h1 pts l < weight h pts l.
Proof.
  induction l as [|x l IH]; intros K I n M; [destruct I|]. pose proof (weight_keep h h1 pts l (fun d Id => K d (or_intror Id))) as W.
  destruct I as [-> |I].
  - assert (E1 : blunt h1 pts c = false) by (apply blunt_mouth, M). assert (E2 : blunt h pts c = true) by (destruct (blunt h pts c) eqn:E; [reflexivity|destruct n; apply blunt_mouth, E]).
    unfold weight in *. cbn [filter length]. rewrite E1, E2. cbn [length]. lia.
  - specialize (IH (fun d Id => K d (or_intror Id)) I n M). unfold weight in *. cbn [filter length].
    destruct (blunt h1 pts x) eqn:E1; destruct (blunt h pts x) eqn:E2; cbn [length]; try lia.
    apply blunt_mouth, (K x (or_introl eq_refl)), blunt_mouth in E2. congruence.
Qed.
Lemma filter_fewer {A} (f g : A -> bool) l : length (filter f (filter g l)) <= length (filter f l).
Proof.
  induction l as [|x l IH]; [reflexivity|]. cbn [filter]. destruct (g x); cbn [filter]; destruct (f x); cbn [length]; lia.
Qed.
Lemma weight_drop h pts c l : In c l -> NoDup l -> weight h pts (filter (fun x => negb (edge_eqb x c)) l) < weight h pts l.
Proof.
  intros I N. destruct (remove_ok c l I N) as (_ & Lr). unfold weight. pose proof (filter_fewer (blunt h pts) (fun x => negb (edge_eqb x c)) l). lia.
Qed.

(** ** The sets of candidates. *)
Lemma rise_range_any h e : (-1 <= mouth_to_increment h e <= 3)%Z.
Proof.
  unfold mouth_to_increment. cbv zeta. assert (B : forall b, (0 <= b2z b <= 1)%Z) by (intros []; cbn [b2z]; lia).
  repeat match goal with |- context [b2z ?b] => pose proof (B b); generalize dependent (b2z b); intros end. lia.
Qed.
Definition exact_sets (h : heap) (sets : list kset) : Prop := forall k d, In d (List.map snd (nth k sets [])) -> Z.of_nat k = (mouth_to_increment h d + 1)%Z.

Section G.
Context (S : list point) (fuel : positive) (Hf : length S < Pos.to_nat fuel).
Lemma add_total h t pts P m bd L sets e : shape S h t pts P m bd L -> length sets = 5 -> rim h P bd e ->
  exists sets', increments_add fuel h sets (mouth_to_increment h e + 1) e = Ok sets' /\ length sets' = 5
    /\ (forall j, Z.of_nat j <> (mouth_to_increment h e + 1)%Z -> nth j sets' [] = nth j sets [])
    /\ (exact_sets h sets -> exact_sets h sets').
Proof.
  intros Sh Len Re. destruct (key_ok S h t pts P m bd L Sh fuel e (proj1 Re) Hf) as (wt & Hk). pose proof (rise_range_any h e) as G. set (i := (mouth_to_increment h e + 1)%Z) in *.
  unfold increments_add. assert (Ei : py_index sets i = Some (Z.to_nat i)).
  { unfold py_index. rewrite (proj2 (Z.leb_le 0 i)) by (unfold i; lia). rewrite (proj2 (Z.ltb_lt _ _)) by (rewrite Len; unfold i; lia). reflexivity. }
  rewrite Ei. unfold kset_add. rewrite Hk. cbn [rbind]. set (k := Z.to_nat i). set (s' := if existsb _ _ then _ else _).
  assert (Lk : k < length sets) by (rewrite Len; unfold k, i; lia).
  assert (Nk : forall j, nth j (set_nth k s' sets) [] = if Nat.eqb j k then s' else nth j sets []) by (intros j; apply nth_set_nth, Lk).
  eexists. split; [reflexivity|]. split; [rewrite set_nth_length; exact Len|]. split.
  - intros j n. rewrite Nk. destruct (Nat.eqb_spec j k) as [-> |]; [|reflexivity]. destruct n. unfold k. lia.
  - intros X j d. rewrite Nk. destruct (Nat.eqb_spec j k) as [-> |]; [|apply X]. unfold s'. destruct (existsb _ _); [apply X|]. cbn [List.map snd]. intros [<- |I]; [|apply X, I].
    fold i. unfold k. lia.
Qed.
Lemma fold_total h t pts P m bd L : shape S h t pts P m bd L -> forall es sets, length sets = 5 -> (forall e, In e es -> rim h P bd e) -> exact_sets h sets ->
  exists sets', fold_increments fuel h mouth_to_increment MAX_MOUTH_DECREMENT es sets = Ok sets' /\ length sets' = 5 /\ exact_sets h sets'.
Proof.
  intros Sh. induction es as [|e es IH]; intros sets Len Al X; cbn [fold_increments]; [eauto|]. change MAX_MOUTH_DECREMENT with 1%Z.
  destruct (add_total h t pts P m bd L sets e Sh Len (Al e (or_introl eq_refl))) as (s1 & A1 & A2 & _ & A4). rewrite A1. cbn [rbind].
  apply IH; auto. intros d Hd. apply Al. right. exact Hd.
Qed.
Lemma fresh_total h t pts P m bd L es : shape S h t pts P m bd L -> (forall e, In e es -> rim h P bd e) ->
  exists sets, to_mouths_increments fuel h es = Ok sets /\ length sets = 5 /\ exact_sets h sets.
Proof.
  intros Sh Al. unfold to_mouths_increments. change (Z.to_nat (MAX_MOUTH_INCREMENT + 1 + MAX_MOUTH_DECREMENT)) with 5. apply (fold_total h t pts P m bd L Sh); auto.
  intros k d. rewrite nth_repeat_nil. intros [].
Qed.
Lemma pop_total h t pts P m bd L sets cands k : shape S h t pts P m bd L -> kept h P bd sets cands -> nth k sets [] <> [] ->
  exists c s', kset_popmax (nth k sets []) = Ok (c, s') /\ Datatypes.S (length s') = length (nth k sets []) /\ In c (List.map snd (nth k sets [])).
Proof.
  intros Sh H Ne. destruct (popmax_some _ Ne) as (q & c & I & Hp). destruct (filter_one _ q c (w_nd _ _ _ _ _ H k) (kept_keys S h t pts P m bd L Sh sets cands H k) I) as (Fl & _).
  exists c. eexists. split; [exact Hp|]. split; [exact Fl|]. apply in_snd. eauto.
Qed.
(** ** The loop over the candidates of one set. *)
Lemma target_total target t pts P bd L : (0 <= target <= 3)%Z -> forall n h m sets cands,
  shape S h t pts P m bd L -> kept h P bd sets cands -> length sets = 5 -> n <= length (nth (Z.to_nat (target + 1)) sets []) ->
  exists found h' sets' cands', target_mouths n fuel target h pts sets cands = Ok (found, h', sets', cands') /\ length sets' = 5
    /\ weight h' pts cands' <= weight h pts cands
    /\ match found with Some (c, _) => mouth h' pts c | None => 0 < n -> exact_sets h sets -> weight h' pts cands' < weight h pts cands end.
Proof.
  intros Ht. induction n as [|n IH]; intros h m sets cands Sh H Len Hn; cbn [target_mouths].
  { exists None, h, sets, cands. split; [reflexivity|]. split; [exact Len|]. split; [lia|]. lia. }
  change MAX_MOUTH_DECREMENT with 1%Z. set (k := Z.to_nat (target + 1)) in *.
  destruct (pop_total h t pts P m bd L sets cands k Sh H) as (c & s' & Hp & Ls & Is); [intros E; rewrite E in Hn; cbn [length] in Hn; lia|].
  rewrite Hp. cbn [rbind]. destruct (pop_kept S h t pts P m bd L Sh sets cands H k c s' Hp) as (Rc & Ic & H1 & Ab).
  destruct (is_mouth_ok S h t pts P m bd L c Sh Rc) as (b & Hb & Eb). rewrite Hb. cbn [rbind].
  assert (Lk : k < length sets) by (rewrite Len; unfold k; lia).
  assert (Ns : nth k (set_nth k s' sets) [] = s') by (rewrite nth_set_nth by exact Lk; rewrite Nat.eqb_refl; reflexivity).
  assert (Len1 : length (set_nth k s' sets) = 5) by (rewrite set_nth_length; exact Len).
  destruct (negb b && negb (flippable h pts (left_from_end h c)))%bool eqn:E.
  - destruct (remove_ok c cands Ic (w_cnd _ _ _ _ _ H)) as (Hr & _). rewrite Hr. cbn [rbind]. pose proof (weight_drop h pts c cands Ic (w_cnd _ _ _ _ _ H)) as W.
    destruct (IH h m (set_nth k s' sets) _ Sh (kept_without h P bd _ _ H1 c Ab) Len1) as (found & h' & sets' & cands' & A1 & A2 & A3 & A4); [rewrite Ns; lia|].
    exists found, h', sets', cands'. split; [exact A1|]. split; [exact A2|]. split; [lia|]. destruct found as [(c' & a')|]; [exact A4|]. lia.
  - set (h1 := if b then h else flip h (left_from_end h c)) in *.
    assert (X : exists m1, shape S h1 t pts P m1 bd L /\ mouth h1 pts c /\ kept h1 P bd (set_nth k s' sets) cands /\ rim h1 P bd c
      /\ weight h1 pts cands <= weight h pts cands /\ (weight h1 pts cands < weight h pts cands \/ h1 = h)).
    { destruct b.
      - exists m. split; [exact Sh|]. split; [apply Eb; reflexivity|]. auto.
      - cbn [negb andb] in E. apply negb_false_iff in E. destruct (flip_shape S h t pts P m bd L Sh c Rc E) as (m1 & F1 & F2 & F3 & F4). exists m1. split; [exact F1|]. split; [exact F2|].
        destruct (flip_kept S h t pts P m bd L _ cands c Sh H1 Rc E) as (_ & _ & K1 & K2). split; [exact K1|]. split; [exact K2|].
        assert (W : weight h1 pts cands < weight h pts cands).
        { apply (weight_gain h h1 pts cands c); [intros d Id; apply F4, (w_rim _ _ _ _ _ H), Id|exact Ic| |exact F2]. intros M. apply Eb in M. discriminate. }
        split; [lia|left; exact W]. }
    clearbody h1. destruct X as (m1 & Sh1 & Mc & H2 & Rc1 & W1 & W2).
    destruct (Z.eqb_spec (mouth_to_increment h1 c) target) as [Et|Et].
    + exists (Some (c, mouth_to_increment h1 c)), h1, (set_nth k s' sets), cands. auto.
    + destruct (add_total h1 t pts P m1 bd L (set_nth k s' sets) c Sh1 Len1 Rc1) as (sets2 & B1 & B2 & B3 & _). rewrite B1. cbn [rbind].
      destruct (add_kept h1 P bd _ cands H2 fuel _ c sets2 Rc1 Ic Ab B1) as (C1 & _).
      destruct (IH h1 m1 sets2 cands Sh1 C1 B2) as (found & h' & sets' & cands' & A1 & A2 & A3 & A4); [rewrite B3 by (unfold k; lia); rewrite Ns; lia|].
      exists found, h', sets', cands'. split; [exact A1|]. split; [exact A2|]. split; [lia|]. destruct found as [(c' & a')|]; [exact A4|].
      intros _ Ex. destruct W2 as [W2| ->]; [lia|]. destruct Et. pose proof (Ex k c Is) as Y. unfold k in Y. lia.
Qed.
Lemma negative_total t pts P bd L h m : shape S h t pts P m bd L -> forall n sets s cands,
  kept h P bd (set_nth 0 s sets) cands -> sets <> [] -> n <= length s ->
  match negative_mouths n h pts s cands with
  | Ok (Some (c, _, h'), _, _) => mouth h' pts c
  | Ok (None, _, _) => True
  | Raise e => e = AssertionError end.
Proof.
  intros Sh. induction n as [|n IH]; intros sets s cands H Ne Hn; cbn [negative_mouths]; [exact I|].
  assert (N0 : nth 0 (set_nth 0 s sets) [] = s) by (destruct sets; [contradiction|reflexivity]).
  destruct (pop_total h t pts P m bd L (set_nth 0 s sets) cands 0 Sh H) as (c & s1 & Hp & Ls & _); [rewrite N0; intros ->; cbn [length] in Hn; lia|].
  destruct (pop_kept S h t pts P m bd L Sh _ cands H 0 c s1 Hp) as (Rc & Ic & H1 & Ab). rewrite set_nth_twice in H1, Ab. rewrite N0 in Hp, Ls. rewrite Hp. cbn [rbind].
  destruct (_ =? -1)%Z; cbn [assert_ rbind]; [|reflexivity].
  destruct (is_mouth_ok S h t pts P m bd L c Sh Rc) as (b & Hb & Eb). rewrite Hb. cbn [rbind]. destruct b.
  - destruct (flippable h pts (left_from_end h c)) eqn:F.
    + destruct (flip_shape S h t pts P m bd L Sh c Rc F) as (m1 & _ & F2 & _). exact F2.
    + destruct (remove_ok c cands Ic (w_cnd _ _ _ _ _ H)) as (Hr & _). rewrite Hr. cbn [rbind].
      apply (IH sets _ _ (kept_without h P bd _ _ H1 c Ab) Ne). lia.
  - apply (IH sets _ _ H1 Ne). lia.
Qed.
Lemma removal_total h t pts P m bd L sets cands left c a target : shape S h t pts P m bd L -> kept h P bd sets cands -> length sets = 5 -> rim h P bd c -> In c cands ->
  mouth h pts c -> match remove_mouth fuel (VState h t pts sets cands left) c a target with Ok st' => length (vs_sets st') = 5 | Raise e => e = AssertionError end.
Proof.
  intros Sh H Len Rc Ic Mc. unfold remove_mouth. cbn [vs_heap vs_tri vs_points vs_sets vs_cands vs_left]. destruct (a =? target)%Z; cbn [assert_ rbind]; [|reflexivity].
  destruct (is_mouth_ok S h t pts P m bd L c Sh Rc) as (b & Hb & Eb). rewrite Hb. cbn [rbind]. rewrite (proj2 Eb Mc). cbn [assert_ rbind].
  destruct (remove_ok c cands Ic (w_cnd _ _ _ _ _ H)) as (Hr & _). rewrite Hr. cbn [rbind]. set (cs := filter _ cands).
  destruct (delete_shape S h t pts P m bd L Sh c Rc Mc) as (t' & P' & m' & bd' & L' & d1 & d2 & Hd & Sh' & _ & Nb & n12 & R1 & R2 & _).
  rewrite Hd. cbn [rbind]. rewrite Nb. cbn [register_neighbours]. change MAX_MOUTH_DECREMENT with 1%Z.
  destruct (add_total _ t' _ P' m' bd' L' sets d1 Sh' Len R1) as (s1 & B1 & B2 & _). rewrite B1. cbn [rbind].
  destruct (add_total _ t' _ P' m' bd' L' s1 d2 Sh' B2 R2) as (s2 & C1 & C2 & _). rewrite C1. cbn [rbind vs_sets]. exact C2.
Qed.
(** ** The mouth loop. *)
Definition ahead (k : nat) (st : vstate) : Prop := exists P m bd L f,
  shape S (vs_heap st) (vs_tri st) (vs_points st) P m bd L /\ kept (vs_heap st) P bd (vs_sets st) (vs_cands st) /\ length (vs_sets st) = 5
  /\ (f = 1 \/ f = 0 /\ exact_sets (vs_heap st) (vs_sets st))
  /\ k = (length S - length L) * (4 * length S + 2) + 2 * weight (vs_heap st) (vs_points st) (vs_cands st) + f.
Lemma best_full l : forall sets i b, match best_increment sets i l b with
  | Some g => b = Some g \/ exists k, g = (i + Z.of_nat k)%Z /\ k < length sets /\ nth k sets [] <> []
  | None => True end.
Proof.
  induction sets as [|s sets IH]; intros i b; cbn [best_increment]; [destruct b; auto|].
  specialize (IH (i + 1)%Z (if (match s with [] => false | _ => true end && (i <=? l)%Z)%bool then Some i else b)).
  destruct (best_increment _ _ _ _) as [g|]; [|exact I]. destruct IH as [IH|(k & E & Lk & Ne)].
  - destruct (_ && _)%bool eqn:E; [|auto]. injection IH as ->. right. exists 0. apply andb_true_iff in E. destruct E as (E & _). cbn [length nth]. split; [lia|]. split; [lia|].
    destruct s; [discriminate|discriminate].
  - right. exists (Datatypes.S k). cbn [length nth]. split; [lia|]. split; [lia|exact Ne].
Qed.
Lemma cut_measure N N' B w f : N' < N -> w <= 2 * B -> N' * (4 * B + 2) + 2 * w + 1 < N * (4 * B + 2) + f.
Proof. intros. assert ((N' + 1) * (4 * B + 2) <= N * (4 * B + 2)) by (apply Nat.mul_le_mono_r; lia). lia. Qed.
Lemma step_ends k st : ahead k st -> match mouth_step fuel st with
  | Ok (inl st') => exists k', k' < k /\ ahead k' st'
  | Ok (inr _) => True
  | Raise e => e = AssertionError end.
Proof.
  intros (P & m & bd & L & f & Sh & H & Len & Ff & Ek). unfold mouth_step. destruct (vs_left st >? 0)%Z eqn:El; [|exact I].
  assert (Cut : forall st' P2 m2 bd2 L2, shape S (vs_heap st') (vs_tri st') (vs_points st') P2 m2 bd2 L2 -> kept (vs_heap st') P2 bd2 (vs_sets st') (vs_cands st') ->
    length (vs_sets st') = 5 -> length L2 = Datatypes.S (length L) -> exists k', k' < k /\ ahead k' st').
  { intros st' P2 m2 bd2 L2 S2 K2 N2 E2. pose proof (boundary_size _ _ _ _ _ _ _ _ S2) as B2. pose proof (rim_few _ _ _ _ _ _ _ _ S2 _ (w_cnd _ _ _ _ _ K2) (w_rim _ _ _ _ _ K2)) as R2.
    pose proof (weight_most (vs_heap st') (vs_points st') (vs_cands st')) as W2.
    eexists. split; [|exists P2, m2, bd2, L2, 1; auto 10].
    pose proof (cut_measure (length S - length L) (length S - length L2) (length S) (weight (vs_heap st') (vs_points st') (vs_cands st'))
      (2 * weight (vs_heap st) (vs_points st) (vs_cands st) + f) ltac:(lia) ltac:(lia)) as M. rewrite Ek. lia. }
  pose proof (best_full (vs_left st) (skipn (Z.to_nat MAX_MOUTH_DECREMENT) (vs_sets st)) 0 None) as Bf.
  destruct (best_increment _ 0 (vs_left st) None) as [g|].
  - destruct Bf as [Bf|(k1 & Eg & Lk1 & Ne)]; [discriminate|]. change (Z.to_nat MAX_MOUTH_DECREMENT) with 1 in Lk1, Ne.
    assert (Ne' : nth (Z.to_nat (g + 1)) (vs_sets st) [] <> []).
    { replace (Z.to_nat (g + 1)) with (Datatypes.S k1) by lia. destruct (vs_sets st) as [|s0 l]; [discriminate|]. exact Ne. }
    rewrite skipn_length, Len in Lk1. change (g + MAX_MOUTH_DECREMENT)%Z with (g + 1)%Z. set (n := length _).
    assert (n0 : 0 < n) by (unfold n; destruct (nth _ (vs_sets st) []); [contradiction|cbn [length]; lia]).
    destruct (target_total g (vs_tri st) (vs_points st) P bd L ltac:(lia) n (vs_heap st) m (vs_sets st) (vs_cands st) Sh H Len (le_n _)) as (found & h' & sets' & cands' & A1 & A2 & A3 & A4).
    rewrite A1. cbn [rbind]. destruct (target_kept S fuel g _ _ P bd L _ _ m _ _ _ _ _ _ Sh H A1) as (m' & Sh' & H' & F).
    destruct found as [(c & a)|].
    + destruct F as (Rc & Ic & Ab & Ea & Et). pose proof (removal_total h' _ _ P m' bd L sets' cands' (vs_left st) c a g Sh' H' A2 Rc Ic A4) as Tot.
      destruct (remove_mouth _ _ _ _ _) as [st'|] eqn:Er; cbn [rbind]; [|exact Tot].
      destruct (removal_kept S fuel h' _ _ P m' bd L sets' cands' _ c a g st' Sh' H' Rc Ic Ab Ea Er) as (P2 & m2 & bd2 & L2 & B1 & B2 & _ & _ & _ & B6).
      apply (Cut st' P2 m2 bd2 L2 B1 B2 Tot B6).
    + destruct (fresh_total h' _ _ P m' bd L cands' Sh' (w_rim _ _ _ _ _ H')) as (s2 & B1 & B2 & B3). rewrite B1. cbn [rbind].
      eexists. split; [|exists P, m', bd, L, 0; cbn [vs_heap vs_tri vs_points vs_sets vs_cands vs_left];
        split; [exact Sh'|split; [apply (fresh_kept S fuel h' _ _ P m' bd L cands' s2 Sh' (w_cnd _ _ _ _ _ H') (w_rim _ _ _ _ _ H') B1)|split; [exact B2|split; [auto|reflexivity]]]]].
      cbn [vs_heap vs_points vs_cands]. rewrite Ek. destruct Ff as [-> |(-> & Ex)]; [lia|]. specialize (A4 n0 Ex). lia.
  - assert (Ns : vs_sets st <> []) by (intros z; rewrite z in Len; discriminate).
    assert (Hs : set_nth 0 (nth 0 (vs_sets st) []) (vs_sets st) = vs_sets st) by (destruct (vs_sets st); reflexivity).
    pose proof (negative_total (vs_tri st) (vs_points st) P bd L (vs_heap st) m Sh (length (nth 0 (vs_sets st) [])) (vs_sets st) (nth 0 (vs_sets st) []) (vs_cands st)
      ltac:(rewrite Hs; exact H) Ns (le_n _)) as Tot.
    destruct (negative_mouths _ _ _ _ _) as [((found & s') & cands')|e] eqn:E; cbn [rbind]; [|exact Tot].
    assert (Hk : kept (vs_heap st) P bd (set_nth 0 (nth 0 (vs_sets st) []) (vs_sets st)) (vs_cands st)) by (rewrite Hs; exact H).
    pose proof (negative_kept S (vs_tri st) (vs_points st) P bd L _ m Sh _ (vs_sets st) _ _ _ _ _ Hk Ns E) as X.
    destruct found as [((c & a) & h')|]; [|exact I]. destruct X as (m' & Sh' & H' & Rc & Ic & Ab & Ea).
    assert (Len' : length (set_nth 0 s' (vs_sets st)) = 5) by (rewrite set_nth_length; exact Len).
    pose proof (removal_total h' _ _ P m' bd L _ cands' (vs_left st) c a 1 Sh' H' Len' Rc Ic Tot) as Tot2.
    destruct (remove_mouth _ _ _ _ _) as [st'|] eqn:Er; cbn [rbind]; [|exact Tot2].
    destruct (removal_kept S fuel h' _ _ P m' bd L _ cands' _ c a 1 st' Sh' H' Rc Ic Ab Ea Er) as (P2 & m2 & bd2 & L2 & B1 & B2 & _ & _ & _ & B6).
    apply (Cut st' P2 m2 bd2 L2 B1 B2 Tot2 B6).
Qed.
Lemma loop_ends st k : ahead k st -> k < Pos.to_nat fuel -> tame (while_ fuel (mouth_step fuel) st).
Proof.
  intros A Hk. apply (while_ends ahead tame (mouth_step fuel) fuel st k); [|exact A|exact Hk].
  intros j s Hj. pose proof (step_ends j s Hj) as X. destruct (mouth_step fuel s) as [[s'|r]|e]; [exact X|exact I|subst e; exact I].
Qed.
End G.
