(** [to_vertex_sequence] on points no three of which are collinear: the mouth loop ends, raises nothing,
    and leaves one simple boundary; no ear is cut. *)
From Coq Require Import List Lia Permutation.
From Verif Require Import Base Utils Geometry Ctx Spec WindSpec QcTac QcFast GeomProofs ListProofs LoopProofs CycEdge
  QuadEdge Triangulation Factories QuadProofs QuadApiProofs TriProofs CarveProofs MultiProofs
  DelGeo DelCyc DelMap DelFan DelOps DelCand DelMerge DelStart DelHeap DelFind DelHull DelCarve DelFlip DelWind DelBorder DelMouth
  DelRim Jordan DelGreen DelPoly DelTotal DelPolyTotal.
Import ListNotations.
Open Scope nat_scope.

(** ** Lists of sets. *)
Lemma set_nth_length {A} (v : A) : forall k l, length (set_nth k v l) = length l.
Proof. induction k as [|k IH]; intros [|x l]; cbn [set_nth length]; auto. Qed.
Lemma nth_set_nth {A} (v d : A) : forall k l i, k < length l -> nth i (set_nth k v l) d = if Nat.eqb i k then v else nth i l d.
Proof.
  induction k as [|k IH]; intros [|x l] i H; cbn [length] in H; try lia; cbn [set_nth].
  - destruct i; reflexivity.
  - destruct i as [|i]; [reflexivity|]. cbn [nth Nat.eqb]. apply IH. lia.
Qed.
Lemma key_eqb_eq a b : key_eqb a b = true <-> a = b.
Proof.
  destruct a as ((w1 & s1) & e1), b as ((w2 & s2) & e2). unfold key_eqb. rewrite !andb_true_iff, Z.eqb_eq, !point_eqb_eq. split; [intros ((-> & ->) & ->); reflexivity|].
  intros H. injection H as -> -> ->. auto.
Qed.
Lemma filter_one (l : kset) k e : NoDup (List.map snd l) -> (forall k1 e1 e2, In (k1, e1) l -> In (k1, e2) l -> e1 = e2) -> In (k, e) l ->
  Datatypes.S (length (filter (fun ke => negb (key_eqb (fst ke) k)) l)) = length l
  /\ forall k' e', In (k', e') (filter (fun ke => negb (key_eqb (fst ke) k)) l) <-> In (k', e') l /\ e' <> e.
Proof.
  intros N U I. split.
  - revert N U I. induction l as [|(k0 & e0) l IH]; intros N U I; [destruct I|]. cbn [List.map snd] in N. apply NoDup_cons_iff in N. destruct N as (N1 & N2).
    cbn [filter fst]. destruct (key_eqb k0 k) eqn:E; cbn [negb].
    + apply key_eqb_eq in E. subst k0. cbn [length]. f_equal. assert (X : filter (fun ke : key * edge => negb (key_eqb (fst ke) k)) l = l); [|rewrite X; reflexivity].
      assert (F : forall k' e', In (k', e') l -> k' <> k).
      { intros k' e' H ->. apply N1. rewrite (U k e0 e'); [apply (in_map snd _ _ H)|left; reflexivity|right; exact H]. }
      clear -F. induction l as [|(k' & e') l IH]; [reflexivity|]. cbn [filter fst]. destruct (key_eqb k' k) eqn:E.
      * apply key_eqb_eq in E. destruct (F k' e' (or_introl eq_refl) E).
      * cbn [negb]. f_equal. apply IH. intros k2 e2 H. apply (F k2 e2). right. exact H.
    + cbn [length]. f_equal. apply IH; [exact N2| |].
      * intros k1 e1 e2 H1 H2. apply (U k1); right; assumption.
      * destruct I as [X|I]; [|exact I]. injection X as -> ->. rewrite key_eqb_refl in E. discriminate.
  - intros k' e'. rewrite filter_In. cbn [fst]. rewrite negb_true_iff. split; intros (H1 & H2); (split; [exact H1|]).
    + intros ->. assert (k' = k) by (apply (nodup_snd_inj l k' k e N H1 I)). subst. rewrite key_eqb_refl in H2. discriminate.
    + destruct (key_eqb k' k) eqn:E; [|reflexivity]. apply key_eqb_eq in E. subst k'. destruct H2. apply (U k); assumption.
Qed.
Lemma popmax_some s : s <> [] -> exists k c, In (k, c) s /\ kset_popmax s = Ok (c, filter (fun ke => negb (key_eqb (fst ke) k)) s).
Proof.
  intros H. destruct s as [|x s]; [contradiction|]. cbn [kset_popmax]. pose proof (kset_max_in s x) as M. destruct (kset_max x s) as (k & c).
  exists k, c. split; [|reflexivity]. destruct M as [<- |M]; [left; reflexivity|right; exact M].
Qed.

(** ** General position. *)
Definition no_three (S : list point) : Prop := forall a b c, In a S -> In b S -> In c S -> a <> b -> a <> c -> b <> c -> cross a b c <> Q2Qc 0.

Section G.
Context (S : list point) (GP : no_three S).
Let S_ := S.
Definition rise := mouth_to_increment.

Section H.
Context (h : heap) (t : Triangulation.tri) (pts : list point) (P : edge -> Prop) (m : map) (bd : point -> point -> Prop) (L : list point).
Context (Sh : shape S h t pts P m bd L).
Let R := s_rep _ _ _ _ _ _ _ _ Sh.
Let K := s_car _ _ _ _ _ _ _ _ Sh.
Let W := k_laws _ _ _ K.
Let Cy := s_cycle _ _ _ _ _ _ _ _ Sh.

Lemma bd_in a b : bd a b -> In a S /\ In b S /\ In a L /\ In b L.
Proof.
  intros B. pose proof (k_bd _ _ _ K _ _ B) as E. split; [apply (l_in _ _ W _ _ E)|]. split; [apply (l_in _ _ W _ _ (l_sym _ _ W _ _ E))|]. apply Cy in B. apply ces_in, B.
Qed.
Lemma col_no a b c d e : start h d = a -> end_ h d = b -> e = c -> In a S -> In b S -> In c S -> a <> b -> a <> c -> b <> c ->
  orientation_eqb (orientation_of h d e) COLLINEAR = false.
Proof.
  intros <- <- <- Ia Ib Ic n1 n2 n3. destruct (orientation_eqb _ COLLINEAR) eqn:E; [|reflexivity]. apply orientation_eqb_eq in E. unfold orientation_of in E.
  apply orientation_col in E. destruct (GP _ _ _ Ia Ib Ic n1 n2 n3 E).
Qed.
Lemma col_yes a b d e : start h d = a -> end_ h d = b -> e = b \/ e = a -> orientation_eqb (orientation_of h d e) COLLINEAR = true.
Proof.
  intros <- <- H. apply orientation_eqb_eq. unfold orientation_of. apply orientation_col. unfold collinear, cross. destruct H as [-> | ->]; ring.
Qed.
Lemma rise_cases c : rim h P bd c -> let u := start h c in let w := end_ h c in let v := mn m u w in exists s x, bd s u /\ bd w x /\
  ((rise h c = 1%Z /\ s <> v /\ x <> v) \/ (rise h c = 0%Z /\ (s = v \/ x = v)) \/ (rise h c = -1)%Z /\ s = v /\ x = v).
Proof.
  intros Rc u w v. pose proof (proj2 Rc) as Bc. fold u w in Bc.
  destruct (around S h t pts P m bd L Sh c Rc) as (tr & E1 & E2 & e1 & e2 & (A1 & A2 & A3) & (B1 & B2 & B3) & (s & Bs & Es & C1 & C2) & (x & Bx & Ex & D1 & D2)).
  fold u w v in tr, E1, E2, e1, e2, A2, A3, B2, B3, Bs, Es, C1, C2, Bx, Ex, D1, D2.
  destruct (vacant_neq _ _ _ _ tr) as (n1 & n2 & n3).
  destruct (bd_in _ _ Bc) as (Iu & Iw & _). destruct (bd_in _ _ Bs) as (Is & _). destruct (bd_in _ _ Bx) as (_ & Ix & _).
  assert (Iv : In v S) by (apply (e_in2 _ _ W u), E1).
  assert (n4 : s <> u) by (intros ->; apply (l_ne _ _ W _ _ (k_bd _ _ _ K _ _ Bs)); reflexivity).
  assert (n5 : s <> w) by (intros ->; apply (k_two _ _ _ K _ _ Bc Bs)).
  assert (n6 : x <> w) by (intros ->; apply (l_ne _ _ W _ _ (k_bd _ _ _ K _ _ Bx)); reflexivity).
  assert (n7 : x <> u) by (intros ->; apply (k_two _ _ _ K _ _ Bc Bx)).
  exists s, x. split; [exact Bs|]. split; [exact Bx|]. unfold rise, mouth_to_increment.
  rewrite (col_no u w s c _ eq_refl eq_refl C2) by auto. rewrite (col_no u w x c _ eq_refl eq_refl D2) by auto.
  destruct (point_eq_dec s v) as [Ev|Nv].
  - rewrite (col_yes u v _ _ A2 A3) by (left; congruence). destruct (point_eq_dec x v) as [Ev'|Nv'].
    + rewrite (col_yes w v _ _ B2 B3) by (left; congruence). right. right. auto.
    + rewrite (col_no w v x _ _ B2 B3 D2) by auto. right. left. auto.
  - rewrite (col_no u v s _ _ A2 A3 C2) by auto. destruct (point_eq_dec x v) as [Ev'|Nv'].
    + rewrite (col_yes w v _ _ B2 B3) by (left; congruence). right. left. auto.
    + rewrite (col_no w v x _ _ B2 B3 D2) by auto. left. auto.
Qed.
Lemma rise_range c : rim h P bd c -> (-1 <= rise h c <= 1)%Z.
Proof. intros Rc. destruct (rise_cases c Rc) as (s & x & _ & _ & H). lia. Qed.
Lemma apex c : rim h P bd c -> end_ h (left_from_start h c) = mn m (start h c) (end_ h c).
Proof. intros (Pc & _). apply (rp_lfs _ _ _ _ R _ Pc). Qed.
Lemma rise_mouth c : rim h P bd c -> mouth h pts c -> rise h c = 1%Z.
Proof.
  intros Rc M. unfold mouth in M. rewrite (apex c Rc) in M. destruct (rise_cases c Rc) as (s & x & Bs & Bx & [H|[(_ & H)|(_ & H & _)]]); [apply H|exfalso..];
    apply M, (s_pts _ _ _ _ _ _ _ _ Sh); [destruct H as [<- | <-]|rewrite <- H]; [apply (bd_in _ _ Bs)|apply (bd_in _ _ Bx)|apply (bd_in _ _ Bs)].
Qed.
(** A boundary edge of increment -1 only exists when the region is one triangle. *)
Lemma tight c d : rim h P bd c -> rise h c = (-1)%Z -> rim h P bd d -> ~ mouth h pts d /\ flippable h pts (left_from_end h d) = false.
Proof.
  intros Rc Ic Rd. pose proof (proj2 Rc) as Bc. destruct (rise_cases c Rc) as (s & x & Bs & Bx & H).
  destruct (bd_triangle S m bd K _ _ Bc) as (tr & _ & _ & e1 & e2 & _).
  set (u := start h c) in *. set (w := end_ h c) in *. set (v := mn m u w) in *.
  destruct H as [(H & _)|[(H & _)|(_ & -> & ->)]]; [lia|lia|].
  assert (All : forall a, In a L -> a = u \/ a = w \/ a = v).
  { intros a Ha. apply (ces_closed (fun a => a = u \/ a = w \/ a = v) L u a); auto; [|apply (bd_in _ _ Bc)].
    intros y z Hyz. apply Cy in Hyz. intros [-> |[-> | ->]].
    - right. left. apply (k_fun _ _ _ K u); assumption.
    - right. right. apply (k_fun _ _ _ K w); assumption.
    - left. apply (k_fun _ _ _ K v); assumption. }
  pose proof (proj2 Rd) as Bd. destruct (bd_in _ _ Bd) as (_ & _ & Id & _).
  assert (Cs : (start h d = u /\ end_ h d = w) \/ (start h d = w /\ end_ h d = v) \/ (start h d = v /\ end_ h d = u)).
  { destruct (All _ Id) as [E|[E|E]]; rewrite E in *; [left|right; left|right; right]; (split; [reflexivity|]); eapply (k_fun _ _ _ K); eassumption. }
  assert (Ap : In (mn m (start h d) (end_ h d)) L /\ bd (end_ h d) (mn m (start h d) (end_ h d))).
  { destruct Cs as [(-> & ->)|[(-> & ->)|(-> & ->)]]; [fold v|rewrite e1|rewrite e2]; split; auto; eapply bd_in; eassumption. }
  destruct Ap as (Ap1 & Ap2). split.
  - intros M. apply M. rewrite (apex d Rd). apply (s_pts _ _ _ _ _ _ _ _ Sh), Ap1.
  - destruct (flippable _ _ _) eqn:F; [|reflexivity]. exfalso. destruct (diagonal S h t pts P m bd L Sh d Rd F) as (_ & X & _). apply X, Ap2.
Qed.
Lemma key_ok fuel c : P c -> length S < Pos.to_nat fuel -> exists wt, edge_key fuel h c = Ok (wt, start h c, end_ h c).
Proof.
  intros Pc Hf. destruct (edge_key_done S h P m c fuel R Pc Hf) as (k & Hk). unfold edge_key in *. destruct (while_ _ _ _) as [wt|]; cbn [rbind] in *; [|discriminate].
  exists wt. reflexivity.
Qed.
Lemma boundary_size : length L <= length S.
Proof. apply NoDup_incl_length; [apply Cy|]. intros x Hx. apply (cycle_vertex _ _ _ Cy) in Hx. destruct Hx as (y & B). apply (bd_in _ _ B). Qed.
Lemma rim_few l : NoDup l -> (forall e, In e l -> rim h P bd e) -> length l <= length L.
Proof.
  apply (few_by_key (start h)); [intros e Re; apply (bd_in _ _ (proj2 Re))|]. intros a b (Pa & Ba) (Pb & Bb) E. apply (rp_uniq _ _ _ _ R); auto. rewrite <- E in Bb. apply (k_fun _ _ _ K (start h a)); assumption.
Qed.
End H.

(** ** The sets of candidates. *)
Definition absent (sets : list kset) (e : edge) : Prop := forall i, ~ In e (List.map snd (nth i sets [])).
Record held (h : heap) (P : edge -> Prop) (bd : point -> point -> Prop) (sets : list kset) (cands : list edge) : Prop := Held {
  g_len : length sets = 5;
  g_ent : forall k q e, In (q, e) (nth k sets []) -> rim h P bd e /\ In e cands /\ exists wt, q = (wt, start h e, end_ h e);
  g_nd : forall k, NoDup (List.map snd (nth k sets []));
  g_one : forall i j e, In e (List.map snd (nth i sets [])) -> In e (List.map snd (nth j sets [])) -> i = j;
  g_rim : forall e, In e cands -> rim h P bd e;
  g_cnd : NoDup cands;
  g_hi : forall k, 3 <= k -> nth k sets [] = [];
  g_lo : forall q e, In (q, e) (nth 0 sets []) -> rise h e = (-1)%Z }.
Lemma in_snd {A B} (l : list (A * B)) b : In b (List.map snd l) <-> exists a, In (a, b) l.
Proof. rewrite in_map_iff. split; [intros ((a & b') & <- & H); exists a; exact H|intros (a & H); exists (a, b); auto]. Qed.

Section K.
Context (h : heap) (t : Triangulation.tri) (pts : list point) (P : edge -> Prop) (m : map) (bd : point -> point -> Prop) (L : list point).
Context (Sh : shape S h t pts P m bd L).
Let R := s_rep _ _ _ _ _ _ _ _ Sh.
Context (sets : list kset) (cands : list edge) (H : held h P bd sets cands).

Lemma held_keys k q e1 e2 : In (q, e1) (nth k sets []) -> In (q, e2) (nth k sets []) -> e1 = e2.
Proof.
  intros I1 I2. destruct (g_ent _ _ _ _ _ H _ _ _ I1) as ((P1 & _) & _ & w1 & E1). destruct (g_ent _ _ _ _ _ H _ _ _ I2) as ((P2 & _) & _ & w2 & E2).
  rewrite E1 in E2. injection E2 as _ E2 E3. apply (rp_uniq _ _ _ _ R); assumption.
Qed.
Lemma pop_ok k : nth k sets [] <> [] -> exists c s', kset_popmax (nth k sets []) = Ok (c, s') /\ rim h P bd c /\ In c cands
  /\ (k = 0 -> rise h c = (-1)%Z) /\ Datatypes.S (length s') = length (nth k sets []) /\ held h P bd (set_nth k s' sets) cands /\ absent (set_nth k s' sets) c
  /\ forall i, i <> k -> nth i (set_nth k s' sets) [] = nth i sets [].
Proof.
  intros Ne. destruct (popmax_some _ Ne) as (q & c & I & Hp). destruct (g_ent _ _ _ _ _ H _ _ _ I) as (Rc & Ic & _).
  destruct (filter_one _ q c (g_nd _ _ _ _ _ H k) (held_keys k) I) as (Fl & Fi). set (s' := filter _ _) in *.
  assert (Lk : k < length sets) by (destruct (Nat.lt_ge_cases k (length sets)) as [|G]; [assumption|destruct Ne; apply nth_overflow, G]).
  assert (Nk : forall i, nth i (set_nth k s' sets) [] = if Nat.eqb i k then s' else nth i sets []) by (intros i; apply nth_set_nth, Lk).
  assert (Sub : forall i q e, In (q, e) (nth i (set_nth k s' sets) []) -> In (q, e) (nth i sets []) /\ e <> c).
  { intros i q' e. rewrite Nk. destruct (Nat.eqb_spec i k) as [-> |n]; [apply Fi|]. intros I'. split; [exact I'|]. intros ->. apply n. apply (g_one _ _ _ _ _ H i k c); apply in_snd; eauto. }
  exists c, s'. split; [exact Hp|]. split; [exact Rc|]. split; [exact Ic|]. split; [intros ->; apply (g_lo _ _ _ _ _ H _ _ I)|]. split; [exact Fl|]. split; [|split].
  - split.
    + rewrite set_nth_length. apply (g_len _ _ _ _ _ H).
    + intros i q' e I'. apply (g_ent _ _ _ _ _ H i q'), (Sub _ _ _ I').
    + intros i. rewrite Nk. destruct (Nat.eqb i k); [|apply (g_nd _ _ _ _ _ H)]. apply kset_popmax_spec in Hp; [|apply (g_nd _ _ _ _ _ H)]. apply Hp.
    + intros i j e Hi Hj. apply in_snd in Hi, Hj. destruct Hi as (q1 & Hi). destruct Hj as (q2 & Hj). apply (g_one _ _ _ _ _ H i j e); apply in_snd; eexists; eapply Sub; eassumption.
    + apply (g_rim _ _ _ _ _ H).
    + apply (g_cnd _ _ _ _ _ H).
    + intros i Hi. destruct (nth i (set_nth k s' sets) []) as [|(q' & e) l] eqn:E; [exact E|]. exfalso.
      destruct (Sub i q' e) as (X & _); [rewrite E; left; reflexivity|]. rewrite (g_hi _ _ _ _ _ H i Hi) in X. exact X.
    + intros q' e I'. apply (g_lo _ _ _ _ _ H q'), (Sub 0), I'.
  - intros i Hi. apply in_snd in Hi. destruct Hi as (q' & Hi). apply Sub in Hi. apply (proj2 Hi). reflexivity.
  - intros i n. rewrite Nk. rewrite (proj2 (Nat.eqb_neq i k) n). reflexivity.
Qed.
Lemma add_ok fuel i e : length S < Pos.to_nat fuel -> rim h P bd e -> In e cands -> absent sets e -> (0 <= i <= 2)%Z -> (i = 0%Z -> rise h e = (-1)%Z) ->
  exists sets', increments_add fuel h sets i e = Ok sets' /\ held h P bd sets' cands /\ (exists q, In (q, e) (nth (Z.to_nat i) sets' []))
    /\ (forall j q d, In (q, d) (nth j sets' []) -> In (q, d) (nth j sets []) \/ d = e) /\ (forall j q d, In (q, d) (nth j sets []) -> In (q, d) (nth j sets' []))
    /\ forall j, j <> Z.to_nat i -> nth j sets' [] = nth j sets [].
Proof.
  intros Hf Re Ic Ab Hi H0. pose proof (g_len _ _ _ _ _ H) as Len. unfold increments_add, py_index. rewrite Len.
  rewrite (proj2 (Z.leb_le 0 i)) by lia. rewrite (proj2 (Z.ltb_lt i (Z.of_nat 5))) by lia. set (k := Z.to_nat i).
  destruct (key_ok h t pts P m bd L Sh fuel e (proj1 Re) Hf) as (wt & Hk). unfold kset_add. rewrite Hk. cbn [rbind].
  assert (No : existsb (fun ke => key_eqb (fst ke) (wt, start h e, end_ h e)) (nth k sets []) = false).
  { destruct (existsb _ _) eqn:E; [|reflexivity]. exfalso. apply existsb_exists in E. destruct E as ((q & d) & I & E). cbn [fst] in E. apply key_eqb_eq in E. subst q.
    destruct (g_ent _ _ _ _ _ H _ _ _ I) as ((Pd & _) & _ & w' & X). injection X as _ X1 X2. assert (d = e) by (apply (rp_uniq _ _ _ _ R); auto; apply Re). subst d.
    apply (Ab k), in_snd. eauto. }
  rewrite No. set (s' := (wt, start h e, end_ h e, e) :: nth k sets []). eexists. split; [reflexivity|].
  assert (Lk : k < length sets) by (unfold k; lia).
  assert (Nk : forall i, nth i (set_nth k s' sets) [] = if Nat.eqb i k then s' else nth i sets []) by (intros j; apply nth_set_nth, Lk).
  assert (Sub : forall j q d, In (q, d) (nth j (set_nth k s' sets) []) -> In (q, d) (nth j sets []) \/ (j = k /\ d = e /\ q = (wt, start h e, end_ h e))).
  { intros j q d. rewrite Nk. destruct (Nat.eqb_spec j k) as [-> |n]; [|auto]. intros [X|X]; [injection X as <- <-; auto|auto]. }
  split; [|split; [|split; [|split]]].
  - split.
    + rewrite set_nth_length. exact Len.
    + intros j q d I. destruct (Sub _ _ _ I) as [X|(-> & -> & ->)]; [apply (g_ent _ _ _ _ _ H _ _ _ X)|]. split; [exact Re|]. split; [exact Ic|]. eauto.
    + intros j. rewrite Nk. destruct (Nat.eqb j k); [|apply (g_nd _ _ _ _ _ H)]. cbn [s' List.map snd]. constructor; [apply Ab|apply (g_nd _ _ _ _ _ H)].
    + intros a b d Ha Hb. apply in_snd in Ha, Hb. destruct Ha as (q1 & Ha). destruct Hb as (q2 & Hb).
      destruct (Sub _ _ _ Ha) as [X|(Ea & E & _)]; destruct (Sub _ _ _ Hb) as [Y|(Eb & E' & _)].
      * apply (g_one _ _ _ _ _ H a b d); apply in_snd; eauto.
      * subst d. destruct (Ab a). apply in_snd. eauto.
      * subst d. destruct (Ab b). apply in_snd. eauto.
      * congruence.
    + apply (g_rim _ _ _ _ _ H).
    + apply (g_cnd _ _ _ _ _ H).
    + intros j Hj. rewrite Nk. rewrite (proj2 (Nat.eqb_neq j k)) by (unfold k; lia). apply (g_hi _ _ _ _ _ H), Hj.
    + intros q d I. destruct (Sub _ _ _ I) as [X|(E & -> & _)]; [apply (g_lo _ _ _ _ _ H _ _ X)|]. apply H0. unfold k in E. lia.
  - exists (wt, start h e, end_ h e). rewrite Nk, Nat.eqb_refl. left. reflexivity.
  - intros j q d I. destruct (Sub _ _ _ I) as [X|(_ & -> & _)]; auto.
  - intros j q d I. rewrite Nk. destruct (Nat.eqb_spec j k) as [-> |]; [right|]; exact I.
  - intros j n. rewrite Nk. rewrite (proj2 (Nat.eqb_neq j k) n). reflexivity.
Qed.
Lemma held_moved h' P' bd' cands' : nth 0 sets [] = [] -> NoDup cands' -> (forall e, In e cands' -> rim h' P' bd' e) ->
  (forall e k, In e (List.map snd (nth k sets [])) -> In e cands -> In e cands' /\ start h' e = start h e /\ end_ h' e = end_ h e) -> held h' P' bd' sets cands'.
Proof.
  intros E0 N' Rm Mv. split; try apply H; auto.
  - intros k q e I. destruct (g_ent _ _ _ _ _ H _ _ _ I) as (Re & Ic & w & E). destruct (Mv e k) as (I' & X1 & X2); [apply in_snd; eauto|exact Ic|].
    split; [apply Rm, I'|]. split; [exact I'|]. exists w. rewrite X1, X2. exact E.
  - intros q e I. rewrite E0 in I. destruct I.
Qed.
Lemma held_without c : absent sets c -> held h P bd sets (filter (fun x => negb (edge_eqb x c)) cands).
Proof.
  intros Ab. split; try apply H.
  - intros k q e I. destruct (g_ent _ _ _ _ _ H _ _ _ I) as (Re & Ic & w & E). split; [exact Re|]. split; [|eauto]. apply filter_In. split; [exact Ic|].
    apply negb_true_iff, edge_eqb_neq. intros ->. apply (Ab k), in_snd. eauto.
  - intros e I. apply filter_In in I. apply (g_rim _ _ _ _ _ H), I.
  - apply NoDup_filter, (g_cnd _ _ _ _ _ H).
Qed.
Lemma loose : (exists c, rim h P bd c /\ (mouth h pts c \/ flippable h pts (left_from_end h c) = true)) -> nth 0 sets [] = [].
Proof.
  intros (c & Rc & X). destruct (nth 0 sets []) as [|(q & e) l] eqn:E; [reflexivity|]. exfalso.
  assert (I : In (q, e) (nth 0 sets [])) by (rewrite E; left; reflexivity).
  destruct (g_ent _ _ _ _ _ H _ _ _ I) as (Re & _). destruct (tight h t pts P m bd L Sh e c Re (g_lo _ _ _ _ _ H _ _ I) Rc) as (Y1 & Y2). destruct X as [X|X]; [exact (Y1 X)|congruence].
Qed.
End K.
Lemma remove_ok c l : In c l -> NoDup l -> remove_edge c l = Ok (filter (fun x => negb (edge_eqb x c)) l)
  /\ Datatypes.S (length (filter (fun x => negb (edge_eqb x c)) l)) = length l.
Proof.
  intros I N. unfold remove_edge. assert (M : mem_edge c l = true) by (apply existsb_exists; exists c; split; [exact I|apply edge_eqb_refl]). rewrite M. split; [reflexivity|].
  clear M. induction l as [|x l IH]; [destruct I|]. apply NoDup_cons_iff in N. destruct N as (N1 & N2). cbn [filter]. destruct (edge_eqb x c) eqn:E; cbn [negb length].
  - apply edge_eqb_eq in E. subst x. f_equal. clear IH I N2. induction l as [|y l IH]; [reflexivity|]. cbn [filter]. destruct (edge_eqb y c) eqn:E.
    + apply edge_eqb_eq in E. destruct N1. left. exact E.
    + cbn [negb length]. f_equal. apply IH. intros I. apply N1. right. exact I.
  - f_equal. apply IH; [|exact N2]. destruct I as [-> |I]; [rewrite edge_eqb_refl in E; discriminate|exact I].
Qed.
Context (fuel : positive) (Hf : length S < Pos.to_nat fuel).
Lemma fold_ok h t pts P m bd L cands (Sh : shape S h t pts P m bd L) : forall es sets, held h P bd sets cands -> NoDup es ->
  (forall e, In e es -> In e cands /\ absent sets e) ->
  exists sets', fold_increments fuel h mouth_to_increment MAX_MOUTH_DECREMENT es sets = Ok sets' /\ held h P bd sets' cands
    /\ (forall e, In e es -> exists q, In (q, e) (nth (Z.to_nat (rise h e + 1)) sets' []))
    /\ (forall j q d, In (q, d) (nth j sets []) -> In (q, d) (nth j sets' [])).
Proof.
  induction es as [|e es IH]; intros sets H N Al; cbn [fold_increments].
  { exists sets. split; [reflexivity|]. split; [exact H|]. split; [intros e []|auto]. }
  apply NoDup_cons_iff in N. destruct N as (Ne & N). destruct (Al e (or_introl eq_refl)) as (Ie & Ae).
  pose proof (g_rim _ _ _ _ _ H _ Ie) as Re. pose proof (rise_range h t pts P m bd L Sh e Re) as Rg.
  destruct (add_ok h t pts P m bd L Sh sets cands H fuel (mouth_to_increment h e + MAX_MOUTH_DECREMENT) e Hf Re Ie Ae) as (sets1 & A1 & A2 & A3 & A4 & A5 & _).
  { unfold rise in Rg. change MAX_MOUTH_DECREMENT with 1%Z. lia. }
  { unfold rise. change MAX_MOUTH_DECREMENT with 1%Z. lia. }
  rewrite A1. cbn [rbind]. destruct (IH sets1 A2 N) as (sets' & B1 & B2 & B3 & B4).
  { intros d Hd. destruct (Al d (or_intror Hd)) as (Id & Ad). split; [exact Id|]. intros i Hi. apply in_snd in Hi. destruct Hi as (q & Hi).
    destruct (A4 _ _ _ Hi) as [X| ->]; [apply (Ad i), in_snd; eauto|contradiction]. }
  exists sets'. split; [exact B1|]. split; [exact B2|]. split.
  - intros d [<- |Hd]; [|apply B3, Hd]. destruct A3 as (q & A3). exists q. apply B4. exact A3.
  - intros j q d I. apply B4, A5, I.
Qed.
Lemma nth_repeat_nil k n : nth k (repeat (@nil (key * edge)) n) [] = [].
Proof. revert n. induction k as [|k IH]; intros [|n]; cbn [repeat nth]; auto. Qed.
Lemma fresh_ok h t pts P m bd L cands (Sh : shape S h t pts P m bd L) : NoDup cands -> (forall e, In e cands -> rim h P bd e) ->
  exists sets, to_mouths_increments fuel h cands = Ok sets /\ held h P bd sets cands
    /\ (forall e, In e cands -> exists q, In (q, e) (nth (Z.to_nat (rise h e + 1)) sets [])).
Proof.
  intros N Rm. set (s0 := repeat (@nil (key * edge)) 5).
  assert (E : forall k, nth k s0 [] = []) by (intros k; apply nth_repeat_nil).
  destruct (fold_ok h t pts P m bd L cands Sh cands s0) as (sets & A1 & A2 & A3 & _).
  - split; auto; intros; rewrite ?E in *; cbn [In List.map] in *; try tauto. constructor.
  - exact N.
  - intros e Ie. split; [exact Ie|]. intros i Hi. rewrite E in Hi. destruct Hi.
  - exists sets. auto.
Qed.

(** ** The loop over the candidates of one set. *)
Lemma is_mouth_ok h t pts P m bd L c : shape S h t pts P m bd L -> rim h P bd c -> exists b, is_mouth h c pts = Ok b /\ (b = true <-> mouth h pts c).
Proof.
  intros Sh Rc. unfold is_mouth. pose proof (bd_in h t pts P m bd L Sh _ _ (proj2 Rc)) as (_ & _ & I & _). rewrite (proj2 (mem_point_in _ _) (s_pts _ _ _ _ _ _ _ _ Sh _ I)).
  cbn [assert_ rbind]. eexists. split; [reflexivity|]. rewrite negb_true_iff. apply mem_point_not.
Qed.
Lemma target_ok target t pts P bd L : (target = 0 \/ target = 1)%Z -> forall n h m sets cands,
  shape S h t pts P m bd L -> held h P bd sets cands -> n <= length (nth (Z.to_nat (target + 1)) sets []) ->
  exists found h' sets' cands' m', target_mouths n fuel target h pts sets cands = Ok (found, h', sets', cands')
    /\ shape S h' t pts P m' bd L /\ held h' P bd sets' cands' /\ (cands' = cands \/ length cands' < length cands)
    /\ (forall c, rim h P bd c -> mouth h pts c -> mouth h' pts c)
    /\ match found with
       | Some (c, a) => target = 1%Z /\ a = 1%Z /\ rim h' P bd c /\ In c cands' /\ absent sets' c /\ mouth h' pts c
       | None => n = 0 \/ length cands' < length cands \/ target = 0%Z /\ exists c, In c cands' /\ mouth h' pts c
       end.
Proof.
  intros Ht. induction n as [|n IH]; intros h m sets cands Sh H Hn; cbn [target_mouths].
  { exists None, h, sets, cands, m. split; [reflexivity|]. split; [exact Sh|]. split; [exact H|]. auto. }
  change MAX_MOUTH_DECREMENT with 1%Z. set (k := Z.to_nat (target + 1)) in *.
  destruct (pop_ok h t pts P m bd L Sh sets cands H k) as (c & s' & Hp & Rc & Ic & _ & Ls & H1 & Ab & Oth); [intros E; rewrite E in Hn; cbn [length] in Hn; lia|].
  rewrite Hp. cbn [rbind]. destruct (is_mouth_ok h t pts P m bd L c Sh Rc) as (b & Hb & Eb). rewrite Hb. cbn [rbind].
  assert (Lk : k < length sets) by (rewrite (g_len _ _ _ _ _ H); unfold k; lia).
  assert (Ns : nth k (set_nth k s' sets) [] = s') by (rewrite nth_set_nth by exact Lk; rewrite Nat.eqb_refl; reflexivity).
  destruct (negb b && negb (flippable h pts (left_from_end h c))) eqn:E.
  - destruct (remove_ok c cands Ic (g_cnd _ _ _ _ _ H)) as (Hr & Lr). rewrite Hr. cbn [rbind].
    destruct (IH h m (set_nth k s' sets) _ Sh (held_without h P bd _ _ H1 c Ab)) as (found & h' & sets' & cands' & m' & A1 & A2 & A3 & A4 & A5 & A6); [rewrite Ns; lia|].
    exists found, h', sets', cands', m'. split; [exact A1|]. split; [exact A2|]. split; [exact A3|].
    assert (Ll : length cands' < length cands) by (destruct A4 as [-> |A4]; lia). split; [auto|]. split; [exact A5|].
    destruct found as [(c' & a')|]; [|auto]. exact A6.
  - set (h1 := if b then h else flip h (left_from_end h c)) in *.
    assert (X : exists m1, shape S h1 t pts P m1 bd L /\ mouth h1 pts c /\ (forall d, rim h P bd d -> rim h1 P bd d /\ start h1 d = start h d /\ end_ h1 d = end_ h d)
      /\ (forall d, rim h P bd d -> mouth h pts d -> mouth h1 pts d) /\ nth 0 sets [] = []).
    { destruct b.
      - exists m. split; [exact Sh|]. split; [apply Eb; reflexivity|]. split; [auto|]. split; [auto|].
        apply (loose h t pts P m bd L Sh sets cands H). exists c. split; [exact Rc|]. left. apply Eb. reflexivity.
      - cbn [negb andb] in E. apply negb_false_iff in E. destruct (flip_shape S h t pts P m bd L Sh c Rc E) as (m1 & F1 & F2 & F3 & F4). exists m1. split; [exact F1|]. split; [exact F2|].
        split; [exact F3|]. split; [exact F4|]. apply (loose h t pts P m bd L Sh sets cands H). exists c. auto. }
    destruct X as (m1 & Sh1 & Mc & Mv & Keep & E0).
    assert (E0' : nth 0 (set_nth k s' sets) [] = []) by (rewrite Oth; [exact E0|unfold k; lia]).
    assert (H2 : held h1 P bd (set_nth k s' sets) cands).
    { apply (held_moved h P bd _ cands H1 h1 P bd cands E0'); [apply (g_cnd _ _ _ _ _ H)| |].
      - intros e Ie. apply Mv, (g_rim _ _ _ _ _ H), Ie.
      - intros e _ _ Ie. split; [exact Ie|]. apply Mv, (g_rim _ _ _ _ _ H), Ie. }
    assert (Rc1 : rim h1 P bd c) by (apply Mv, Rc).
    pose proof (rise_mouth h1 t pts P m1 bd L Sh1 c Rc1 Mc) as Ri. unfold rise in Ri. rewrite Ri.
    destruct (Z.eqb_spec 1 target) as [Et|Et].
    + exists (Some (c, 1%Z)), h1, (set_nth k s' sets), cands, m1. split; [reflexivity|]. split; [exact Sh1|]. split; [exact H2|]. split; [auto|]. split; [exact Keep|].
      split; [lia|]. auto 8.
    + assert (T0 : target = 0%Z) by lia.
      destruct (add_ok h1 t pts P m1 bd L Sh1 (set_nth k s' sets) cands H2 fuel (1 + 1) c Hf Rc1 Ic Ab ltac:(lia) ltac:(lia)) as (sets2 & B1 & B2 & _ & _ & _ & B3).
      rewrite B1. cbn [rbind].
      destruct (IH h1 m1 sets2 cands Sh1 B2) as (found & h' & sets' & cands' & m' & A1 & A2 & A3 & A4 & A5 & A6).
      { rewrite B3 by (unfold k; lia). rewrite Ns. lia. }
      exists found, h', sets', cands', m'. split; [exact A1|]. split; [exact A2|]. split; [exact A3|]. split; [exact A4|].
      split; [intros d Rd Md; apply A5; [apply Mv, Rd|apply Keep; assumption]|].
      destruct found as [(c' & a')|]; [exact A6|]. right. destruct A4 as [-> |A4]; [right|left; exact A4]. split; [exact T0|]. exists c. split; [exact Ic|]. apply A5; assumption.
Qed.
Lemma negative_ok t pts P bd L h m : shape S h t pts P m bd L -> forall n sets cands, held h P bd sets cands -> n <= length (nth 0 sets []) ->
  exists s', negative_mouths n h pts (nth 0 sets []) cands = Ok (None, s', cands) /\ held h P bd (set_nth 0 s' sets) cands.
Proof.
  intros Sh. induction n as [|n IH]; intros sets cands H Hn; cbn [negative_mouths].
  { exists (nth 0 sets []). split; [reflexivity|]. pose proof (g_len _ _ _ _ _ H) as Len. destruct sets as [|s0 sets]; [discriminate|]. exact H. }
  destruct (pop_ok h t pts P m bd L Sh sets cands H 0) as (c & s' & Hp & Rc & Ic & Ri & Ls & H1 & Ab & Oth); [intros E; rewrite E in Hn; cbn [length] in Hn; lia|].
  rewrite Hp. cbn [rbind]. specialize (Ri eq_refl). unfold rise in Ri. rewrite Ri. cbn [Z.eqb Pos.eqb assert_ rbind].
  destruct (is_mouth_ok h t pts P m bd L c Sh Rc) as (b & Hb & Eb). rewrite Hb. cbn [rbind]. destruct b.
  { exfalso. apply (proj1 (tight h t pts P m bd L Sh c c Rc Ri Rc)), Eb. reflexivity. }
  assert (Ns : nth 0 (set_nth 0 s' sets) [] = s') by (rewrite nth_set_nth by (rewrite (g_len _ _ _ _ _ H); lia); reflexivity).
  destruct (IH (set_nth 0 s' sets) cands H1) as (s'' & A1 & A2); [rewrite Ns; lia|]. rewrite Ns in A1. exists s''. split; [exact A1|].
  destruct sets as [|s0 sets]; [pose proof (g_len _ _ _ _ _ H); discriminate|exact A2].
Qed.
Lemma removal_ok h t pts P m bd L sets cands left c : shape S h t pts P m bd L -> held h P bd sets cands -> rim h P bd c -> In c cands -> absent sets c -> mouth h pts c ->
  exists st' P' m' bd' L', remove_mouth fuel (VState h t pts sets cands left) c 1 1 = Ok st'
    /\ shape S (vs_heap st') (vs_tri st') (vs_points st') P' m' bd' L' /\ held (vs_heap st') P' bd' (vs_sets st') (vs_cands st')
    /\ length L' = Datatypes.S (length L) /\ length (vs_cands st') <= Datatypes.S (length cands) /\ incl L L' /\ vs_left st' = (left - 1)%Z.
Proof.
  intros Sh H Rc Ic Ab Mc. unfold remove_mouth. cbn [vs_heap vs_tri vs_points vs_sets vs_cands vs_left Z.eqb Pos.eqb assert_ rbind].
  destruct (is_mouth_ok h t pts P m bd L c Sh Rc) as (b & Hb & Eb). rewrite Hb. cbn [rbind]. rewrite (proj2 Eb Mc). cbn [assert_ rbind].
  destruct (remove_ok c cands Ic (g_cnd _ _ _ _ _ H)) as (Hr & Lr). rewrite Hr. cbn [rbind]. set (cs := filter _ cands) in *.
  destruct (delete_shape S h t pts P m bd L Sh c Rc Mc) as (t' & P' & m' & bd' & L' & d1 & d2 & Hd & Sh' & (LL & LI & _) & Nb & n12 & R1 & R2 & Nr1 & Nr2 & Mv).
  rewrite Hd. cbn [rbind]. rewrite Nb. cbn [register_neighbours]. set (h' := delete h c) in *. set (pts' := add_point _ pts) in *.
  pose proof (held_without h P bd _ _ H c Ab) as H1. fold cs in H1.
  assert (N1 : ~ In d1 cands) by (intros X; apply Nr1, (g_rim _ _ _ _ _ H), X). assert (N2 : ~ In d2 cands) by (intros X; apply Nr2, (g_rim _ _ _ _ _ H), X).
  assert (Sub : forall e, In e cs -> In e cands /\ e <> c) by (intros e Ie; apply filter_In in Ie; destruct Ie as (Ie & X); apply negb_true_iff, edge_eqb_neq in X; auto).
  assert (E1 : add_edge d1 cs = cs ++ [d1]).
  { unfold add_edge. destruct (mem_edge d1 cs) eqn:X; [|reflexivity]. apply existsb_exists in X. destruct X as (e & Ie & X). apply edge_eqb_eq in X. subst e. destruct N1. apply Sub, Ie. }
  assert (E2 : add_edge d2 (cs ++ [d1]) = cs ++ [d1] ++ [d2]).
  { unfold add_edge. destruct (mem_edge d2 (cs ++ [d1])) eqn:X; [|rewrite <- app_assoc; reflexivity]. apply existsb_exists in X. destruct X as (e & Ie & X). apply edge_eqb_eq in X. subst e.
    apply in_app_or in Ie. destruct Ie as [Ie|[Ie|[]]]; [destruct N2; apply Sub, Ie|congruence]. }
  set (cf := cs ++ [d1] ++ [d2]) in *.
  assert (Nf : NoDup cf).
  { unfold cf. cbn [app]. apply (Permutation_NoDup (l := d1 :: d2 :: cs)); [apply (Permutation_app_comm [d1; d2] cs)|].
    constructor; [intros [X|X]; [congruence|apply N1, Sub, X]|]. constructor; [intros X; apply N2, Sub, X|]. apply NoDup_filter, (g_cnd _ _ _ _ _ H). }
  assert (H2 : held h' P' bd' sets cf).
  { apply (held_moved h P bd sets cs H1 h' P' bd' cf); [|exact Nf| |].
    - apply (loose h t pts P m bd L Sh sets cands H). exists c. auto.
    - intros e Ie. unfold cf in Ie. apply in_app_or in Ie. destruct Ie as [Ie|[<- |[<- |[]]]]; [|exact R1|exact R2]. destruct (Sub e Ie) as (X & Y). apply Mv; [apply (g_rim _ _ _ _ _ H), X|exact Y].
    - intros e _ _ Ie. split; [unfold cf; apply in_or_app; left; exact Ie|]. destruct (Sub e Ie) as (X & Y). apply Mv; [apply (g_rim _ _ _ _ _ H), X|exact Y]. }
  assert (A1 : absent sets d1) by (intros i Hi; apply in_snd in Hi; destruct Hi as (q & Hi); apply N1, (g_ent _ _ _ _ _ H _ _ _ Hi)).
  assert (A2 : absent sets d2) by (intros i Hi; apply in_snd in Hi; destruct Hi as (q & Hi); apply N2, (g_ent _ _ _ _ _ H _ _ _ Hi)).
  assert (I1 : In d1 cf) by (unfold cf; apply in_or_app; right; left; reflexivity). assert (I2 : In d2 cf) by (unfold cf; apply in_or_app; right; right; left; reflexivity).
  pose proof (rise_range h' t' pts' P' m' bd' L' Sh' d1 R1) as G1. pose proof (rise_range h' t' pts' P' m' bd' L' Sh' d2 R2) as G2.
  change MAX_MOUTH_DECREMENT with 1%Z. unfold rise in G1, G2.
  destruct (add_ok h' t' pts' P' m' bd' L' Sh' sets cf H2 fuel (mouth_to_increment h' d1 + 1) d1 Hf R1 I1 A1 ltac:(lia) ltac:(unfold rise; lia)) as (s1 & B1 & B2 & _ & B3 & _ & _).
  rewrite B1. cbn [rbind].
  assert (A2' : absent s1 d2).
  { intros i Hi. apply in_snd in Hi. destruct Hi as (q & Hi). destruct (B3 _ _ _ Hi) as [X|X]; [apply (A2 i), in_snd; eauto|congruence]. }
  destruct (add_ok h' t' pts' P' m' bd' L' Sh' s1 cf B2 fuel (mouth_to_increment h' d2 + 1) d2 Hf R2 I2 A2' ltac:(lia) ltac:(unfold rise; lia)) as (s2 & C1 & C2 & _).
  rewrite C1. cbn [rbind]. eexists. exists P', m', bd', L'. split; [reflexivity|]. cbn [vs_heap vs_tri vs_points vs_sets vs_cands vs_left]. rewrite E1, E2. split; [exact Sh'|]. split; [exact C2|].
  split; [exact LL|]. split; [unfold cf; rewrite !app_length; cbn [length]; lia|]. split; [exact LI|reflexivity].
Qed.
(** ** The mouth loop. *)
Definition minv (st : vstate) P m bd L : Prop :=
  shape S (vs_heap st) (vs_tri st) (vs_points st) P m bd L /\ held (vs_heap st) P bd (vs_sets st) (vs_cands st).
(** What is still to be carved, the vertices so far and the asked size. *)
Section Ledger.
Context (L0 : list point) (bd0 : point -> point -> Prop) (asked : Z).
Definition ledger (st : vstate) (bd : point -> point -> Prop) (L : list point) : Prop :=
  incl L0 L /\ length L0 <= length L /\ (length L = length L0 -> forall a b, bd a b <-> bd0 a b) /\ (vs_left st + Z.of_nat (length L) = asked)%Z /\ ((0 <= vs_left st)%Z \/ length L = length L0).
Definition ready (st : vstate) : Prop := exists q e, In (q, e) (nth 2 (vs_sets st) []) /\ mouth (vs_heap st) (vs_points st) e.
Definition mleft (k : nat) (st : vstate) : Prop := exists P m bd L f, minv st P m bd L /\ ledger st bd L /\ (f = 1 \/ f = 0 /\ ready st)
  /\ k = 4 * (length S - length L) + 2 * length (vs_cands st) + f.
Lemma mouth_step_ok k st : mleft k st -> match mouth_step fuel st with
  | Ok (inl st') => exists k', k' < k /\ mleft k' st'
  | Ok (inr st') => exists P m bd L, minv st' P m bd L /\ ledger st' bd L
  | Raise _ => False end.
Proof.
  intros (P & m & bd & L & f & (Sh & H) & Led & Rf & Ek). unfold mouth_step. destruct (vs_left st >? 0)%Z eqn:El; [|exists P, m, bd, L; split; [split|]; assumption].
  apply Z.gtb_lt in El.
  assert (Best : match best_increment (skipn (Z.to_nat MAX_MOUTH_DECREMENT) (vs_sets st)) 0 (vs_left st) None with
    | None => True
    | Some g => (g = 0 /\ nth 2 (vs_sets st) [] = [] \/ g = 1)%Z /\ nth (Z.to_nat (g + 1)) (vs_sets st) [] <> [] end).
  { pose proof (g_len _ _ _ _ _ H) as Len. pose proof (g_hi _ _ _ _ _ H 3 ltac:(lia)) as E3. pose proof (g_hi _ _ _ _ _ H 4 ltac:(lia)) as E4.
    destruct (vs_sets st) as [|s0 [|s1 [|s2 [|s3 [|s4 [|s5 l]]]]]]; try discriminate. cbn [nth] in E3, E4. subst s3 s4. change (Z.to_nat MAX_MOUTH_DECREMENT) with 1.
    cbn [skipn best_increment andb]. rewrite (proj2 (Z.leb_le 0 (vs_left st))) by lia. rewrite (proj2 (Z.leb_le (0 + 1) (vs_left st))) by lia.
    destruct s2 as [|x s2]; [destruct s1 as [|y s1]|]; cbn [andb]; [exact I|split; [auto|discriminate]|split; [auto|discriminate]]. }
  destruct (best_increment _ 0 (vs_left st) None) as [g|].
  - destruct Best as (Bg & Ne). change (g + MAX_MOUTH_DECREMENT)%Z with (g + 1)%Z in *. set (n := length _).
    assert (n0 : n <> 0) by (unfold n; destruct (nth (Z.to_nat (g + 1)) (vs_sets st) []); [contradiction|discriminate]).
    destruct (target_ok g (vs_tri st) (vs_points st) P bd L ltac:(lia) n (vs_heap st) m (vs_sets st) (vs_cands st) Sh H ltac:(unfold n; lia))
      as (found & h' & sets' & cands' & m' & A1 & A2 & A3 & A4 & A5 & A6).
    rewrite A1. cbn [rbind]. destruct found as [(c & a)|].
    + destruct A6 as (-> & -> & Rc & Ic & Ab & Mc).
      destruct (removal_ok h' (vs_tri st) (vs_points st) P m' bd L sets' cands' (vs_left st) c A2 A3 Rc Ic Ab Mc) as (st' & P2 & m2 & bd2 & L2 & B1 & B2 & B3 & B4 & B5 & B6 & B7).
      rewrite B1. cbn [rbind]. exists (4 * (length S - length L2) + 2 * length (vs_cands st') + 1).
      pose proof (boundary_size _ _ _ _ _ _ _ B2). split; [destruct A4 as [-> |A4]; lia|]. exists P2, m2, bd2, L2, 1. split; [split; assumption|]. split; [|auto].
      destruct Led as (Led1 & Led4 & Led5 & Led2 & Led3). split; [intros p Hp; apply B6, Led1, Hp|]. rewrite B7, B4. split; [lia|]. split; [lia|]. split; [lia|left; lia].
    + destruct (fresh_ok h' (vs_tri st) (vs_points st) P m' bd L cands' A2 (g_cnd _ _ _ _ _ A3) (g_rim _ _ _ _ _ A3)) as (sets2 & B1 & B2 & B3).
      rewrite B1. cbn [rbind].
      destruct A6 as [A6|[A6|(-> & c & Ic & Mc)]]; [contradiction| |].
      * exists (4 * (length S - length L) + 2 * length cands' + 1). split; [lia|]. exists P, m', bd, L, 1. split; [split; assumption|]. split; [exact Led|]. auto.
      * exists (4 * (length S - length L) + 2 * length cands' + 0). split.
        { destruct Bg as [(_ & E2)|X]; [|lia]. destruct Rf as [-> |(_ & q & e & X & _)]; [|rewrite E2 in X; destruct X]. destruct A4 as [-> |A4]; lia. }
        exists P, m', bd, L, 0. split; [split; assumption|]. split; [exact Led|]. split; [|reflexivity]. right. split; [reflexivity|].
        destruct (B3 c Ic) as (q & X). rewrite (rise_mouth h' _ _ P m' bd L A2 c (g_rim _ _ _ _ _ A3 c Ic) Mc) in X. exists q, c. cbn [vs_sets vs_heap vs_points]. auto.
  - destruct (negative_ok (vs_tri st) (vs_points st) P bd L (vs_heap st) m Sh (length (nth 0 (vs_sets st) [])) (vs_sets st) (vs_cands st) H (le_n _)) as (s' & A1 & A2).
    rewrite A1. cbn [rbind]. exists P, m, bd, L. split; [split; [exact Sh|exact A2]|exact Led].
Qed.
End Ledger.

(** ** No ear is cut. *)
Lemma next_rim h t pts P m bd L e : shape S h t pts P m bd L -> rim h P bd e -> rim h P bd (right_from_end h e) /\ start h (right_from_end h e) = end_ h e.
Proof.
  intros Sh (Pe & Be). pose proof (s_rep _ _ _ _ _ _ _ _ Sh) as R. unfold right_from_end. change (left_from_start h (opposite e)) with (lfs h (opposite e)).
  destruct (rp_lfs _ _ _ _ R _ (rp_opp _ _ _ _ R _ Pe)) as (P1 & s1 & f1). rewrite start_opposite, end_opposite in *. split; [|exact s1]. split; [exact P1|].
  rewrite s1, f1. apply (k_next _ _ _ (s_car _ _ _ _ _ _ _ _ Sh)), Be.
Qed.
Lemma ear_range h t pts P m bd L e : shape S h t pts P m bd L -> rim h P bd e -> (-3 <= ear_to_increment h e <= -1)%Z.
Proof.
  intros Sh Re. pose proof (s_car _ _ _ _ _ _ _ _ Sh) as K. pose proof (k_laws _ _ _ K) as W. pose proof (proj2 Re) as Be.
  destruct (around S h t pts P m bd L Sh e Re) as (_ & _ & _ & _ & _ & _ & _ & (s & Bs & Es & C1 & C2) & _).
  destruct (next_rim _ _ _ _ _ _ _ _ Sh Re) as (Rn & Sn). destruct (next_rim _ _ _ _ _ _ _ _ Sh Rn) as (Rm & Sm).
  set (n := right_from_end h e) in *. set (o := right_from_end h n) in *. pose proof (proj2 Rn) as Bn. pose proof (proj2 Rm) as Bm.
  assert (Ne : forall a b, bd a b -> a <> b) by (intros a b B E; apply (l_ne _ _ W _ _ (k_bd _ _ _ K _ _ B)); congruence).
  assert (I : forall a b, bd a b -> In a S /\ In b S) by (intros a b B; split; apply (bd_in h t pts P m bd L Sh _ _ B)).
  unfold ear_to_increment. fold n o.
  rewrite (col_no h (start h n) (end_ h n) (end_ h o) n _ eq_refl eq_refl eq_refl); try apply (I _ _ Bn); try apply (I _ _ Bm); try (apply Ne; exact Bn).
  2: { intros E. rewrite Sm, <- E in Bm. apply (k_two _ _ _ K _ _ Bn Bm). }
  2: { rewrite <- Sm. apply Ne, Bm. }
  rewrite (col_no h (start h e) (end_ h e) s e _ eq_refl eq_refl C2); try apply (I _ _ Be); try apply (I _ _ Bs); try (apply Ne; exact Be).
  2: { intros E. apply (Ne _ _ Bs). congruence. }
  2: { intros E. rewrite <- E in Bs. apply (k_two _ _ _ K _ _ Be Bs). }
  destruct (orientation_eqb _ COLLINEAR), (orientation_eqb _ COLLINEAR); cbn [b2z]; lia.
Qed.
Lemma ears_ok h t pts P m bd L : shape S h t pts P m bd L -> forall es (sets : list kset), (forall e, In e es -> rim h P bd e) ->
  length sets = 5 -> (forall k, 3 <= k -> nth k sets [] = []) ->
  exists sets', fold_increments fuel h ear_to_increment MAX_EAR_DECREMENT es sets = Ok sets' /\ length sets' = 5 /\ (forall k, 3 <= k -> nth k sets' [] = []).
Proof.
  intros Sh. induction es as [|e es IH]; intros sets Al Len Hi; cbn [fold_increments]; [exists sets; auto|].
  pose proof (Al e (or_introl eq_refl)) as Re. pose proof (ear_range _ _ _ _ _ _ _ _ Sh Re) as Rg. change MAX_EAR_DECREMENT with 3%Z.
  unfold increments_add, py_index. rewrite Len. rewrite (proj2 (Z.leb_le 0 _)) by lia. rewrite (proj2 (Z.ltb_lt _ (Z.of_nat 5))) by lia.
  set (k := Z.to_nat _). unfold kset_add. destruct (key_ok h t pts P m bd L Sh fuel e (proj1 Re) Hf) as (wt & Hk). rewrite Hk. cbn [rbind].
  set (s' := if existsb _ _ then _ else _). apply IH.
  - intros d Hd. apply Al. right. exact Hd.
  - rewrite set_nth_length. exact Len.
  - intros j Hj. rewrite nth_set_nth by (unfold k; lia). rewrite (proj2 (Nat.eqb_neq j k)) by (unfold k; lia). apply Hi, Hj.
Qed.

(** ** The contour. *)
Lemma same_cycle bd L1 L2 : cycle bd L1 -> cycle bd L2 -> Permutation L1 L2.
Proof.
  intros (N1 & _ & C1) (N2 & _ & C2). apply NoDup_Permutation; [exact N1|exact N2|]. intros a. split; intros Ha; destruct (ces_out _ _ Ha) as (b & Hb).
  - apply C1, C2 in Hb. apply (ces_in _ _ _ Hb).
  - apply C2, C1 in Hb. apply (ces_in _ _ _ Hb).
Qed.
Lemma bent_cycle m bd : carved S m bd -> forall L, cycle bd L -> strict L.
Proof.
  intros K L (N & _ & C) a b c T. pose proof (k_laws _ _ _ K) as W.
  assert (E : contour_edge L a b /\ contour_edge L b c).
  { destruct T as (i & A & B & D). split; [exists i; auto|]. exists (Datatypes.S i mod length L). split; [exact B|].
    replace (Datatypes.S (Datatypes.S i mod length L) mod length L) with (Datatypes.S (Datatypes.S i) mod length L); [exact D|].
    assert (length L <> 0) by (destruct L; [destruct i; discriminate|discriminate]).
    change (Datatypes.S (Datatypes.S i)) with (1 + Datatypes.S i). change (Datatypes.S (Datatypes.S i mod length L)) with (1 + Datatypes.S i mod length L). rewrite Nat.add_mod_idemp_r by assumption. reflexivity. }
  destruct E as (E1 & E2). apply ces_edge, C in E1. apply ces_edge, C in E2.
  pose proof (k_bd _ _ _ K _ _ E1) as M1. pose proof (k_bd _ _ _ K _ _ E2) as M2.
  apply GP; [apply (l_in _ _ W _ _ M1)|apply (l_in _ _ W _ _ M2)|apply (l_in _ _ W _ _ (l_sym _ _ W _ _ M2))| | |].
  - intros ->. apply (l_ne _ _ W _ _ M1). reflexivity.
  - intros ->. apply (k_two _ _ _ K _ _ E1 E2).
  - intros ->. apply (l_ne _ _ W _ _ M2). reflexivity.
Qed.
Lemma sequence_ok h t P m bd es size : let L := List.map (start h) es in
  shape S h t (points_set L) P m bd L -> NoDup es -> (forall e, In e es -> rim h P bd e) -> 6 * length S + 1 < Pos.to_nat fuel ->
  exists vs L', to_vertex_sequence_ fuel h t es size = Ok vs /\ vs = compress_contour L' /\ jordan L' /\ 3 <= length L' /\ (0 < doubled_area L')%Qc /\ incl L' S
    /\ vs = L' /\ incl L L' /\ (Z.of_nat (length L') <= Z.max (Z.of_nat (length L)) size)%Z
    /\ (length L' = length L -> forall a b, contour_edge L' a b <-> contour_edge L a b).
Proof.
  intros L Sh N Al Hf6. unfold to_vertex_sequence_. fold L.
  pose proof (s_car _ _ _ _ _ _ _ _ Sh) as K. pose proof (s_cycle _ _ _ _ _ _ _ _ Sh) as Cy.
  pose proof (cycle_three S m bd K L Cy) as L3. pose proof (cycle_jordan S m bd K L Cy) as J. destruct (compress_jordan L L3 J) as (_ & J2 & _). pose proof (CompressProofs.compress_unchanged L (bent_cycle _ _ K L Cy)) as U.
  assert (Hlt : (lenZ (compress_contour L) <? MIN_CONTOUR_SIZE)%Z = false) by (apply Z.ltb_ge; change MIN_CONTOUR_SIZE with 3%Z; unfold lenZ; lia).
  rewrite Hlt. destruct (fresh_ok h t (points_set L) P m bd L es Sh N Al) as (sets & A1 & A2 & _). rewrite A1. cbn [rbind].
  set (st0 := VState h t (points_set L) sets es _).
  destruct (while_ghost (mleft L bd size) (fun st => exists P m bd1 L1, minv st P m bd1 L1 /\ ledger L bd size st bd1 L1) (mouth_step fuel) fuel st0 (4 * (length S - length L) + 2 * length es + 1) (mouth_step_ok L bd size)) as (st & B1 & B2).
  - exists P, m, bd, L, 1. split; [split; assumption|]. split; [|auto]. split; [apply incl_refl|]. split; [lia|]. split; [intros _ a b; reflexivity|]. unfold st0. cbn [vs_left]. rewrite U. unfold lenZ. split; [lia|right; reflexivity].
  - pose proof (boundary_size _ _ _ _ _ _ _ Sh). assert (E : length es = length L) by (unfold L; rewrite map_length; reflexivity). lia.
  - rewrite B1. cbn [rbind]. destruct B2 as (P1 & m1 & bd1 & L1 & (Sh1 & _) & Led).
    pose proof (s_rep _ _ _ _ _ _ _ _ Sh1) as R1. pose proof (s_car _ _ _ _ _ _ _ _ Sh1) as K1. pose proof (s_left _ _ _ _ _ _ _ _ Sh1) as Lf1.
    destruct (boundary_done S (vs_heap st) P1 m1 bd1 (vs_tri st) fuel R1 K1 Lf1 Hf) as (es1 & H6).
    destruct (boundary_bd _ P1 S m1 bd1 _ _ es1 R1 K1 Lf1 H6) as (_ & Al1 & _).
    assert (Ears : exists ears, (if (vs_left st >? 0)%Z then to_boundary_edges fuel (vs_heap st) (vs_tri st) else Ok []) = Ok ears /\ forall e, In e ears -> rim (vs_heap st) P1 bd1 e).
    { destruct (vs_left st >? 0)%Z; [exists es1; auto|exists []; split; [reflexivity|intros e []]]. }
    destruct Ears as (ears & C1 & C2). rewrite C1. cbn [rbind].
    destruct (ears_ok _ _ _ _ _ _ _ Sh1 ears (repeat [] 5) C2 eq_refl (fun k _ => nth_repeat_nil k 5)) as (esets & D1 & D2 & D3).
    unfold to_ears_increments. change (Z.to_nat (MAX_EAR_INCREMENT + 1 + MAX_EAR_DECREMENT)) with 5. rewrite D1. cbn [rbind].
    set (st1 := VState (vs_heap st) (vs_tri st) (vs_points st) esets ears (vs_left st)).
    assert (Stop : ear_step fuel st1 = Ok (inr st1)).
    { unfold ear_step. destruct (vs_left st1 >? 0)%Z; [|reflexivity]. cbn [st1 vs_sets]. pose proof (D3 3 ltac:(lia)) as E3. pose proof (D3 4 ltac:(lia)) as E4.
      destruct esets as [|s0 [|s1 [|s2 [|s3 [|s4 [|s5 l]]]]]]; try discriminate. cbn [nth] in E3, E4. subst s3 s4. reflexivity. }
    assert (W1 : while_ fuel (ear_step fuel) st1 = Ok st1).
    { destruct (while_ghost (fun k s => s = st1) (fun s => s = st1) (ear_step fuel) fuel st1 0) as (r & X & ->); [|reflexivity|lia|exact X]. intros k s ->. rewrite Stop. reflexivity. }
    rewrite W1. cbn [rbind st1 vs_heap vs_tri]. unfold triangulation_to_border_vertices. rewrite H6. cbn [rbind].
    pose proof (boundary_again _ P1 S m1 bd1 _ _ es1 L1 R1 K1 Lf1 H6 (s_cycle _ _ _ _ _ _ _ _ Sh1)) as Cy2. set (L2 := List.map (start (vs_heap st)) es1) in *.
    exists (compress_contour L2), L2. split; [reflexivity|]. split; [reflexivity|]. split; [apply (cycle_jordan S m1 bd1 K1 L2 Cy2)|]. split; [apply (cycle_three S m1 bd1 K1 L2 Cy2)|].
    split; [apply (cycle_area S m1 bd1 K1 L2 Cy2)|].
    pose proof (same_cycle bd1 L1 L2 (s_cycle _ _ _ _ _ _ _ _ Sh1) Cy2) as P12. destruct Led as (Led1 & Led4 & Led5 & Led2 & Led3).
    split; [|split; [apply CompressProofs.compress_unchanged, (bent_cycle _ _ K1 L2 Cy2)|split; [intros p Hp; apply (Permutation_in _ P12), Led1, Hp|rewrite <- (Permutation_length P12); split; [lia|]; intros E a b; rewrite <- !ces_edge; destruct Cy2 as (_ & _ & Cy2); destruct Cy as (_ & _ & Cy); rewrite <- Cy2, <- Cy; apply Led5, E]]].
    intros p Hp. unfold L2 in Hp. apply in_map_iff in Hp. destruct Hp as (e & <- & He).
    apply (bd_in _ _ _ _ _ _ _ Sh1 _ _ (proj2 (Al1 e He))).
Qed.
End G.

Section T.
Context (ctx : context) (points : list point) (N : NoDup points) (L3 : 3 <= length points) (GP : no_three points).
Context (Coins : is_change (length points) (ctx_coins ctx (length points))).
Context (Fuel : length points * length points + 4 * length points < Pos.to_nat (ctx_fuel ctx)).
Let S := isort point_leb points.
Lemma general_spread : spread points.
Proof.
  clear Coins Fuel.
  intros a b Ia Ib n.
  assert (X : exists c, In c points /\ c <> a /\ c <> b).
  { destruct points as [|x [|y [|z l]]]; cbn [length] in L3; try lia. apply NoDup_cons_iff in N. destruct N as (N1 & N2). apply NoDup_cons_iff in N2. destruct N2 as (N2 & _). cbn [In] in N1, N2.
    destruct (point_eq_dec x a) as [xa|xa]; [|destruct (point_eq_dec x b) as [xb|xb]; [|exists x; cbn [In]; auto]].
    - destruct (point_eq_dec y b) as [yb|yb]; [exists z|exists y]; cbn [In]; (split; [auto|]); split; intros E; subst; intuition congruence.
    - destruct (point_eq_dec y a) as [ya|ya]; [exists z|exists y]; cbn [In]; (split; [auto|]); split; intros E; subst; intuition congruence. }
  destruct X as (c & Ic & n1 & n2). exists c. split; [apply isort_in, Ic|]. apply isort_in in Ia, Ib. apply GP; auto.
Qed.
Lemma hull_cycle t h es ep P m : (forall a b, In a S -> In b S -> phi ep a = phi ep b -> a = b) -> spread points -> rep h P S m -> DT S m -> carved S m (hd S m) ->
  rim h P (hd S m) (left_side t) -> (forall q, In q S -> q <> start h (left_side t) -> (phi ep (start h (left_side t)) < phi ep q)%Qc) ->
  to_boundary_edges (ctx_fuel ctx) h t = Ok es -> cycle (hd S m) (List.map (start h) es).
Proof.
  intros inj NC R T K Rl Hl2 H2. set (bd := hd S m) in *.
  destruct (boundary_bd h P S m bd t _ es R K Rl H2) as (Nes & All & NL & L2 & Il & In1 & Out). set (L := List.map (start h) es) in *.
  split; [exact NL|]. split; [exact L2|]. intros a b. split.
  - intros B. refine (one_cycle S m T NC ep (fun a b => In (a, b) (ces L)) (start h (left_side t)) (end_ h (left_side t)) inj _ _ (Out _ Il) _ a b B).
    + intros x y Hxy. destruct (In1 _ _ Hxy) as (e & He & <- & <-). apply (All e He).
    + intros x y Hxy. destruct (In1 _ _ Hxy) as (e & He & <- & <-). pose proof (proj2 (All e He)) as Be. pose proof (k_next _ _ _ K _ _ Be) as Bn.
      destruct (ces_in _ _ _ Hxy) as (_ & Hy). destruct (ces_out _ _ Hy) as (z & Hz).
      assert (Bz : bd (end_ h e) z) by (destruct (In1 _ _ Hz) as (e' & He' & <- & <-); apply (All e' He')).
      rewrite (k_fun _ _ _ K _ _ _ Bn Bz). exact Hz.
    + intros q Hq. destruct (point_eq_dec q (start h (left_side t))) as [-> |n]; [ql|]. pose proof (Hl2 q Hq n). ql.
  - intros Hab. destruct (In1 _ _ Hab) as (e & He & <- & <-). apply (All e He).
Qed.
(** The contour carved out of points in general position. *)
Lemma hull_kept size : exists vs hull, to_vertex_sequence ctx points size = Ok vs
  /\ convex_ccw hull /\ incl hull points /\ (forall a b, contour_edge hull a b -> forall c, In c points -> c <> a -> c <> b -> left_turn a b c)
  /\ incl hull vs /\ (lenZ vs <= Z.max (lenZ hull) size)%Z /\ (length vs = length hull -> forall a b, contour_edge vs a b <-> contour_edge hull a b).
Proof.
  destruct (delaunay_total ctx points N ltac:(lia) Coins) as (t & h & H1); [lia|].
  pose proof general_spread as NC.
  destruct (hull_state ctx points N (fun _ => Coins) t h NC H1) as (ep & P & m & Fa & inj & R & T & K & Rl & Rr & Hl & Hr). fold S in Fa, inj, R, T, K, Rl, Rr, Hl, Hr.
  pose proof (S_length points) as SL. fold S in SL.
  destruct (boundary_done S h P m _ t (ctx_fuel ctx) R K Rl) as (es & H2); [lia|].
  unfold to_vertex_sequence. rewrite H1. cbn [rbind]. rewrite H2. cbn [rbind].
  pose proof (hull_cycle t h es ep P m inj NC R T K Rl Hl H2) as Cy. destruct (boundary_bd h P S m _ t _ es R K Rl H2) as (Nes & All & _).
  assert (GS : no_three S) by (intros a b c Ia Ib Ic; apply isort_in in Ia, Ib, Ic; apply GP; assumption).
  destruct (sequence_ok S GS (ctx_fuel ctx) ltac:(nia) h t P m (hd S m) es size) as (vs & L' & B1 & _ & B2 & B3 & B4 & B5 & -> & B6 & B7 & B8).
  - split; auto; [|intros u Hu; apply points_set_in, Hu]. apply (triangulation_good ctx points t h). apply QuadSpec.triangulation_delaunay, H1.
  - exact Nes.
  - exact All.
  - nia.
  - set (L := List.map (start h) es) in *. pose proof (k_laws _ _ _ K) as W.
    assert (Lt : forall a b, contour_edge L a b -> forall c, In c points -> c <> a -> c <> b -> left_turn a b c).
    { intros a b E c Ic n1 n2. apply ces_edge, Cy in E. destruct E as (M & A). pose proof (l_in _ _ W _ _ M) as Ia. pose proof (l_in _ _ W _ _ (l_sym _ _ W _ _ M)) as Ib.
      assert (n3 : a <> b) by (intros ->; apply (l_ne _ _ W _ _ M); reflexivity). assert (Ic' : In c S) by (apply isort_in, Ic).
      pose proof (GS a b c Ia Ib Ic' n3 ltac:(auto) ltac:(auto)) as X. specialize (A c Ic'). unfold left_turn. destruct (Qcle_lt_or_eq _ _ A) as [Y|Y]; [exact Y|]. destruct X. symmetry. exact Y. }
    assert (Il : incl L points) by (intros p Hp; destruct (ces_out _ _ Hp) as (q & Hq); apply Cy in Hq; apply (isort_in point_leb points), (l_in _ _ W _ _ (k_bd _ _ _ K _ _ Hq))).
    exists L', L. split; [exact B1|]. split; [|auto]. split; [apply (cycle_three S m _ K L Cy)|]. split; [apply Cy|]. intros a b E c Ic. apply Lt; auto.
Qed.
Lemma to_vertex_sequence_ok size : exists vs, to_vertex_sequence ctx points size = Ok vs
  /\ jordan vs /\ 3 <= length vs /\ strict vs /\ (0 < doubled_area vs)%Qc /\ incl vs points.
Proof.
  destruct (delaunay_total ctx points N ltac:(lia) Coins) as (t & h & H1); [lia|].
  pose proof general_spread as NC.
  destruct (hull_state ctx points N (fun _ => Coins) t h NC H1) as (ep & P & m & Fa & inj & R & T & K & Rl & Rr & Hl & Hr). fold S in Fa, inj, R, T, K, Rl, Rr, Hl, Hr.
  pose proof (S_length points) as SL. fold S in SL.
  destruct (boundary_done S h P m _ t (ctx_fuel ctx) R K Rl) as (es & H2); [lia|].
  unfold to_vertex_sequence. rewrite H1. cbn [rbind]. rewrite H2. cbn [rbind].
  pose proof (hull_cycle t h es ep P m inj NC R T K Rl Hl H2) as Cy. destruct (boundary_bd h P S m _ t _ es R K Rl H2) as (Nes & All & _).
  assert (GS : no_three S) by (intros a b c Ia Ib Ic; apply isort_in in Ia, Ib, Ic; apply GP; assumption).
  destruct (sequence_ok S GS (ctx_fuel ctx) ltac:(nia) h t P m (hd S m) es size) as (vs & L' & B1 & -> & B2 & B3 & B4 & B5 & _).
  - split; auto; [|intros u Hu; apply points_set_in, Hu]. apply (triangulation_good ctx points t h). apply QuadSpec.triangulation_delaunay, H1.
  - exact Nes.
  - exact All.
  - nia.
  - exists (compress_contour L'). split; [exact B1|]. destruct (compress_jordan L' B3 B2) as (J1 & J2 & J3 & _). split; [exact J1|]. split; [exact J2|]. split; [exact J3|].
    split; [rewrite CompressProofs.compress_area; exact B4|]. intros p Hp. apply CompressProofs.compress_incl in Hp. apply B5 in Hp. apply isort_in in Hp. exact Hp.
Qed.
End T.
