(** [to_vertex_sequence] on any points, not only those in general position: as long as only mouths are cut,
    the boundary stays one simple contour, and what is left to carve counts its corners. *)
From Coq Require Import List Lia Permutation.
From Verif Require Import Base Utils Geometry Ctx Spec WindSpec QcTac QcFast GeomProofs ListProofs LoopProofs CycEdge
  QuadEdge Triangulation Factories QuadProofs QuadApiProofs TriProofs CarveProofs MultiProofs
  DelGeo DelCyc DelMap DelFan DelOps DelCand DelMerge DelStart DelHeap DelFind DelHull DelCarve DelFlip DelWind DelBorder DelMouth
  DelRim Jordan DelGreen DelPoly DelTotal DelPolyTotal DelContour SteerSpec SteerProofs CornerProofs.
Import ListNotations.
Open Scope nat_scope.

Section G.
Context (S : list point).

(** ** The sets of candidates. *)
Record kept (h : heap) (P : edge -> Prop) (bd : point -> point -> Prop) (sets : list kset) (cands : list edge) : Prop := Kept {
  w_ent : forall k q e, In (q, e) (nth k sets []) -> rim h P bd e /\ In e cands /\ exists wt, q = (wt, start h e, end_ h e);
  w_nd : forall k, NoDup (List.map snd (nth k sets []));
  w_one : forall i j e, In e (List.map snd (nth i sets [])) -> In e (List.map snd (nth j sets [])) -> i = j;
  w_rim : forall e, In e cands -> rim h P bd e;
  w_cnd : NoDup cands }.

Section K.
Context (h : heap) (t : Triangulation.tri) (pts : list point) (P : edge -> Prop) (m : map) (bd : point -> point -> Prop) (L : list point).
Context (Sh : shape S h t pts P m bd L).
Let R := s_rep _ _ _ _ _ _ _ _ Sh.
Context (sets : list kset) (cands : list edge) (H : kept h P bd sets cands).

Lemma kept_keys k q e1 e2 : In (q, e1) (nth k sets []) -> In (q, e2) (nth k sets []) -> e1 = e2.
Proof.
  intros I1 I2. destruct (w_ent _ _ _ _ _ H _ _ _ I1) as ((P1 & _) & _ & w1 & E1). destruct (w_ent _ _ _ _ _ H _ _ _ I2) as ((P2 & _) & _ & w2 & E2).
  rewrite E1 in E2. injection E2 as _ E2 E3. apply (rp_uniq _ _ _ _ R); assumption.
Qed.
Lemma pop_kept k c s' : kset_popmax (nth k sets []) = Ok (c, s') -> rim h P bd c /\ In c cands /\ kept h P bd (set_nth k s' sets) cands /\ absent (set_nth k s' sets) c.
Proof.
  intros E. assert (Ne : nth k sets [] <> []) by (intros z; rewrite z in E; discriminate).
  destruct (popmax_some _ Ne) as (q & c0 & I & Hp). rewrite E in Hp. injection Hp as <- ->. destruct (w_ent _ _ _ _ _ H _ _ _ I) as (Rc & Ic & _).
  destruct (filter_one _ q c (w_nd _ _ _ _ _ H k) (kept_keys k) I) as (Fl & Fi). set (s' := filter _ _) in *.
  assert (Lk : k < length sets) by (destruct (Nat.lt_ge_cases k (length sets)) as [|G]; [assumption|destruct Ne; apply nth_overflow, G]).
  assert (Nk : forall i, nth i (set_nth k s' sets) [] = if Nat.eqb i k then s' else nth i sets []) by (intros i; apply nth_set_nth, Lk).
  assert (Sub : forall i q e, In (q, e) (nth i (set_nth k s' sets) []) -> In (q, e) (nth i sets []) /\ e <> c).
  { intros i q' e. rewrite Nk. destruct (Nat.eqb_spec i k) as [-> |n]; [apply Fi|]. intros I'. split; [exact I'|]. intros ->. apply n. apply (w_one _ _ _ _ _ H i k c); apply in_snd; eauto. }
  split; [exact Rc|]. split; [exact Ic|]. split.
  - split.
    + intros i q' e I'. apply (w_ent _ _ _ _ _ H i q'), (Sub _ _ _ I').
    + intros i. rewrite Nk. destruct (Nat.eqb i k); [|apply (w_nd _ _ _ _ _ H)]. apply kset_popmax_spec in E; [|apply (w_nd _ _ _ _ _ H)]. apply E.
    + intros i j e Hi Hj. apply in_snd in Hi, Hj. destruct Hi as (q1 & Hi). destruct Hj as (q2 & Hj). apply (w_one _ _ _ _ _ H i j e); apply in_snd; eexists; eapply Sub; eassumption.
    + apply (w_rim _ _ _ _ _ H).
    + apply (w_cnd _ _ _ _ _ H).
  - intros i Hi. apply in_snd in Hi. destruct Hi as (q' & Hi). apply Sub in Hi. apply (proj2 Hi). reflexivity.
Qed.
Lemma add_kept fuel i e sets' : rim h P bd e -> In e cands -> absent sets e -> increments_add fuel h sets i e = Ok sets' ->
  kept h P bd sets' cands /\ forall j q d, In (q, d) (nth j sets' []) -> In (q, d) (nth j sets []) \/ d = e.
Proof.
  intros Re Ic Ab E. unfold increments_add in E. destruct (py_index sets i) as [k|] eqn:Ei; [|discriminate].
  unfold kset_add in E. destruct (edge_key fuel h e) as [q0|] eqn:Ek; cbn [rbind] in E; [|discriminate].
  assert (Hk : exists wt, q0 = (wt, start h e, end_ h e)).
  { unfold edge_key in Ek. destruct (while_ _ _ _) as [wt|]; cbn [rbind] in Ek; [|discriminate]. injection Ek as <-. eauto. }
  injection E as <-. set (s' := if existsb _ _ then _ else _) in *.
  assert (Hs : s' = nth k sets [] \/ s' = (q0, e) :: nth k sets []) by (unfold s'; destruct (existsb _ _); auto). clearbody s'.
  assert (Lk : k < length sets).
  { unfold py_index in Ei. destruct (0 <=? i)%Z eqn:Z1.
    - destruct (i <? Z.of_nat (length sets))%Z eqn:Z2; [|discriminate]. injection Ei as <-. apply Z.leb_le in Z1. apply Z.ltb_lt in Z2. lia.
    - destruct (- Z.of_nat (length sets) <=? i)%Z eqn:Z2; [|discriminate]. injection Ei as <-. apply Z.leb_gt in Z1. apply Z.leb_le in Z2. lia. }
  assert (Nk : forall i, nth i (set_nth k s' sets) [] = if Nat.eqb i k then s' else nth i sets []) by (intros j; apply nth_set_nth, Lk).
  assert (Sub : forall j q d, In (q, d) (nth j (set_nth k s' sets) []) -> In (q, d) (nth j sets []) \/ (j = k /\ d = e /\ q = q0)).
  { intros j q d. rewrite Nk. destruct (Nat.eqb_spec j k) as [-> |n]; [|auto]. destruct Hs as [-> | ->]; [auto|]. intros [X|X]; [injection X as <- <-; auto|auto]. }
  split.
  - split.
    + intros j q d I. destruct (Sub _ _ _ I) as [X|(-> & -> & ->)]; [apply (w_ent _ _ _ _ _ H _ _ _ X)|]. auto.
    + intros j. rewrite Nk. destruct (Nat.eqb j k); [|apply (w_nd _ _ _ _ _ H)]. destruct Hs as [-> | ->]; [apply (w_nd _ _ _ _ _ H)|]. cbn [List.map snd]. constructor; [apply Ab|apply (w_nd _ _ _ _ _ H)].
    + intros a b d Ha Hb. apply in_snd in Ha, Hb. destruct Ha as (q1 & Ha). destruct Hb as (q2 & Hb).
      destruct (Sub _ _ _ Ha) as [X|(Ea & E & _)]; destruct (Sub _ _ _ Hb) as [Y|(Eb & E' & _)].
      * apply (w_one _ _ _ _ _ H a b d); apply in_snd; eauto.
      * subst d. destruct (Ab a). apply in_snd. eauto.
      * subst d. destruct (Ab b). apply in_snd. eauto.
      * congruence.
    + apply (w_rim _ _ _ _ _ H).
    + apply (w_cnd _ _ _ _ _ H).
  - intros j q d I. destruct (Sub _ _ _ I) as [X|(_ & -> & _)]; auto.
Qed.
Lemma kept_moved h' P' bd' cands' : NoDup cands' -> (forall e, In e cands' -> rim h' P' bd' e) ->
  (forall e k, In e (List.map snd (nth k sets [])) -> In e cands -> In e cands' /\ start h' e = start h e /\ end_ h' e = end_ h e) -> kept h' P' bd' sets cands'.
Proof.
  intros N' Rm Mv. split; try apply H; auto.
  intros k q e I. destruct (w_ent _ _ _ _ _ H _ _ _ I) as (Re & Ic & w & E). destruct (Mv e k) as (I' & X1 & X2); [apply in_snd; eauto|exact Ic|].
  split; [apply Rm, I'|]. split; [exact I'|]. exists w. rewrite X1, X2. exact E.
Qed.
Lemma kept_without c : absent sets c -> kept h P bd sets (filter (fun x => negb (edge_eqb x c)) cands).
Proof.
  intros Ab. split; try apply H.
  - intros k q e I. destruct (w_ent _ _ _ _ _ H _ _ _ I) as (Re & Ic & w & E). split; [exact Re|]. split; [|eauto]. apply filter_In. split; [exact Ic|].
    apply negb_true_iff, edge_eqb_neq. intros ->. apply (Ab k), in_snd. eauto.
  - intros e I. apply filter_In in I. apply (w_rim _ _ _ _ _ H), I.
  - apply NoDup_filter, (w_cnd _ _ _ _ _ H).
Qed.
End K.
Context (fuel : positive).
Lemma fold_kept h t pts P m bd L cands (Sh : shape S h t pts P m bd L) : forall es sets sets', kept h P bd sets cands -> NoDup es ->
  (forall e, In e es -> In e cands /\ absent sets e) -> fold_increments fuel h mouth_to_increment MAX_MOUTH_DECREMENT es sets = Ok sets' -> kept h P bd sets' cands.
Proof.
  induction es as [|e es IH]; intros sets sets' H N Al E; cbn [fold_increments] in E; [injection E as <-; exact H|].
  apply NoDup_cons_iff in N. destruct N as (Ne & N). destruct (Al e (or_introl eq_refl)) as (Ie & Ae).
  destruct (increments_add _ _ _ _ _) as [s1|] eqn:E1; cbn [rbind] in E; [|discriminate].
  destruct (add_kept h P bd sets cands H fuel _ e s1 (w_rim _ _ _ _ _ H _ Ie) Ie Ae E1) as (A & B).
  apply (IH s1 sets' A N); [|exact E].
  intros d Hd. destruct (Al d (or_intror Hd)) as (Id & Ad). split; [exact Id|]. intros i Hi. apply in_snd in Hi. destruct Hi as (q & Hi).
  destruct (B _ _ _ Hi) as [X| ->]; [apply (Ad i), in_snd; eauto|contradiction].
Qed.
Lemma fresh_kept h t pts P m bd L cands sets (Sh : shape S h t pts P m bd L) : NoDup cands -> (forall e, In e cands -> rim h P bd e) ->
  to_mouths_increments fuel h cands = Ok sets -> kept h P bd sets cands.
Proof.
  intros N Rm E. unfold to_mouths_increments in E. set (n := Z.to_nat _) in E.
  assert (Z : forall k, nth k (repeat (@nil (key * edge)) n) [] = []) by (intros k; apply nth_repeat_nil).
  apply (fold_kept h t pts P m bd L cands Sh cands (repeat [] n)); auto.
  - split; auto; intros; rewrite ?Z in *; cbn [In List.map] in *; try tauto. constructor.
  - intros e Ie. split; [exact Ie|]. intros i Hi. rewrite Z in Hi. destruct Hi.
Qed.
(** ** The loops over the candidates of one set. *)
Lemma flip_kept h t pts P m bd L sets cands c : shape S h t pts P m bd L -> kept h P bd sets cands -> rim h P bd c -> flippable h pts (left_from_end h c) = true ->
  let h' := flip h (left_from_end h c) in exists m', shape S h' t pts P m' bd L /\ kept h' P bd sets cands /\ rim h' P bd c.
Proof.
  intros Sh H Rc F h'. destruct (flip_shape S h t pts P m bd L Sh c Rc F) as (m' & F1 & F2 & F3 & F4). exists m'. split; [exact F1|]. split; [|apply F3, Rc].
  apply (kept_moved h P bd sets cands H); [apply (w_cnd _ _ _ _ _ H)| |].
  - intros e Ie. apply F3, (w_rim _ _ _ _ _ H), Ie.
  - intros e _ _ Ie. split; [exact Ie|]. apply F3, (w_rim _ _ _ _ _ H), Ie.
Qed.
Lemma target_kept target t pts P bd L : forall n h m sets cands found h' sets' cands',
  shape S h t pts P m bd L -> kept h P bd sets cands -> target_mouths n fuel target h pts sets cands = Ok (found, h', sets', cands') ->
  exists m', shape S h' t pts P m' bd L /\ kept h' P bd sets' cands'
    /\ match found with Some (c, a) => rim h' P bd c /\ In c cands' /\ absent sets' c /\ a = mouth_to_increment h' c /\ a = target | None => True end.
Proof.
  induction n as [|n IH]; intros h m sets cands found h' sets' cands' Sh H E; cbn [target_mouths] in E.
  { injection E as <- <- <- <-. exists m. auto. }
  set (k := Z.to_nat _) in E. destruct (kset_popmax _) as [(c & s')|] eqn:Hp; cbn [rbind] in E; [|discriminate].
  destruct (pop_kept h t pts P m bd L Sh sets cands H k c s' Hp) as (Rc & Ic & H1 & Ab).
  destruct (is_mouth h c pts) as [b|] eqn:Hb; cbn [rbind] in E; [|discriminate].
  destruct (negb b && negb (flippable h pts (left_from_end h c)))%bool eqn:Eb.
  - destruct (remove_ok c cands Ic (w_cnd _ _ _ _ _ H)) as (Hr & _). rewrite Hr in E. cbn [rbind] in E.
    apply (IH h m _ _ _ _ _ _ Sh (kept_without h P bd _ _ H1 c Ab) E).
  - set (h1 := if b then h else flip h (left_from_end h c)) in *.
    assert (X : exists m1, shape S h1 t pts P m1 bd L /\ kept h1 P bd (set_nth k s' sets) cands /\ rim h1 P bd c).
    { unfold h1. destruct b; [exists m; auto|]. cbn [negb andb] in Eb. apply negb_false_iff in Eb. apply (flip_kept h t pts P m bd L); assumption. }
    clearbody h1. destruct X as (m1 & Sh1 & H2 & Rc1).
    destruct (Z.eqb_spec (mouth_to_increment h1 c) target) as [Et|Et].
    + injection E as <- <- <- <-. exists m1. auto 8.
    + destruct (increments_add _ _ _ _ _) as [s2|] eqn:E1; cbn [rbind] in E; [|discriminate].
      destruct (add_kept h1 P bd _ cands H2 fuel _ c s2 Rc1 Ic Ab E1) as (A & _). apply (IH h1 m1 _ _ _ _ _ _ Sh1 A E).
Qed.
Lemma set_nth_twice {A} (v w : A) : forall k l, set_nth k v (set_nth k w l) = set_nth k v l.
Proof. induction k as [|k IH]; intros [|x l]; cbn [set_nth]; auto. rewrite IH. reflexivity. Qed.
Lemma negative_kept t pts P bd L h m : shape S h t pts P m bd L -> forall n sets s cands found s' cands',
  kept h P bd (set_nth 0 s sets) cands -> sets <> [] -> negative_mouths n h pts s cands = Ok (found, s', cands') ->
  match found with
  | None => kept h P bd (set_nth 0 s' sets) cands'
  | Some (c, a, h') => exists m', shape S h' t pts P m' bd L /\ kept h' P bd (set_nth 0 s' sets) cands' /\ rim h' P bd c /\ In c cands' /\ absent (set_nth 0 s' sets) c
      /\ a = mouth_to_increment h' c
  end.
Proof.
  intros Sh. induction n as [|n IH]; intros sets s cands found s' cands' H Ne E; cbn [negative_mouths] in E.
  { injection E as <- <- <-. exact H. }
  destruct (kset_popmax s) as [(c & s1)|] eqn:Hp; cbn [rbind] in E; [|discriminate].
  assert (N0 : nth 0 (set_nth 0 s sets) [] = s) by (destruct sets; [contradiction|reflexivity]).
  rewrite <- N0 in Hp. destruct (pop_kept h t pts P m bd L Sh _ cands H 0 c s1 Hp) as (Rc & Ic & H1 & Ab). rewrite set_nth_twice in H1, Ab.
  destruct (assert_ _) as [[]|]; cbn [rbind] in E; [|discriminate].
  destruct (is_mouth h c pts) as [b|] eqn:Hb; cbn [rbind] in E; [|discriminate]. destruct b.
  - destruct (flippable h pts (left_from_end h c)) eqn:F.
    + injection E as <- <- <-. destruct (flip_kept h t pts P m bd L _ cands c Sh H1 Rc F) as (m' & A & B & C). exists m'. auto 8.
    + destruct (remove_ok c cands Ic (w_cnd _ _ _ _ _ H)) as (Hr & _). rewrite Hr in E. cbn [rbind] in E.
      apply (IH sets _ _ _ _ _ (kept_without h P bd _ _ H1 c Ab) Ne E).
  - apply (IH sets _ _ _ _ _ H1 Ne E).
Qed.
(** ** The corners when a mouth is cut. *)
Lemma cut_corners h t pts P m bd L c L' : shape S h t pts P m bd L -> rim h P bd c -> mouth h pts c ->
  cycle (bd_del bd (start h c) (end_ h c) (end_ h (left_from_start h c))) L' -> corners L' = (corners L + mouth_to_increment h c)%Z.
Proof.
  intros Sh Rc M Cy'. pose proof (s_car _ _ _ _ _ _ _ _ Sh) as K. pose proof (s_cycle _ _ _ _ _ _ _ _ Sh) as Cy. pose proof (proj2 Rc) as Bc.
  destruct (around S h t pts P m bd L Sh c Rc) as (tr & _ & _ & _ & _ & (_ & A1 & A2) & (_ & B1 & B2) & (p & Bp & _ & _ & C2) & (n & Bn & _ & _ & D2)).
  unfold mouth in M. rewrite A2 in *. set (u := start h c) in *. set (w := end_ h c) in *. set (v := mn m u w) in *.
  destruct (vacant_neq _ _ _ _ tr) as (n1 & n2 & n3).
  pose proof Cy as (N & G & C). pose proof (proj1 (C _ _) Bc) as Ic.
  destruct (ces_start _ _ _ Ic ltac:(congruence)) as (l & P1 & P2).
  assert (Nl : NoDup (u :: w :: l)) by (apply (Permutation_NoDup (Permutation_sym P1)), N).
  assert (Cl : cycle bd (u :: w :: l)).
  { split; [exact Nl|]. split; [cbn [length]; lia|]. intros a b. rewrite C. split; apply Permutation_in; [apply Permutation_sym|]; exact P2. }
  pose proof (cycle_three S m bd K _ Cl) as L3. cbn [length] in L3. destruct l as [|n' l1]; [cbn [length] in L3; lia|].
  assert (Hl : n' :: l1 <> []) by discriminate. destruct (exists_last Hl) as (l2 & p' & El).
  assert (En : n' = n).
  { apply (k_fun _ _ _ K w); [|exact Bn]. apply Cl. rewrite ces_cons3. right. left. reflexivity. }
  assert (Ep : p' = p).
  { apply (bd_inj S m bd K p' p u); [|exact Bp]. apply Cl. rewrite El. clear.
    assert (X : Permutation (ces ((l2 ++ [p']) ++ [u; w])) (ces (u :: w :: l2 ++ [p']))) by (apply Permutation_sym, (ces_rot [u; w] (l2 ++ [p']))). 
    apply (Permutation_in _ X). rewrite <- app_assoc. cbn [app]. apply ces_edge. exists (length l2).
    split; [rewrite nth_error_app2, Nat.sub_diag by lia; reflexivity|].
    rewrite app_length. cbn [length]. rewrite Nat.mod_small by lia. rewrite nth_error_app2 by lia. replace (Datatypes.S (length l2) - length l2) with 1 by lia. reflexivity. }
  subst n' p'.
  assert (Nv : ~ In v (u :: w :: n :: l1)) by (intros z; apply M, (s_pts _ _ _ _ _ _ _ _ Sh), (Permutation_in _ P1), z).
  assert (Cl' : cycle (bd_del bd u w v) (u :: v :: w :: n :: l1)).
  { split; [|split; [cbn [length]; lia|]].
    - apply NoDup_cons_iff in Nl. destruct Nl as (X & Y). constructor; [intros [z|z]; [congruence|contradiction]|]. constructor; [|exact Y]. intros z. apply Nv. right. exact z.
    - destruct Cl as (_ & _ & Cl). intros a b. unfold bd_del. rewrite Cl, (ces_cons3 u v w (n :: l1)), (ces_cons2 u w (n :: l1)). cbn [In]. split.
      + intros [([X|X] & Y)|[(X1 & X2)|(X1 & X2)]]; [injection X as X1 X2; destruct Y; split; congruence|auto|left; congruence|right; left; congruence].
      + intros [X|[X|X]]; [injection X as <- <-; auto|injection X as <- <-; auto|]. left. split; [auto|]. intros (-> & ->).
        assert (Nc : NoDup (ces (u :: w :: n :: l1))) by (apply ces_nodup; exact Nl). rewrite ces_cons2 in Nc. apply NoDup_cons_iff in Nc. apply (proj1 Nc), X. }
  rewrite (corners_cycle _ _ _ Cy' Cl'), (corners_cycle _ _ _ Cy Cl).
  apply (mouth_steers h c u w v p n l1 l2 eq_refl eq_refl A1 A2 B1 B2 C2 D2 El).
  intros X. destruct tr as (tr & _). unfold collinear in X. assert (Y : (cross u w v = - cross u v w)%Qc) by (unfold cross; ring). rewrite Y, X in tr. discriminate.
Qed.
Lemma removal_steps h t pts sets cands left c a target st' : remove_mouth fuel (VState h t pts sets cands left) c a target = Ok st' ->
  a = target /\ is_mouth h c pts = Ok true /\ exists cs t' h' cf s2, remove_edge c cands = Ok cs /\ tri_delete h t c = Ok (t', h')
    /\ register_neighbours fuel h' (to_edge_neighbours h c) cs sets = Ok (cf, s2)
    /\ st' = VState h' t' (add_point (end_ h (left_from_start h c)) pts) s2 cf (left - a).
Proof.
  unfold remove_mouth. cbn [vs_heap vs_tri vs_points vs_sets vs_cands vs_left]. generalize (to_edge_neighbours h c) as nb. generalize (end_ h (left_from_start h c)) as x. intros x nb E.
  destruct (Z.eqb_spec a target) as [Et|Et]; cbn [assert_ rbind] in E; [|discriminate]. split; [exact Et|].
  destruct (is_mouth h c pts) as [[]|]; cbn [assert_ rbind] in E; try discriminate. split; [reflexivity|].
  destruct (remove_edge c cands) as [cs|]; cbn [rbind] in E; [|discriminate].
  destruct (tri_delete h t c) as [(t' & h')|]; cbn [rbind] in E; [|discriminate].
  destruct (register_neighbours fuel h' nb cs sets) as [(cf & s2)|] eqn:Er; cbn [rbind] in E; [|discriminate].
  injection E as <-. exists cs, t', h', cf, s2. auto.
Qed.
Lemma register_two h P bd sets cs d1 d2 cf s2 : kept h P bd sets (add_edge d2 (add_edge d1 cs)) -> rim h P bd d1 -> rim h P bd d2 -> d1 <> d2 ->
  In d1 (add_edge d2 (add_edge d1 cs)) -> In d2 (add_edge d2 (add_edge d1 cs)) -> absent sets d1 -> absent sets d2 ->
  register_neighbours fuel h [d1; d2] cs sets = Ok (cf, s2) -> cf = add_edge d2 (add_edge d1 cs) /\ kept h P bd s2 cf.
Proof.
  intros H R1 R2 n12 I1 I2 A1 A2 E. cbn [register_neighbours] in E. revert E. set (i1 := (mouth_to_increment h d1 + _)%Z). set (i2 := (mouth_to_increment h d2 + _)%Z). intros E.
  destruct (increments_add fuel h sets i1 d1) as [s1|] eqn:B1; cbn [rbind] in E; [|discriminate].
  destruct (add_kept h P bd sets _ H fuel _ d1 s1 R1 I1 A1 B1) as (B2 & B3).
  assert (A2' : absent s1 d2).
  { intros i Hi. apply in_snd in Hi. destruct Hi as (q & Hi). destruct (B3 _ _ _ Hi) as [X|X]; [apply (A2 i), in_snd; eauto|congruence]. }
  destruct (increments_add fuel h s1 i2 d2) as [s3|] eqn:C1; cbn [rbind] in E; [|discriminate].
  destruct (add_kept h P bd s1 _ B2 fuel _ d2 s3 R2 I2 A2' C1) as (C2 & _).
  injection E as <- <-. split; [reflexivity|exact C2].
Qed.
Lemma removal_kept h t pts P m bd L sets cands left c a target st' : shape S h t pts P m bd L -> kept h P bd sets cands -> rim h P bd c -> In c cands -> absent sets c ->
  a = mouth_to_increment h c -> remove_mouth fuel (VState h t pts sets cands left) c a target = Ok st' ->
  exists P' m' bd' L', shape S (vs_heap st') (vs_tri st') (vs_points st') P' m' bd' L' /\ kept (vs_heap st') P' bd' (vs_sets st') (vs_cands st')
    /\ a = target /\ vs_left st' = (left - a)%Z /\ corners L' = (corners L + a)%Z /\ length L' = Datatypes.S (length L).
Proof.
  intros Sh H Rc Ic Ab Ea E. destruct (removal_steps _ _ _ _ _ _ _ _ _ _ E) as (Et & Hm & cs & t1 & h1 & cf & s2 & Hr & Hd1 & Hg & ->). clear E.
  cbn [vs_heap vs_tri vs_points vs_sets vs_cands vs_left].
  destruct (is_mouth_ok S h t pts P m bd L c Sh Rc) as (b & Hb & Eb). rewrite Hb in Hm. injection Hm as ->. pose proof (proj1 Eb eq_refl) as Mc.
  destruct (remove_ok c cands Ic (w_cnd _ _ _ _ _ H)) as (Hr' & _). rewrite Hr in Hr'. injection Hr' as Ecs.
  destruct (delete_shape S h t pts P m bd L Sh c Rc Mc) as (t' & P' & m' & bd' & L' & d1 & d2 & Hd & Sh' & (LL & LI & Cd) & Nb & n12 & R1 & R2 & Nr1 & Nr2 & Mv).
  rewrite Hd in Hd1. injection Hd1 as <- <-. rewrite Nb in Hg. set (h' := delete h c) in *. clearbody h'. set (pts' := add_point _ pts) in *.
  pose proof (kept_without h P bd _ _ H c Ab) as H1. rewrite <- Ecs in H1.
  assert (N1 : ~ In d1 cands) by (intros X; apply Nr1, (w_rim _ _ _ _ _ H), X). assert (N2 : ~ In d2 cands) by (intros X; apply Nr2, (w_rim _ _ _ _ _ H), X).
  assert (Sub : forall e, In e cs -> In e cands /\ e <> c) by (intros e Ie; rewrite Ecs in Ie; apply filter_In in Ie; destruct Ie as (Ie & X); apply negb_true_iff, edge_eqb_neq in X; auto).
  assert (E1 : add_edge d1 cs = cs ++ [d1]).
  { unfold add_edge. destruct (mem_edge d1 cs) eqn:X; [|reflexivity]. apply existsb_exists in X. destruct X as (e & Ie & X). apply edge_eqb_eq in X. subst e. destruct N1. apply Sub, Ie. }
  assert (E2 : add_edge d2 (cs ++ [d1]) = cs ++ [d1] ++ [d2]).
  { unfold add_edge. destruct (mem_edge d2 (cs ++ [d1])) eqn:X; [|rewrite <- app_assoc; reflexivity]. apply existsb_exists in X. destruct X as (e & Ie & X). apply edge_eqb_eq in X. subst e.
    apply in_app_or in Ie. destruct Ie as [Ie|[Ie|[]]]; [destruct N2; apply Sub, Ie|congruence]. }
  assert (Ncs : NoDup cs) by (rewrite Ecs; apply NoDup_filter, (w_cnd _ _ _ _ _ H)).
  assert (Nf : NoDup (cs ++ [d1] ++ [d2])).
  { cbn [app]. apply (Permutation_NoDup (l := d1 :: d2 :: cs)); [apply (Permutation_app_comm [d1; d2] cs)|].
    constructor; [intros [X|X]; [congruence|apply N1, Sub, X]|]. constructor; [intros X; apply N2, Sub, X|]. exact Ncs. }
  assert (H2 : kept h' P' bd' sets (cs ++ [d1] ++ [d2])).
  { apply (kept_moved h P bd sets cs H1 h' P' bd' (cs ++ [d1] ++ [d2])); [exact Nf| |].
    - intros e Ie. apply in_app_or in Ie. destruct Ie as [Ie|[<- |[<- |[]]]]; [|exact R1|exact R2]. destruct (Sub e Ie) as (X & Y). apply Mv; [apply (w_rim _ _ _ _ _ H), X|exact Y].
    - intros e _ _ Ie. split; [apply in_or_app; left; exact Ie|]. destruct (Sub e Ie) as (X & Y). apply Mv; [apply (w_rim _ _ _ _ _ H), X|exact Y]. }
  assert (A1 : absent sets d1) by (intros i Hi; apply in_snd in Hi; destruct Hi as (q & Hi); apply N1, (w_ent _ _ _ _ _ H _ _ _ Hi)).
  assert (A2 : absent sets d2) by (intros i Hi; apply in_snd in Hi; destruct Hi as (q & Hi); apply N2, (w_ent _ _ _ _ _ H _ _ _ Hi)).
  assert (Ef : add_edge d2 (add_edge d1 cs) = cs ++ [d1] ++ [d2]) by (rewrite E1; exact E2).
  assert (I1 : In d1 (cs ++ [d1] ++ [d2])) by (apply in_or_app; right; left; reflexivity). assert (I2 : In d2 (cs ++ [d1] ++ [d2])) by (apply in_or_app; right; right; left; reflexivity).
  rewrite <- Ef in H2, I1, I2. destruct (register_two h' P' bd' sets cs d1 d2 cf s2 H2 R1 R2 n12 I1 I2 A1 A2 Hg) as (_ & Hf2).
  exists P', m', bd', L'. split; [exact Sh'|]. split; [exact Hf2|]. split; [exact Et|]. split; [reflexivity|].
  split; [|exact LL]. rewrite Ea. apply (cut_corners h t pts P m bd L c L' Sh Rc Mc Cd).
Qed.
(** ** The mouth loop. *)
Definition loose (asked : Z) (st : vstate) : Prop := exists P m bd L,
  shape S (vs_heap st) (vs_tri st) (vs_points st) P m bd L /\ kept (vs_heap st) P bd (vs_sets st) (vs_cands st)
  /\ (vs_left st + corners L = asked)%Z.
Lemma best_least l : forall sets i b, match best_increment sets i l b with Some g => (i <= g <= l)%Z \/ b = Some g | None => True end.
Proof.
  induction sets as [|s sets IH]; intros i b; cbn [best_increment]; [destruct b; auto|].
  specialize (IH (i + 1)%Z (if (match s with [] => false | _ => true end && (i <=? l)%Z)%bool then Some i else b)).
  destruct (best_increment _ _ _ _) as [g|]; [|exact I]. destruct IH as [IH|IH]; [left; lia|].
  destruct (_ && _)%bool eqn:E; [|auto]. injection IH as ->. apply andb_true_iff in E. destruct E as (_ & E). apply Z.leb_le in E. left. lia.
Qed.
Definition sound (asked : Z) (st0 : Z) (st : vstate) : Prop := loose asked st /\ ((0 <= vs_left st)%Z \/ vs_left st = st0) /\ (vs_left st <= st0)%Z.
Lemma step_sound asked l0 st : sound asked l0 st -> match mouth_step fuel st with
  | Ok (inl st') => sound asked l0 st'
  | Ok (inr st') => sound asked l0 st'
  | Raise _ => True end.
Proof.
  intros ((P & m & bd & L & Sh & H & Led) & Lo). unfold mouth_step. destruct (vs_left st >? 0)%Z eqn:El; [|split; [exists P, m, bd, L; auto|exact Lo]].
  apply Z.gtb_lt in El.
  pose proof (best_least (vs_left st) (skipn (Z.to_nat MAX_MOUTH_DECREMENT) (vs_sets st)) 0 None) as Bl.
  destruct (best_increment _ 0 (vs_left st) None) as [g|].
  - destruct Bl as [Bl|Bl]; [|discriminate].
    destruct (target_mouths _ _ _ _ _ _ _) as [(((found & h') & sets') & cands')|] eqn:E; cbn [rbind]; [|exact I].
    destruct (target_kept g _ _ P bd L _ _ m _ _ _ _ _ _ Sh H E) as (m' & Sh' & H' & F).
    destruct found as [(c & a)|].
    + destruct F as (Rc & Ic & Ab & Ea & Et). destruct (remove_mouth _ _ _ _ _) as [st'|] eqn:Er; cbn [rbind]; [|exact I].
      destruct (removal_kept h' _ _ P m' bd L sets' cands' _ c a g st' Sh' H' Rc Ic Ab Ea Er) as (P2 & m2 & bd2 & L2 & A1 & A2 & A3 & A4 & A5).
      split; [exists P2, m2, bd2, L2; split; [exact A1|]; split; [exact A2|]; lia|]. split; [left|]; lia.
    + destruct (to_mouths_increments _ _ _) as [s2|] eqn:Em; cbn [rbind]; [|exact I]. split; [|exact Lo].
      exists P, m', bd, L. cbn [vs_heap vs_tri vs_points vs_sets vs_cands vs_left]. split; [exact Sh'|]. split; [|exact Led].
      apply (fresh_kept h' _ _ P m' bd L cands' s2 Sh' (w_cnd _ _ _ _ _ H') (w_rim _ _ _ _ _ H') Em).
  - destruct (negative_mouths _ _ _ _ _) as [((found & s') & cands')|] eqn:E; cbn [rbind]; [|exact I].
    assert (X : match found with
      | None => kept (vs_heap st) P bd (set_nth 0 s' (vs_sets st)) cands'
      | Some (c, a, h') => exists m', shape S h' (vs_tri st) (vs_points st) P m' bd L /\ kept h' P bd (set_nth 0 s' (vs_sets st)) cands' /\ rim h' P bd c /\ In c cands'
          /\ absent (set_nth 0 s' (vs_sets st)) c /\ a = mouth_to_increment h' c end).
    { destruct (vs_sets st) as [|s0 sets] eqn:Es.
      - cbn [nth length negative_mouths] in E. injection E as <- <- <-. exact H.
      - apply (negative_kept (vs_tri st) (vs_points st) P bd L _ m Sh _ (s0 :: sets) _ _ _ _ _ H ltac:(discriminate) E). }
    destruct found as [((c & a) & h')|].
    + destruct X as (m' & Sh' & H' & Rc & Ic & Ab & Ea). destruct (remove_mouth _ _ _ _ _) as [st'|] eqn:Er; cbn [rbind]; [|exact I].
      destruct (removal_kept h' _ _ P m' bd L _ cands' _ c a 1 st' Sh' H' Rc Ic Ab Ea Er) as (P2 & m2 & bd2 & L2 & A1 & A2 & A3 & A4 & A5).
      split; [exists P2, m2, bd2, L2; split; [exact A1|]; split; [exact A2|]; lia|]. split; [left|]; lia.
    + split; [|exact Lo]. exists P, m, bd, L. auto.
Qed.
Lemma loop_sound asked l0 st st' : sound asked l0 st -> while_ fuel (mouth_step fuel) st = Ok st' -> sound asked l0 st'.
Proof. intros H E. apply (while_ok (sound asked l0) (sound asked l0) _ _ _ _ (step_sound asked l0) H E). Qed.
End G.
