(** The steps of a convex contour with a given number of vertices. *)
From Coq Require Import List Lia Permutation Sorted Znumtheory.
From Verif Require Import Base Prog Geometry Ctx Utils Contracts Spec Factories Strategies StarSpec QcTac QcFast ProgProofs PrimeProofs GeomProofs ListProofs GridProofs
  ConvexProofs SequenceProofs ValtrProofs GeneralCoordinates FanCount SizeProofs.
Import List ListNotations.
Open Scope Qc_scope.

(** ** A walk with increasing slopes is in the order of angles. *)
Lemma sorted_app {A} (R : A -> A -> Prop) u v : StronglySorted R u -> StronglySorted R v -> (forall a b, In a u -> In b v -> R a b) -> StronglySorted R (u ++ v).
Proof.
  induction 1 as [|x u S IH F]; intros Sv H; [exact Sv|]. cbn [app]. constructor.
  - apply IH; [exact Sv|]. intros a b Ha Hb. apply H; [right; exact Ha|exact Hb].
  - apply Forall_app. split; [exact F|]. apply Forall_forall. intros b Hb. apply H; [left; reflexivity|exact Hb].
Qed.
Lemma sorted_weak {A} (R S : A -> A -> Prop) l : (forall a b, In a l -> In b l -> R a b -> S a b) -> StronglySorted R l -> StronglySorted S l.
Proof. intros H K. rewrite <- (map_id l). eapply sorted_map; [|exact K]. exact H. Qed.
Definition not_steeper (v w : Qc * Qc) : Prop := snd v * fst w <= snd w * fst v.
Lemma fans_sorted gs : fans gs -> StronglySorted not_steeper (steps_of gs) /\ forall w, In w (steps_of gs) -> 0 < fst w.
Proof.
  intros (S & H). split.
  - induction S as [|g gs S IH F]; [constructor|]. change (steps_of (g :: gs)) with (snd g ++ steps_of gs).
    destruct (H g (or_introl eq_refl)) as (_ & Hg). apply sorted_app; [|apply IH; intros k Hk; apply H; right; exact Hk|].
    + clear - Hg. induction (snd g) as [|w G IH]; [constructor|]. constructor; [apply IH; intros k Hk; apply Hg; right; exact Hk|].
      apply Forall_forall. intros k Hk. destruct (Hg w (or_introl eq_refl)) as (P & Q). destruct (Hg k (or_intror Hk)) as (P' & Q').
      unfold not_steeper. rewrite Q, Q'. replace (fst g * fst k * fst w) with (fst g * fst w * fst k) by ring. apply Qcle_refl.
    + intros a b Ha Hb. apply in_concat in Hb. destruct Hb as (G & HG & Hb). apply in_map_iff in HG. destruct HG as (k & <- & Hk).
      destruct (Hg a Ha) as (P & Q). destruct (H k (or_intror Hk)) as (_ & Hk'). destruct (Hk' b Hb) as (P' & Q').
      rewrite Forall_forall in F. specialize (F k Hk). unfold not_steeper. rewrite Q, Q'. clear - P P' F.
      set (x := fst a) in *. set (y := fst b) in *. set (s := fst g) in *. set (t := fst k) in *. clearbody x y s t.
      assert (Z : 0 < x * y) by (clear - P P'; qcn). apply Qcnot_lt_le. intros K.
      assert (K' : (t - s) * (x * y) < 0) by (replace ((t - s) * (x * y)) with (t * y * x - s * x * y) by ring; clear - K; qcl).
      set (z := x * y) in *. clearbody z. clear - Z F K'. qcn.
  - intros w Hw. apply in_concat in Hw. destruct Hw as (G & HG & Hw). apply in_map_iff in HG. destruct HG as (k & <- & Hk). apply (H k Hk), Hw.
Qed.
Lemma walk_in_order gs X : fans gs -> X < 0 ->
  StronglySorted (fun v w => ~ smaller_direction (fst w) (snd w) (fst v) (snd v)) (steps_of gs ++ [(X, 0)]) /\ StronglySorted turned (steps_of gs ++ [(X, 0)]).
Proof.
  intros Hf HX. destruct (fans_sorted gs Hf) as (S & P). split; apply sorted_app.
  - eapply sorted_weak; [|exact S]. intros (x, y) (x', y') Ia Ib. apply P in Ia, Ib. unfold not_steeper, smaller_direction. cbn [fst snd] in *. intros K D.
    destruct D as [(D1 & D2)|[(D1 & D2 & D3)|(D1 & D2 & [D3|(D3 & D4 & D5)])]].
    + clear - Ia Ib K D1 D2. assert (y' * x < 0) by (clear - Ia D1; qcn). assert (0 <= y * x') by (clear - Ib D2; qcn). qcl.
    + clear - K D3. ql.
    + clear - K D3. ql.
    + subst y'. destruct D5 as [D5|D5]; [|clear - Ia D5; qcl]. clear - Ib Ia K D5. assert (0 < y * x') by (clear - Ib D5; qcn).
      replace (0 * x) with (Q2Qc 0) in K by ring. qcl.
  - repeat constructor.
  - intros (x, y) w Ia [<-|[]]. apply P in Ia. unfold smaller_direction. cbn [fst snd] in *. intros D.
    destruct D as [(D1 & D2)|[(D1 & D2 & D3)|(D1 & D2 & [D3|(D3 & D4 & D5)])]]; [revert D1; apply Qlt_irrefl|revert D1; apply Qlt_irrefl| |].
    + clear - Ia HX D2 D3. assert (0 <= - X * y) by (clear - HX D2; qcn). replace (- X * y) with (- (X * y)) in H by ring. replace (x * 0) with (Q2Qc 0) in D3 by ring. qcl.
    + clear - HX D4. qcl.
  - eapply sorted_weak; [|exact S]. intros (x, y) (x', y') Ia Ib. apply P in Ia, Ib. unfold not_steeper, turned. cbn [fst snd] in *. intros K.
    split; [|split; intros; exfalso].
    + intros (A & B). clear - Ia Ib K A B. assert (0 < y * x') by (clear - Ib A; qcn). assert (y' * x < 0) by (clear - Ia B; qcn). qcl.
    + clear - Ib H0. qcl.
    + clear - Ia H. qcl.
  - repeat constructor.
  - intros (x, y) w Ia [<-|[]]. apply P in Ia. unfold turned. cbn [fst snd] in *. split; [intros (_ & B); revert B; apply Qlt_irrefl|].
    split; [intros _ _; apply Qcle_refl|]. intros A. exfalso. clear - Ia A. qcl.
Qed.
Lemma walk_places W z : forall s t xy, In xy (combine (befores s (map fst (W ++ [z]))) (befores t (map snd (W ++ [z])))) <->
  exists u v, W = u ++ v /\ xy = (s + qsum (map fst u), t + qsum (map snd u)).
Proof.
  induction W as [|w W IH]; intros s t xy; cbn [app map befores combine In].
  - split.
    + intros [<-|[]]. exists [], []. split; [reflexivity|]. cbn [map qsum]. f_equal; ring.
    + intros (u & v & E & ->). destruct u; [|discriminate]. left. cbn [map qsum]. f_equal; ring.
  - rewrite IH. split.
    + intros [<-|(u & v & -> & ->)].
      * exists [], (w :: W). split; [reflexivity|]. cbn [map qsum]. f_equal; ring.
      * exists (w :: u), v. split; [reflexivity|]. cbn [map qsum]. f_equal; ring.
    + intros (u & v & E & ->). destruct u as [|w' u].
      * left. cbn [map qsum]. f_equal; ring.
      * right. cbn [app] in E. injection E as -> ->. exists u, v. split; [reflexivity|]. cbn [map qsum]. f_equal; ring.
Qed.

(** ** Slopes 1, 1/2, ..., 1/k. *)
Definition q_of_nat (k : nat) : Qc := Qc_of_Z (Z.of_nat k).
Fixpoint fan (d k : nat) (a : list Qc) : list (Qc * list (Qc * Qc)) :=
  match d, a with
  | O, _ => [(/ q_of_nat k, map (fun x => (x * q_of_nat k, x)) a)]
  | S d, x :: a => (/ q_of_nat k, [(x * q_of_nat k, x)]) :: fan d (S k) a
  | S d, [] => []
  end.
Lemma q_of_nat_pos k : (0 < k)%nat -> 0 < q_of_nat k.
Proof. intros H. unfold q_of_nat, Qc_of_Z, Qclt. rewrite !Qred_correct || idtac. cbn [this Q2Qc]. rewrite !Qred_correct. unfold inject_Z, Qlt. cbn. lia. Qed.
Lemma q_of_nat_lt k j : (k < j)%nat -> q_of_nat k < q_of_nat j.
Proof. intros H. unfold q_of_nat, Qc_of_Z, Qclt. cbn [this Q2Qc]. rewrite !Qred_correct. unfold inject_Z, Qlt. cbn. lia. Qed.
Lemma inv_pos (x : Qc) : 0 < x -> 0 < / x.
Proof.
  intros H. assert (N : x <> 0) by (intros ->; revert H; apply Qlt_irrefl). assert (E : x * / x = 1) by (field; exact N).
  set (y := / x) in *. clearbody y. apply Qcnot_le_lt. intros K. clear N. assert (H0 : x * y <= 0) by (clear - H K; qcn). rewrite E in H0. apply H0. reflexivity.
Qed.
Lemma inv_lt (x y : Qc) : 0 < x -> x < y -> / y < / x.
Proof.
  intros H L. assert (Hy : 0 < y) by (clear - H L; qcl). pose proof (inv_pos x H) as Px. pose proof (inv_pos y Hy) as Py.
  assert (Nx : x <> 0) by (intros ->; revert H; apply Qlt_irrefl). assert (Ny : y <> 0) by (intros ->; revert Hy; apply Qlt_irrefl).
  assert (E : / x - / y = (y - x) * (/ x * / y)) by (field; split; assumption).
  assert (P : 0 < (y - x) * (/ x * / y)).
  { set (u := / x) in *. set (v := / y) in *. clearbody u v. assert (0 < u * v) by (clear - Px Py; qcn). set (z := u * v) in *. clearbody z. clear - L H0. qcn. }
  rewrite <- E in P. clear - P. generalize dependent (/ x). generalize (/ y). intros u v P. qcl.
Qed.
Lemma fan_spec d : forall k a, (d < length a)%nat -> (0 < k)%nat -> (forall x, In x a -> 0 < x) ->
  length (fan d k a) = S d /\ map snd (steps_of (fan d k a)) = a /\ StronglySorted (fun g h => fst h < fst g) (fan d k a) /\
  forall g, In g (fan d k a) -> 0 < fst g /\ fst g <= / q_of_nat k /\ snd g <> [] /\
    forall w, In w (snd g) -> 0 < fst w /\ snd w = fst g * fst w /\ exists j, In (snd w) a /\ (j <= k + d)%nat /\ fst w = snd w * q_of_nat j.
Proof.
  induction d as [|d IH]; intros k a L K P; cbn [fan].
  - assert (Q : q_of_nat k <> 0) by (intros E; pose proof (q_of_nat_pos k K) as G; rewrite E in G; revert G; apply Qlt_irrefl).
    split; [reflexivity|]. split; [unfold steps_of; cbn [map concat snd]; rewrite app_nil_r, map_map; apply map_id|]. split; [repeat constructor|].
    intros g [<-|[]]. cbn [fst snd]. split; [apply inv_pos, q_of_nat_pos, K|]. split; [apply Qcle_refl|].
    split; [destruct a; [cbn in L; lia|discriminate]|]. intros w Hw. apply in_map_iff in Hw. destruct Hw as (x & <- & Hx). cbn [fst snd].
    split; [pose proof (P x Hx) as Px; pose proof (q_of_nat_pos k K) as Pk; clear - Px Pk; set (q := q_of_nat k) in *; clearbody q; qcn|].
    split; [field; exact Q|]. exists k. split; [exact Hx|]. split; [lia|reflexivity].
  - destruct a as [|x a]; [cbn in L; lia|]. cbn [length] in L.
    destruct (IH (S k) a ltac:(lia) ltac:(lia) (fun y Hy => P y (or_intror Hy))) as (I1 & I2 & I3 & I4).
    assert (Q : q_of_nat k <> 0) by (intros E; pose proof (q_of_nat_pos k K) as G; rewrite E in G; revert G; apply Qlt_irrefl).
    assert (D : / q_of_nat (S k) < / q_of_nat k) by (apply inv_lt; [apply q_of_nat_pos, K|apply q_of_nat_lt; lia]).
    split; [cbn [length]; rewrite I1; reflexivity|]. split; [unfold steps_of in *; cbn [map concat snd app]; rewrite I2; reflexivity|]. split.
    + constructor; [exact I3|]. apply Forall_forall. intros g Hg. cbn [fst]. destruct (I4 g Hg) as (_ & B & _). eapply Qcle_lt_trans; [exact B|exact D].
    + intros g [<-|Hg].
      * cbn [fst snd]. split; [apply inv_pos, q_of_nat_pos, K|]. split; [apply Qcle_refl|]. split; [discriminate|]. intros w [<-|[]]. cbn [fst snd].
        split; [pose proof (P x (or_introl eq_refl)) as Px; pose proof (q_of_nat_pos k K) as Pk; clear - Px Pk; set (q := q_of_nat k) in *; clearbody q; qcn|].
        split; [field; exact Q|]. exists k. split; [left; reflexivity|]. split; [lia|reflexivity].
      * destruct (I4 g Hg) as (A & B & C & E). split; [exact A|]. split; [eapply Qcle_trans; [exact B|apply Qclt_le_weak, D]|]. split; [exact C|].
        intros w Hw. destruct (E w Hw) as (E1 & E2 & j & E3 & E5 & E4). split; [exact E1|]. split; [exact E2|]. exists j. split; [right; exact E3|]. split; [lia|exact E4].
Qed.
Definition flip (g : Qc * list (Qc * Qc)) : Qc * list (Qc * Qc) := (- fst g, map (fun w : Qc * Qc => (fst w, - snd w)) (snd g)).
Definition valley (d1 d2 : nat) (a : list Qc) : list (Qc * list (Qc * Qc)) := map flip (fan d1 1 a) ++ rev (fan d2 1 a).
Lemma valley_spec d1 d2 a : (d1 < length a)%nat -> (d2 < length a)%nat -> (forall x, In x a -> 0 < x) ->
  fans (valley d1 d2 a) /\ length (valley d1 d2 a) = (S d1 + S d2)%nat /\
  Permutation (map snd (steps_of (valley d1 d2 a))) (map Qcopp a ++ a) /\ length (steps_of (valley d1 d2 a)) = (length a + length a)%nat /\
  (forall w, In w (steps_of (valley d1 d2 a)) -> exists x j, In x a /\ (j <= length a)%nat /\ fst w = x * q_of_nat j /\ (snd w = x \/ snd w = - x)).
Proof.
  intros L1 L2 P. destruct (fan_spec d1 1 a L1 ltac:(lia) P) as (A1 & A2 & A3 & A4). destruct (fan_spec d2 1 a L2 ltac:(lia) P) as (B1 & B2 & B3 & B4).
  set (f1 := fan d1 1 a) in *. set (f2 := fan d2 1 a) in *. unfold valley. fold f1 f2. clearbody f1 f2.
  assert (St : map snd (steps_of (map flip f1)) = map Qcopp a).
  { rewrite <- A2. clear. unfold steps_of. rewrite !concat_map, !map_map. f_equal. apply map_ext. intros g. unfold flip. cbn [snd]. rewrite !map_map. reflexivity. }
  assert (Pr : Permutation (steps_of (rev f2)) (steps_of f2)).
  { unfold steps_of. rewrite map_rev. clear. induction (map snd f2) as [|x k IH]; [reflexivity|]. cbn [rev concat]. rewrite concat_app. cbn [concat]. rewrite app_nil_r.
    rewrite Permutation_app_comm. apply Permutation_app_head, IH. }
  assert (Pm : Permutation (map snd (steps_of (map flip f1 ++ rev f2))) (map Qcopp a ++ a)).
  { rewrite steps_app, map_app, St. apply Permutation_app_head. rewrite <- B2. apply Permutation_map, Pr. }
  split; [|split; [|split; [exact Pm|split]]].
  - split.
    + apply sorted_app.
      * eapply sorted_map; [|exact A3]. intros g k _ _ H. unfold flip. cbn [fst]. cbn beta in H. revert H. generalize (fst g). generalize (fst k). clear. intros x y H. ql.
      * assert (G : forall l : list (Qc * list (Qc * Qc)), StronglySorted (fun g k => fst k < fst g) l -> StronglySorted (fun g k => fst g < fst k) (rev l)).
        { clear. induction 1 as [|x l S IH F]; [constructor|]. cbn [rev]. apply sorted_app; [exact IH|repeat constructor|].
          intros g k Hg [<-|[]]. rewrite Forall_forall in F. apply F. apply in_rev, Hg. }
        apply G, B3.
      * intros g k Hg Hk. apply in_map_iff in Hg. destruct Hg as (g' & <- & Hg). apply in_rev in Hk. unfold flip. cbn [fst].
        pose proof (proj1 (A4 g' Hg)) as Q1. pose proof (proj1 (B4 k Hk)) as Q2. qcl.
    + intros g Hg. apply in_app_or in Hg. destruct Hg as [Hg|Hg].
      * apply in_map_iff in Hg. destruct Hg as (g' & <- & Hg). destruct (A4 g' Hg) as (_ & _ & C & E). unfold flip. cbn [fst snd].
        split; [destruct (snd g'); [contradiction|discriminate]|]. intros w Hw. apply in_map_iff in Hw. destruct Hw as (w' & <- & Hw). cbn [fst snd].
        destruct (E w' Hw) as (E1 & E2 & _). split; [exact E1|]. rewrite E2. ring.
      * apply in_rev in Hg. destruct (B4 g Hg) as (_ & _ & C & E). split; [exact C|]. intros w Hw. destruct (E w Hw) as (E1 & E2 & _). auto.
  - rewrite app_length, map_length, rev_length. lia.
  - apply Permutation_length in Pm. rewrite app_length, !map_length in Pm. exact Pm.
  - intros w Hw. rewrite steps_app in Hw. apply in_app_or in Hw. destruct Hw as [Hw|Hw].
    + apply in_concat in Hw. destruct Hw as (G & HG & Hw). rewrite map_map in HG. apply in_map_iff in HG. destruct HG as (g & <- & Hg). unfold flip in Hw. cbn [snd] in Hw.
      apply in_map_iff in Hw. destruct Hw as (w' & <- & Hw). cbn [fst snd].
      destruct (A4 g Hg) as (_ & _ & _ & E). destruct (E w' Hw) as (_ & _ & j & E1 & E2 & E3). exists (snd w'), j. split; [exact E1|]. split; [lia|]. split; [exact E3|right; reflexivity].
    + apply (Permutation_in _ Pr) in Hw. apply in_concat in Hw. destruct Hw as (G & HG & Hw). apply in_map_iff in HG. destruct HG as (g & <- & Hg).
      destruct (B4 g Hg) as (_ & _ & _ & E). destruct (E w Hw) as (_ & _ & j & E1 & E2 & E3). exists (snd w), j. split; [exact E1|]. split; [lia|]. split; [exact E3|left; reflexivity].
Qed.
