(** The monotone chain keeps exactly the points on the boundary of the convex hull. *)
From Verif Require Import Base Geometry Ctx Spec HullSpec QcTac ProgProofs GeomProofs ListProofs CyclicProofs SegmentProofs Factories.
From Coq Require Import Lqa Sorting.Sorted Sorting.Permutation.

(** Cross product of [a b] and [c d]. *)
Definition cross2 (a b c d : point) : Qc :=
  ((px b - px a) * (py d - py c) - (py b - py a) * (px d - px c))%Qc.
Lemma cross2_trans_lt a b c d e f : plt a b -> plt c d -> plt e f ->
  (0 <= cross2 a b c d)%Qc -> (0 <= cross2 c d e f)%Qc -> (0 <= cross2 a b e f)%Qc.
Proof.
  destruct a as [ax ay], b as [bx by_], c as [cx cy], d as [dx dy], e as [ex ey], f as [fx fy].
  unfold plt, cross2. cbn [px py]. intros H1 H2 H3.
  set (x1 := (bx - ax)%Qc). set (y1 := (by_ - ay)%Qc). set (x2 := (dx - cx)%Qc). set (y2 := (dy - cy)%Qc).
  set (x3 := (fx - ex)%Qc). set (y3 := (fy - ey)%Qc). intros H4 H5.
  assert (G1 : (0 < x1 \/ x1 = 0 /\ 0 < y1)%Qc) by (subst x1 y1; destruct H1 as [H|(H & H')]; [left; qcl|right; split; qcl]).
  assert (G2 : (0 < x2 \/ x2 = 0 /\ 0 < y2)%Qc) by (subst x2 y2; destruct H2 as [H|(H & H')]; [left; qcl|right; split; qcl]).
  assert (G3 : (0 < x3 \/ x3 = 0 /\ 0 < y3)%Qc) by (subst x3 y3; destruct H3 as [H|(H & H')]; [left; qcl|right; split; qcl]).
  clearbody x1 y1 x2 y2 x3 y3. clear H1 H2 H3.
  assert (K : (x2 * (x1 * y3 - y1 * x3) = x1 * (x2 * y3 - y2 * x3) + x3 * (x1 * y2 - y1 * x2))%Qc) by ring.
  destruct G2 as [G2|(-> & G2)].
  - set (z := (x1 * y3 - y1 * x3)%Qc) in *. set (u := (x1 * y2 - y1 * x2)%Qc) in *. set (v := (x2 * y3 - y2 * x3)%Qc) in *.
    assert (P1 : (0 <= x1)%Qc) by (destruct G1 as [G|(G & _)]; qcl).
    assert (P3 : (0 <= x3)%Qc) by (destruct G3 as [G|(G & _)]; qcl).
    clearbody z u v. clear G1 G3. apply Qcnot_lt_le. intros Hz. qcn.
  - assert (x3 = 0)%Qc as -> by (destruct G3 as [G|(G & _)]; [exfalso; clear G1 K H4; qcn|exact G]).
    destruct G3 as [G|(_ & G)]; [exfalso; qcl|]. clear K H5. destruct G1 as [G1|(-> & G1)]; [clear H4; qcn|qcl].
Qed.

(** Order of the points of a chain, read in one of the two directions. *)
Section Chain.
  Context (R : point -> point -> Prop) (Rirr : forall p, ~ R p p) (Rtr : forall p q r, R p q -> R q r -> R p r)
    (Rtot : forall p q, R p q \/ p = q \/ R q p)
    (turn : forall a b c d e f, R a b -> R c d -> R e f ->
       (0 <= cross2 a b c d)%Qc -> (0 <= cross2 c d e f)%Qc -> (0 <= cross2 a b e f)%Qc).

  (** [edge_of st a b]: [b] is directly above [a] in the stack [st] (top first). *)
  Definition edge_of (st : list point) (a b : point) : Prop := exists l1 l2, st = l1 ++ b :: a :: l2.
  Lemma edge_of_tl x st a b : edge_of st a b -> edge_of (x :: st) a b.
  Proof. intros (l1 & l2 & ->). exists (x :: l1), l2. reflexivity. Qed.
  Lemma edge_of_cons x y st a b : edge_of (x :: y :: st) a b -> a = y /\ b = x \/ edge_of (y :: st) a b.
  Proof.
    intros (l1 & l2 & E). destruct l1 as [|z l1]; cbn [app] in E.
    - left. injection E as E1 E2 _. auto.
    - right. injection E as _ E. exists l1, l2. exact E.
  Qed.
  Lemma edge_of_nil x a b : ~ edge_of [x] a b.
  Proof. intros (l1 & l2 & E). destruct l1 as [|? [|? ?]]; discriminate. Qed.
  Lemma edge_of_in st a b : edge_of st a b -> In a st /\ In b st.
  Proof. intros (l1 & l2 & ->). rewrite !in_app_iff. cbn. tauto. Qed.

  Record inv (done st : list point) : Prop := {
    inv_sorted : StronglySorted (fun a b => R b a) st;
    inv_incl : incl st done;
    inv_lost : forall v, In v done -> In v st \/ exists a c, In a done /\ In c done /\ R a v /\ R v c /\ (cross a v c < 0)%Qc;
    inv_bottom : done <> [] -> exists b, last st b = b /\ In b st /\ forall q, In q done -> q = b \/ R b q;
    inv_left : forall a b q, edge_of st a b -> In q done -> (0 <= cross a b q)%Qc;
    inv_top : forall t st' q, st = t :: st' -> In q done -> q = t \/ R q t }.

  (** The popping loop. *)
  Record pinv (done : list point) (p : point) (st : list point) : Prop := {
    p_sorted : StronglySorted (fun a b => R b a) st;
    p_incl : incl st done;
    p_lost : forall v, In v done -> In v st \/ exists a c, In a (p :: done) /\ In c (p :: done) /\ R a v /\ R v c /\ (cross a v c < 0)%Qc;
    p_bottom : done <> [] -> exists b, last st b = b /\ In b st /\ forall q, In q done -> q = b \/ R b q;
    p_left : forall a b q, edge_of st a b -> In q done -> (0 <= cross a b q)%Qc;
    p_top : forall t st' q, st = t :: st' -> In q done -> R t q -> (0 <= cross t p q)%Qc }.

  Lemma cross_cross2 a b c : cross a b c = cross2 a b a c.
  Proof. unfold cross, cross2. ring. Qed.
  Lemma cross_cross2' a b c : cross a b c = cross2 a b b c.
  Proof. unfold cross, cross2. ring. Qed.

  Lemma pop_spec done p st : (forall q, In q done -> R q p) -> pinv done p st ->
    pinv done p (sub_hull_pop st p) /\
    forall a b, edge_of (sub_hull_pop st p) a b -> (0 <= cross a b p)%Qc.
  Proof.
    intros Hp. induction st as [|t st IH]; intros Hi.
    { split; [exact Hi|]. intros a b (l1 & l2 & E). destruct l1; discriminate. }
    destruct st as [|a st].
    { split; [exact Hi|]. intros a b E. exfalso. exact (edge_of_nil _ _ _ E). }
    destruct Hi as [Hs Hin Hl Hb Hle Ht].
    assert (Hs' : StronglySorted (fun a b => R b a) (a :: st) /\ R a t).
    { inversion Hs as [|? ? H1 H2]; subst. split; [exact H1|]. inversion H2; assumption. }
    destruct Hs' as (Hs' & Hat).
    assert (Eat : edge_of (t :: a :: st) a t) by (exists [], st; reflexivity).
    assert (Htp : R t p) by (apply Hp, Hin; left; reflexivity).
    assert (Hap : R a p) by (eapply Rtr; eassumption).
    change (sub_hull_pop (t :: a :: st) p) with
      (if orientation_eqb (angle_orientation a t p) CLOCKWISE then sub_hull_pop (a :: st) p else t :: a :: st).
    destruct (orientation_eqb (angle_orientation a t p) CLOCKWISE) eqn:E.
    - apply orientation_eqb_eq, orientation_cw in E. unfold right_turn in E. apply IH. constructor.
      + exact Hs'.
      + intros q Hq. apply Hin. right. exact Hq.
      + intros v Hv. destruct (Hl v Hv) as [[<-|H]|H]; [right|left; exact H|right; exact H].
        exists a, p. split; [right; apply Hin; cbn; auto|]. split; [left; reflexivity|auto].
      + intros Hd. destruct (Hb Hd) as (b & H1 & H2 & H3). exists b. split; [exact H1|]. split; [|exact H3].
        destruct H2 as [H2|H2]; [|exact H2]. subst b.
        exfalso. destruct (H3 a) as [H|H]; [apply Hin; cbn; auto| |].
        * subst a. exact (Rirr _ Hat).
        * exact (Rirr _ (Rtr _ _ _ H Hat)).
      + intros x y q Hxy Hq. apply Hle; [apply edge_of_tl; exact Hxy|exact Hq].
      + intros t' st' q E' Hq Htq. injection E' as <- <-.
        pose proof (Hle _ _ _ Eat Hq) as Hq1.
        destruct (Rtot q t) as [H|[H|H]].
        * rewrite cross_cross2. apply (turn a p a t a q); [assumption..| |rewrite <- cross_cross2; exact Hq1].
          replace (cross2 a p a t) with (- cross a t p)%Qc by (unfold cross, cross2; ring). qcl.
        * subst q. replace (cross a p t) with (- cross a t p)%Qc by (unfold cross; ring). qcl.
        * pose proof (Ht _ _ _ eq_refl Hq H) as Hq2.
          replace (cross a p q) with (cross t p q + (- cross a t p) + cross a t q)%Qc by (unfold cross; ring). qcl.
    - apply orientation_eqb_neq in E. rewrite orientation_cw in E. unfold right_turn in E. apply Qcnot_lt_le in E.
      split; [constructor; assumption|].
      (* the lower edges see [p] on their left too *)
      clear IH Hl Hb Ht. 
      assert (G : forall s u b, (forall q, In q (u :: b :: s) -> In q done) -> StronglySorted (fun a b => R b a) (u :: b :: s) ->
        (forall a b' q, edge_of (u :: b :: s) a b' -> In q done -> (0 <= cross a b' q)%Qc) ->
        (0 <= cross b u p)%Qc -> forall x y, edge_of (u :: b :: s) x y -> (0 <= cross x y p)%Qc).
      { clear - Hp turn Rtr. induction s as [|c s IHs]; intros u b Hin Hs Hle Hc x y Hxy.
        - apply edge_of_cons in Hxy. destruct Hxy as [(-> & ->)|H]; [exact Hc|]. exfalso. exact (edge_of_nil _ _ _ H).
        - apply edge_of_cons in Hxy. destruct Hxy as [(-> & ->)|H]; [exact Hc|].
          inversion Hs as [|? ? Hs1 Hf1]; subst. inversion Hs1 as [|? ? Hs2 Hf2]; subst.
          inversion Hf1; subst. inversion Hf2; subst.
          apply (IHs b c); [intros q Hq; apply Hin; right; exact Hq|exact Hs1| | |exact H].
          + intros a0 b0 q H0 Hq. apply Hle; [apply edge_of_tl; exact H0|exact Hq].
          + assert (H0 : (0 <= cross c b u)%Qc) by (apply Hle; [exists [u], s; reflexivity|apply Hin; left; reflexivity]).
            assert (Hup : R u p) by (apply Hp, Hin; left; reflexivity).
            rewrite cross_cross2' in H0, Hc. 
            assert (Hcu : (0 <= cross2 c b u p)%Qc) by (apply (turn c b b u u p); assumption).
            replace (cross c b p) with (cross2 c b b u + cross2 c b u p)%Qc by (unfold cross, cross2; ring). qcl. }
      apply (G st t a); [exact Hin|exact Hs|exact Hle|exact E].
  Qed.

  Lemma inv_step done p st : (forall q, In q done -> R q p) -> inv done st -> inv (done ++ [p]) (p :: sub_hull_pop st p).
  Proof.
    intros Hp [Hs Hin Hl Hb Hle Ht].
    assert (Hi : pinv done p st).
    { constructor; try assumption.
      - intros v Hv. destruct (Hl v Hv) as [H|(a & c & H1 & H2 & H)]; [auto|]. right. exists a, c. split; [right; exact H1|].
        split; [right; exact H2|exact H].
      - intros t st' q E Hq Htq. exfalso. destruct (Ht _ _ _ E Hq) as [->|H]; [exact (Rirr _ Htq)|].
        exact (Rirr _ (Rtr _ _ _ H Htq)). }
    clear Hs Hin Hl Hb Hle Ht. apply pop_spec in Hi; [|exact Hp]. destruct Hi as ([Hs Hin Hl Hb Hle Ht] & Hnew).
    set (st1 := sub_hull_pop st p) in *. clearbody st1. clear st.
    assert (Hmem : forall q, In q (done ++ [p]) <-> In q done \/ q = p).
    { intros q. rewrite in_app_iff. cbn. intuition congruence. }
    constructor.
    - constructor; [exact Hs|]. apply Forall_forall. intros q Hq. apply Hp, Hin, Hq.
    - intros q [<-|Hq]; apply Hmem; auto.
    - intros v Hv. apply Hmem in Hv. destruct Hv as [Hv| ->]; [|left; left; reflexivity].
      destruct (Hl v Hv) as [H|(a & c & H1 & H2 & H)]; [left; right; exact H|]. right. exists a, c.
      assert (K : forall x, In x (p :: done) -> In x (done ++ [p])) by (intros x Hx; apply Hmem; cbn in Hx; intuition congruence).
      auto.
    - intros _. destruct done as [|d done].
      + assert (st1 = []) as -> by (destruct st1 as [|x st1]; [reflexivity|exfalso; apply (Hin x); left; reflexivity]).
        exists p. split; [reflexivity|]. split; [left; reflexivity|]. intros q Hq. apply Hmem in Hq. destruct Hq as [[]|Hq]; auto.
      + destruct Hb as (b & H1 & H2 & H3); [discriminate|]. exists b. destruct st1 as [|x st1]; [destruct H2|].
        split; [exact H1|]. split; [right; exact H2|]. intros q Hq. apply Hmem in Hq. destruct Hq as [Hq| ->]; [apply H3, Hq|].
        right. apply Hp, Hin, H2.
    - intros a b q Hab Hq. apply Hmem in Hq. destruct st1 as [|t st1]; [exfalso; exact (edge_of_nil _ _ _ Hab)|].
      apply edge_of_cons in Hab. destruct Hab as [(-> & ->)|Hab].
      + (* the new edge *)
        destruct Hq as [Hq| ->]; [|rewrite cross_cross2; unfold cross2; replace (_ - _)%Qc with (Q2Qc 0) by ring; qcl].
        assert (Htd : In t done) by (apply Hin; left; reflexivity).
        destruct (Rtot t q) as [H|[<-|H]].
        * apply (Ht _ _ _ eq_refl Hq H).
        * replace (cross t p t) with (Q2Qc 0) by (unfold cross; ring). qcl.
        * destruct st1 as [|a st1].
          { exfalso. destruct Hb as (b & H1 & H2 & H3); [intros ->; destruct Htd|]. cbn in H1. subst b.
            destruct (H3 q Hq) as [->|H']; [exact (Rirr _ H)|exact (Rirr _ (Rtr _ _ _ H H'))]. }
          assert (Eat : edge_of (t :: a :: st1) a t) by (exists [], st1; reflexivity).
          pose proof (Hnew _ _ Eat) as H1. pose proof (Hle _ _ _ Eat Hq) as H2.
          assert (Hat : R a t) by (inversion Hs as [|? ? _ Hf]; subst; inversion Hf; assumption).
          assert (H3 : (0 <= cross2 q t t p)%Qc).
          { apply (turn q t a t t p); [exact H|exact Hat|apply Hp, Htd| |rewrite <- cross_cross2'; exact H1].
            replace (cross2 q t a t) with (cross a t q) by (unfold cross, cross2; ring). exact H2. }
          replace (cross t p q) with (cross2 q t t p) by (unfold cross, cross2; ring). exact H3.
      + destruct Hq as [Hq| ->]; [apply Hle; assumption|apply Hnew; exact Hab].
    - intros t st' q E Hq. injection E as <- _. apply Hmem in Hq. destruct Hq as [Hq| ->]; [right; apply Hp, Hq|left; reflexivity].
  Qed.

  Lemma fold_inv l done st : StronglySorted R (done ++ l) -> inv done st ->
    inv (done ++ l) (fold_left (fun result p => p :: sub_hull_pop result p) l st).
  Proof.
    revert done st. induction l as [|p l IH]; intros done st Hs Hi; cbn [fold_left].
    { rewrite app_nil_r. exact Hi. }
    replace (done ++ p :: l) with ((done ++ [p]) ++ l) in * by (rewrite <- app_assoc; reflexivity).
    apply IH; [exact Hs|]. apply inv_step; [|exact Hi]. clear - Hs. intros q Hq.
    rewrite <- app_assoc in Hs. cbn [app] in Hs. induction done as [|d done IHd]; [destruct Hq|].
    cbn [app] in Hs. inversion Hs as [|? ? Hs1 Hf]; subst. destruct Hq as [<-|Hq]; [|apply IHd; assumption].
    rewrite Forall_forall in Hf. apply Hf. rewrite in_app_iff. cbn. auto.
  Qed.
  Lemma sub_hull_inv l : StronglySorted R l -> inv l (rev (to_sub_hull l)).
  Proof.
    intros Hs. unfold to_sub_hull. rewrite rev_involutive. apply (fold_inv l [] []); [exact Hs|].
    split; [constructor|intros q []|intros v []|intros H; contradiction| |discriminate].
    intros a b q (l1 & l2 & E). destruct l1; discriminate.
  Qed.
End Chain.

Definition pgt (p q : point) : Prop := plt q p.
Lemma cross2_trans_gt a b c d e f : pgt a b -> pgt c d -> pgt e f ->
  (0 <= cross2 a b c d)%Qc -> (0 <= cross2 c d e f)%Qc -> (0 <= cross2 a b e f)%Qc.
Proof.
  unfold pgt. intros H1 H2 H3 H4 H5.
  replace (cross2 a b e f) with (cross2 b a f e) by (unfold cross2; ring).
  apply (cross2_trans_lt b a d c f e); [assumption..| |].
  - replace (cross2 b a d c) with (cross2 a b c d) by (unfold cross2; ring). exact H4.
  - replace (cross2 d c f e) with (cross2 c d e f) by (unfold cross2; ring). exact H5.
Qed.
Lemma lower_inv l : StronglySorted plt l -> inv plt l (rev (to_sub_hull l)).
Proof. apply sub_hull_inv; [apply plt_irrefl|apply plt_trans|apply plt_total|apply cross2_trans_lt]. Qed.
Lemma upper_inv l : StronglySorted pgt l -> inv pgt l (rev (to_sub_hull l)).
Proof.
  apply sub_hull_inv; [apply plt_irrefl|unfold pgt; intros p q r H1 H2; eapply plt_trans; eassumption| |apply cross2_trans_gt].
  intros p q. unfold pgt. destruct (plt_total p q) as [H|[H|H]]; auto.
Qed.
Lemma sorted_rev {A} (R : A -> A -> Prop) l : StronglySorted R l -> StronglySorted (fun a b => R b a) (rev l).
Proof.
  induction l as [|x l IH]; intros H; cbn [rev]; [constructor|]. inversion H as [|? ? Hs Hf]; subst. specialize (IH Hs).
  rewrite Forall_forall in Hf. assert (Hf' : forall y, In y (rev l) -> R x y) by (intros y Hy; apply Hf, in_rev, Hy).
  clear - IH Hf'. induction (rev l) as [|y m IHm]; cbn [app]; [repeat constructor|].
  inversion IH as [|? ? Hs Hg]; subst. constructor; [apply IHm; [exact Hs|intros z Hz; apply Hf'; right; exact Hz]|].
  apply Forall_app. split; [exact Hg|]. repeat constructor. apply Hf'. left. reflexivity.
Qed.
Lemma isort_points_strict l : NoDup l -> StronglySorted plt (isort point_leb l).
Proof.
  intros Hn. pose proof (isort_nodup point_leb l Hn) as Hn'.
  assert (Hs : StronglySorted (fun x y => point_leb x y = true) (isort point_leb l)).
  { apply isort_sorted.
    - intros x y. rewrite !point_leb_le. apply ple_total.
    - intros x y z. rewrite !point_leb_le. apply ple_trans. }
  induction Hs as [|x m Hs IH Hf]; [constructor|]. inversion Hn' as [|? ? Hx Hm]; subst. constructor; [apply IH, Hm|].
  rewrite Forall_forall in *. intros y Hy. specialize (Hf y Hy). apply point_leb_le in Hf. destruct Hf as [Hf|Hf]; [exact Hf|].
  subst y. contradiction.
Qed.

(** The bottom of a stack is kept by [removelast] of the chain, and so is everything but the top. *)
Lemma removelast_rev {A} (t : A) st : removelast (rev (t :: st)) = rev st.
Proof. cbn [rev]. apply removelast_last. Qed.

(** With a linear function that is maximal at [v], [v] cannot be removed from both chains. *)
Lemma kept (dx dy : Qc) v a c a' c' : (dx <> 0 \/ dy <> 0)%Qc ->
  (forall p, In p [a; c; a'; c'] -> (dx * px p + dy * py p <= dx * px v + dy * py v)%Qc) ->
  plt a v -> plt v c -> (cross a v c < 0)%Qc -> pgt a' v -> pgt v c' -> (cross a' v c' < 0)%Qc -> False.
Proof.
  intros Hd Hf Hav Hvc Hc Hav' Hvc' Hc'.
  pose proof (Hf a ltac:(cbn; tauto)) as Fa. pose proof (Hf c ltac:(cbn; tauto)) as Fc.
  pose proof (Hf a' ltac:(cbn; tauto)) as Fa'. pose proof (Hf c' ltac:(cbn; tauto)) as Fc'. clear Hf.
  destruct v as [vx vy], a as [ax ay], c as [cx cy], a' as [ax' ay'], c' as [cx' cy'].
  unfold pgt, plt, cross in *. cbn [px py] in *.
  set (x1 := (vx - ax)%Qc). set (y1 := (vy - ay)%Qc). set (x2 := (cx - vx)%Qc). set (y2 := (cy - vy)%Qc).
  set (x3 := (ax' - vx)%Qc). set (y3 := (ay' - vy)%Qc). set (x4 := (vx - cx')%Qc). set (y4 := (vy - cy')%Qc).
  assert (G1 : (0 < x1 \/ x1 = 0 /\ 0 < y1)%Qc) by (subst x1 y1; destruct Hav as [H|(H & H')]; [left; qcl|right; split; qcl]).
  assert (G2 : (0 < x2 \/ x2 = 0 /\ 0 < y2)%Qc) by (subst x2 y2; destruct Hvc as [H|(H & H')]; [left; qcl|right; split; qcl]).
  assert (G3 : (0 < x3 \/ x3 = 0 /\ 0 < y3)%Qc) by (subst x3 y3; destruct Hav' as [H|(H & H')]; [left; qcl|right; split; qcl]).
  assert (G4 : (0 < x4 \/ x4 = 0 /\ 0 < y4)%Qc) by (subst x4 y4; destruct Hvc' as [H|(H & H')]; [left; qcl|right; split; qcl]).
  assert (C1 : (x1 * y2 - y1 * x2 < 0)%Qc) by (match type of Hc with (?e < _)%Qc => replace (x1 * y2 - y1 * x2)%Qc with e by (subst x1 y1 x2 y2; ring); exact Hc end).
  assert (C2 : (x3 * y4 - y3 * x4 < 0)%Qc) by (match type of Hc' with (?e < _)%Qc => replace (x3 * y4 - y3 * x4)%Qc with e by (subst x3 y3 x4 y4; ring); exact Hc' end).
  assert (F1 : (0 <= dx * x1 + dy * y1)%Qc) by (subst x1 y1; qcl).
  assert (F2 : (dx * x2 + dy * y2 <= 0)%Qc) by (subst x2 y2; qcl).
  assert (F3 : (dx * x3 + dy * y3 <= 0)%Qc) by (subst x3 y3; qcl).
  assert (F4 : (0 <= dx * x4 + dy * y4)%Qc) by (subst x4 y4; qcl).
  clearbody x1 y1 x2 y2 x3 y3 x4 y4. clear - Hd G1 G2 G3 G4 C1 C2 F1 F2 F3 F4.
  assert (P : forall u w, (0 < u \/ u = 0 /\ 0 < w)%Qc -> (0 <= u)%Qc) by (intros u w [H|(-> & _)]; qcl).
  pose proof (P _ _ G1) as P1. pose proof (P _ _ G2) as P2. pose proof (P _ _ G3) as P3. pose proof (P _ _ G4) as P4. clear P.
  assert (W1 : (0 <= dy)%Qc).
  { apply Qcnot_lt_le. intros H.
    assert (K : (dy * (x1 * y2 - y1 * x2) = x1 * (dx * x2 + dy * y2) - x2 * (dx * x1 + dy * y1))%Qc) by ring.
    set (z := (x1 * y2 - y1 * x2)%Qc) in *. set (u := (dx * x1 + dy * y1)%Qc) in *. set (w := (dx * x2 + dy * y2)%Qc) in *.
    clearbody z u w. clear - K H C1 F1 F2 P1 P2. qcn. }
  assert (W2 : (dy <= 0)%Qc).
  { apply Qcnot_lt_le. intros H.
    assert (K : (dy * (x3 * y4 - y3 * x4) = x3 * (dx * x4 + dy * y4) - x4 * (dx * x3 + dy * y3))%Qc) by ring.
    set (z := (x3 * y4 - y3 * x4)%Qc) in *. set (u := (dx * x3 + dy * y3)%Qc) in *. set (w := (dx * x4 + dy * y4)%Qc) in *.
    clearbody z u w. clear - K H C2 F3 F4 P3 P4. qcn. }
  assert (dy = 0)%Qc as -> by (apply Qcle_antisym; assumption). clear W1 W2.
  assert (Hdx : (dx <> 0)%Qc) by (destruct Hd as [H|H]; [exact H|contradiction]).
  destruct (Qc_lt_eq_gt dx 0) as [H|[H|H]]; [|contradiction|].
  - (* leftmost *)
    assert (x1 = 0)%Qc as -> by (apply Qcle_antisym; [clear - F1 H P1; apply Qcnot_lt_le; intros K; qcn|exact P1]).
    assert (x4 = 0)%Qc as -> by (apply Qcle_antisym; [clear - F4 H P4; apply Qcnot_lt_le; intros K; qcn|exact P4]).
    destruct G4 as [G|(_ & G)]; [qcl|]. clear - C2 G P3. qcn.
  - assert (x2 = 0)%Qc as -> by (apply Qcle_antisym; [clear - F2 H P2; apply Qcnot_lt_le; intros K; qcn|exact P2]).
    destruct G2 as [G|(_ & G)]; [qcl|]. clear - C1 G P1. qcn.
Qed.

Lemma on_edge (R : point -> point -> Prop) st v : StronglySorted (fun a b => R b a) st -> 2 <= length st -> In v st ->
  exists a b, edge_of st a b /\ (v = a \/ v = b) /\ R a b.
Proof.
  intros Hs Hl Hv. induction st as [|t st IH]; [destruct Hv|]. destruct st as [|a st]; [cbn in Hl; lia|].
  inversion Hs as [|? ? Hs1 Hf]; subst. inversion Hf as [|? ? Hat _]; subst.
  destruct Hv as [->|Hv]; [exists a, v; split; [exists [], st; reflexivity|auto]|].
  destruct Hv as [->|Hv]; [exists v, t; split; [exists [], st; reflexivity|auto]|].
  destruct IH as (x & y & H1 & H2 & H3); [exact Hs1|destruct st; [destruct Hv|cbn; lia]|right; exact Hv|].
  exists x, y. split; [apply edge_of_tl; exact H1|auto].
Qed.

Lemma edge_supports l a b v : In v l -> (v = a \/ v = b) -> a <> b -> (forall q, In q l -> (0 <= cross a b q)%Qc) -> on_hull_boundary l v.
Proof.
  intros Hv Hab Hn Hq. split; [exact Hv|]. exists (py b - py a)%Qc, (px a - px b)%Qc. split.
  - destruct (Qc_eq_dec (py b - py a) 0) as [E1|E1]; [|auto]. destruct (Qc_eq_dec (px a - px b) 0) as [E2|E2]; [|auto].
    exfalso. apply Hn. apply point_ext; qcl.
  - intros p Hp. specialize (Hq p Hp). unfold cross in Hq. destruct Hab as [->| ->]; qcl.
Qed.

Lemma stack_two (R : point -> point -> Prop) l st : (forall p, ~ R p p) -> (forall p q r, R p q -> R q r -> R p r) ->
  NoDup l -> 2 <= length l -> inv R l st -> 2 <= length st.
Proof.
  intros Hirr Htr Hn Hl Hi. destruct l as [|x [|y l]]; cbn in Hl; try lia.
  destruct (inv_bottom _ _ _ Hi) as (b & H1 & H2 & H3); [discriminate|].
  destruct st as [|t [|u st]]; [destruct H2| |cbn; lia]. cbn in H1. subst b.
  assert (G : forall q, In q (x :: y :: l) -> q = t).
  { intros q Hq. destruct (H3 q Hq) as [H|H]; [exact H|]. destruct (inv_top _ _ _ Hi t [] q eq_refl Hq) as [H'|H']; [exact H'|].
    exfalso. exact (Hirr _ (Htr _ _ _ H H')). }
  assert (x = y) by (rewrite (G x), (G y) by (cbn; auto); reflexivity). subst y.
  inversion Hn as [|? ? Hx _]; subst. exfalso. apply Hx. left. reflexivity.
Qed.

Lemma max_hull_in l v : NoDup l -> 2 <= length l ->
  (In v (to_max_convex_hull l) <->
   In v (to_sub_hull (isort point_leb l)) \/ In v (to_sub_hull (rev (isort point_leb l)))).
Proof.
  intros Hn Hl. unfold to_max_convex_hull.
  pose proof (isort_points_strict l Hn) as Hs.
  pose proof (lower_inv _ Hs) as I1. pose proof (upper_inv _ (sorted_rev _ _ Hs)) as I2.
  set (m := isort point_leb l) in *.
  assert (Hn' : NoDup m) by (apply isort_nodup, Hn). assert (Hl' : 2 <= length m) by (unfold m; rewrite isort_length; exact Hl).
  assert (Hn2 : NoDup (rev m)) by (apply NoDup_rev, Hn').
  assert (L1 : 2 <= length (rev (to_sub_hull m))).
  { eapply (stack_two plt); [apply plt_irrefl|apply plt_trans|exact Hn'|exact Hl'|exact I1]. }
  assert (L2 : 2 <= length (rev (to_sub_hull (rev m)))).
  { eapply (stack_two pgt); [apply plt_irrefl|unfold pgt; intros p q r A B; eapply plt_trans; eassumption|exact Hn2|rewrite rev_length; exact Hl'|exact I2]. }
  assert (Hmem : forall q, In q m <-> In q (rev m)) by (intros q; apply in_rev).
  rewrite <- (rev_involutive (to_sub_hull m)), <- (rev_involutive (to_sub_hull (rev m))).
  set (s1 := rev (to_sub_hull m)) in *. set (s2 := rev (to_sub_hull (rev m))) in *. clearbody s1 s2.
  destruct s1 as [|t1 s1]; [cbn in L1; lia|]. destruct s2 as [|t2 s2]; [cbn in L2; lia|].
  rewrite !removelast_rev, in_app_iff, <- !in_rev. cbn [In].
  assert (Hm : m <> []) by (intros E; rewrite E in Hl'; cbn in Hl'; lia).
  assert (Hm2 : rev m <> []) by (intros E; apply Hm; rewrite <- (rev_involutive m), E; reflexivity).
  (* the top of each stack is the bottom of the other *)
  assert (B1 : In t1 s2).
  { destruct (inv_bottom _ _ _ I2 Hm2) as (b & H1 & H2 & H3).
    assert (b = t1) as ->.
    { assert (Hb : In b m) by (apply Hmem, (inv_incl _ _ _ I2), H2).
      assert (Ht : In t1 m) by (apply (inv_incl _ _ _ I1); left; reflexivity).
      destruct (inv_top _ _ _ I1 t1 s1 b eq_refl Hb) as [H|H]; [exact H|].
      destruct (H3 t1 (proj1 (Hmem t1) Ht)) as [H'|H']; [congruence|]. exfalso. exact (plt_irrefl _ (plt_trans _ _ _ H H')). }
    destruct s2 as [|u s2]; [cbn in L2; lia|]. destruct H2 as [->|H2]; [|exact H2]. 
    exfalso. pose proof (inv_sorted _ _ _ I2) as Ss. inversion Ss as [|? ? _ Hf]; subst. rewrite Forall_forall in Hf.
    change (last (u :: s2) t1 = t1) in H1.
    assert (Hin : In (last (u :: s2) t1) (u :: s2)).
    { clear. revert u. induction s2 as [|x s IH]; intros u; [left; reflexivity|]. right. apply (IH x). }
    rewrite H1 in Hin. exact (plt_irrefl _ (Hf _ Hin)). }
  assert (B2 : In t2 s1).
  { destruct (inv_bottom _ _ _ I1 Hm) as (b & H1 & H2 & H3).
    assert (b = t2) as ->.
    { assert (Hb : In b m) by (apply (inv_incl _ _ _ I1), H2).
      assert (Ht : In t2 m) by (apply Hmem, (inv_incl _ _ _ I2); left; reflexivity).
      destruct (inv_top _ _ _ I2 t2 s2 b eq_refl (proj1 (Hmem b) Hb)) as [H|H]; [exact H|].
      destruct (H3 t2 Ht) as [H'|H']; [congruence|]. exfalso. exact (plt_irrefl _ (plt_trans _ _ _ H H')). }
    destruct s1 as [|u s1]; [cbn in L1; lia|]. destruct H2 as [->|H2]; [|exact H2]. 
    exfalso. pose proof (inv_sorted _ _ _ I1) as Ss. inversion Ss as [|? ? _ Hf]; subst. rewrite Forall_forall in Hf.
    change (last (u :: s1) t2 = t2) in H1.
    assert (Hin : In (last (u :: s1) t2) (u :: s1)).
    { clear. revert u. induction s1 as [|x s IH]; intros u; [left; reflexivity|]. right. apply (IH x). }
    rewrite H1 in Hin. exact (plt_irrefl _ (Hf _ Hin)). }
  split; [tauto|]. intros [[->|H]|[->|H]]; auto.
Qed.

Lemma max_hull_boundary l v : NoDup l -> 2 <= length l -> (In v (to_max_convex_hull l) <-> on_hull_boundary l v).
Proof.
  intros Hn Hl. rewrite max_hull_in by assumption.
  pose proof (isort_points_strict l Hn) as Hs.
  pose proof (lower_inv _ Hs) as I1. pose proof (upper_inv _ (sorted_rev _ _ Hs)) as I2.
  assert (Hm : forall q, In q (isort point_leb l) <-> In q l) by (intros q; apply isort_in).
  set (m := isort point_leb l) in *.
  assert (Hn' : NoDup m) by (apply isort_nodup, Hn). assert (Hl' : 2 <= length m) by (unfold m; rewrite isort_length; exact Hl).
  assert (Hn2 : NoDup (rev m)) by (apply NoDup_rev, Hn').
  assert (L1 : 2 <= length (rev (to_sub_hull m))).
  { eapply (stack_two plt); [apply plt_irrefl|apply plt_trans|exact Hn'|exact Hl'|exact I1]. }
  assert (L2 : 2 <= length (rev (to_sub_hull (rev m)))).
  { eapply (stack_two pgt); [apply plt_irrefl|unfold pgt; intros p q r A B; eapply plt_trans; eassumption|exact Hn2|rewrite rev_length; exact Hl'|exact I2]. }
  assert (Hmem : forall q, In q l <-> In q (rev m)) by (intros q; rewrite <- in_rev; symmetry; apply Hm).
  split.
  - intros [H|H]; rewrite in_rev in H.
    + destruct (on_edge plt _ v (inv_sorted _ _ _ I1) L1 H) as (a & b & H1 & H2 & H3). eapply edge_supports; [| exact H2 | |].
      * apply Hm, (inv_incl _ _ _ I1), H.
      * intros ->. exact (plt_irrefl _ H3).
      * intros q Hq. apply (inv_left _ _ _ I1); [exact H1|apply Hm, Hq].
    + destruct (on_edge pgt _ v (inv_sorted _ _ _ I2) L2 H) as (a & b & H1 & H2 & H3). eapply edge_supports; [| exact H2 | |].
      * apply Hmem, (inv_incl _ _ _ I2), H.
      * intros ->. exact (plt_irrefl _ H3).
      * intros q Hq. apply (inv_left _ _ _ I2); [exact H1|apply Hmem, Hq].
  - intros (Hv & dx & dy & Hd & Hf).
    destruct (inv_lost _ _ _ I1 v (proj2 (Hm v) Hv)) as [H|(a & c & Ha & Hc & R1 & R2 & C)]; [left; rewrite in_rev; exact H|].
    destruct (inv_lost _ _ _ I2 v (proj1 (Hmem v) Hv)) as [H|(a' & c' & Ha' & Hc' & R1' & R2' & C')]; [right; rewrite in_rev; exact H|].
    exfalso. eapply (kept dx dy v a c a' c'); try eassumption.
    intros p [<-|[<-|[<-|[<-|[]]]]]; apply Hf; first [apply Hm; assumption|apply Hmem; assumption].
Qed.

Lemma vertex_boundary l v : NoDup l -> 2 <= length l -> hull_vertex l v -> on_hull_boundary l v.
Proof.
  intros Hn Hl (Hv & dx & dy & H). split; [exact Hv|]. exists dx, dy. split.
  - assert (Hq : exists q, In q l /\ q <> v).
    { destruct l as [|x [|y l]]; cbn in Hl; try lia. destruct (point_eq_dec x v) as [->|Hx].
      - exists y. split; [cbn; auto|]. intros ->. inversion Hn as [|? ? Hx _]; subst. apply Hx. left. reflexivity.
      - exists x. split; [cbn; auto|exact Hx]. }
    destruct Hq as (q & Hq & Hqv). specialize (H q Hq Hqv).
    destruct (Qc_eq_dec dx 0) as [E1|E1]; [|auto]. destruct (Qc_eq_dec dy 0) as [E2|E2]; [|auto].
    exfalso. subst dx dy. qcl.
  - intros p Hp. destruct (point_eq_dec p v) as [->|Hpv]; [qcl|]. specialize (H p Hp Hpv). qcl.
Qed.
Lemma max_hull_vertices l v : NoDup l -> 2 <= length l -> hull_vertex l v -> In v (to_max_convex_hull l).
Proof. intros Hn Hl Hv. apply max_hull_boundary; [assumption..|]. apply vertex_boundary; assumption. Qed.

Lemma hull_at_most_max l h : NoDup l -> 2 <= length l -> is_hull l h -> length h <= length (to_max_convex_hull l).
Proof.
  intros Hn Hl (H1 & H2 & H3 & _). destruct (le_lt_dec 2 (length h)) as [Hh|Hh].
  - apply NoDup_incl_length; [exact H1|]. intros v Hv. apply max_hull_boundary; [assumption..|].
    apply In_nth_error in Hv. destruct Hv as (i & Hi).
    assert (Hb : i < length h) by (apply nth_error_Some; rewrite Hi; discriminate).
    destruct (nth_error h (S i mod length h)) as [w|] eqn:Ew.
    2: { apply nth_error_None in Ew. pose proof (Nat.mod_upper_bound (S i) (length h) ltac:(lia)). lia. }
    apply (edge_supports l v w v); [apply H2; eapply nth_error_In; exact Hi|auto| |].
    + intros ->. assert (E : i = S i mod length h).
      { rewrite NoDup_nth_error in H1. apply H1; [exact Hb|congruence]. }
      destruct (Nat.eq_dec (S i) (length h)) as [E'|E'].
      * rewrite E', Nat.mod_same in E by lia. lia.
      * rewrite Nat.mod_small in E by lia. lia.
    + intros q Hq. apply Qcnot_lt_le. apply (H3 v w); [|exact Hq]. exists i. auto.
  - assert (Hx : exists x, In x (to_max_convex_hull l)).
    { pose proof (lower_inv _ (isort_points_strict l Hn)) as I1.
      destruct (inv_bottom _ _ _ I1) as (b & _ & Hb & _).
      - intros E. apply (f_equal (@length _)) in E. rewrite isort_length in E. cbn in E. lia.
      - exists b. apply max_hull_in; [assumption..|]. left. rewrite in_rev. exact Hb. }
    destruct Hx as (x & Hx). destruct (to_max_convex_hull l); [destruct Hx|cbn; lia].
Qed.
