(** The monotone chain of the reference context finds the corners of the convex hull. *)
From Verif Require Import Base Geometry Ctx Contracts Spec HullSpec QcTac QcFast ProgProofs GeomProofs ListProofs CyclicProofs SegmentProofs EdgeProofs CycEdge Factories HullProofs MultiProofs Reference ReferenceProofs.
From Coq Require Import Lqa Sorting.Sorted Sorting.Permutation.

Section Chain.
  Context (R : point -> point -> Prop) (Rirr : forall p, ~ R p p) (Rtr : forall p q r, R p q -> R q r -> R p r)
    (Rtot : forall p q, R p q \/ p = q \/ R q p)
    (turn : forall a b c d e f, R a b -> R c d -> R e f ->
       (0 <= cross2 a b c d)%Qc -> (0 <= cross2 c d e f)%Qc -> (0 <= cross2 a b e f)%Qc).

  (** Three consecutive members of a stack, the last one on top. *)
  Definition bend_of (st : list point) (a b c : point) : Prop := exists l1 l2, st = l1 ++ c :: b :: a :: l2.
  Record sinv (done st : list point) : Prop := {
    s_sorted : StronglySorted (fun a b => R b a) st;
    s_incl : incl st done;
    s_bottom : done <> [] -> exists b, last st b = b /\ In b st /\ forall q, In q done -> q = b \/ R b q;
    s_left : forall a b q, edge_of st a b -> In q done -> (0 <= cross a b q)%Qc;
    s_strict : forall a b c, bend_of st a b c -> (0 < cross a b c)%Qc;
    s_top : forall t st' q, st = t :: st' -> In q done -> q = t \/ R q t }.
  Record psinv (done : list point) (p : point) (st : list point) : Prop := {
    ps_sorted : StronglySorted (fun a b => R b a) st;
    ps_incl : incl st done;
    ps_bottom : done <> [] -> exists b, last st b = b /\ In b st /\ forall q, In q done -> q = b \/ R b q;
    ps_left : forall a b q, edge_of st a b -> In q done -> (0 <= cross a b q)%Qc;
    ps_strict : forall a b c, bend_of st a b c -> (0 < cross a b c)%Qc;
    ps_top : forall t st' q, st = t :: st' -> In q done -> R t q -> (0 <= cross t p q)%Qc }.

  Lemma chain_pop_spec done p st : (forall q, In q done -> R q p) -> psinv done p st ->
    psinv done p (chain_pop st p) /\
    (forall a b, edge_of (chain_pop st p) a b -> (0 <= cross a b p)%Qc) /\
    (forall a b st', chain_pop st p = b :: a :: st' -> (0 < cross a b p)%Qc).
  Proof.
    intros Hp. induction st as [|t st IH]; intros Hi.
    { split; [exact Hi|]. split; [|discriminate]. intros a b (l1 & l2 & E). destruct l1; discriminate. }
    destruct st as [|a st].
    { split; [exact Hi|]. split; [|discriminate]. intros a b E. exfalso. exact (edge_of_nil _ _ _ E). }
    destruct Hi as [Hs Hin Hb Hle Hst Ht].
    assert (Hs' : StronglySorted (fun a b => R b a) (a :: st) /\ R a t).
    { inversion Hs as [|? ? H1 H2]; subst. split; [exact H1|]. inversion H2; assumption. }
    destruct Hs' as (Hs' & Hat).
    assert (Eat : edge_of (t :: a :: st) a t) by (exists [], st; reflexivity).
    assert (Htp : R t p) by (apply Hp, Hin; left; reflexivity).
    assert (Hap : R a p) by (eapply Rtr; eassumption).
    change (chain_pop (t :: a :: st) p) with
      (if orientation_eqb (angle_orientation a t p) COUNTERCLOCKWISE then t :: a :: st else chain_pop (a :: st) p).
    destruct (orientation_eqb (angle_orientation a t p) COUNTERCLOCKWISE) eqn:E.
    2:{ apply orientation_eqb_neq in E. rewrite orientation_ccw in E. unfold left_turn in E. apply Qcnot_lt_le in E. apply IH. constructor.
      + exact Hs'.
      + intros q Hq. apply Hin. right. exact Hq.
      + intros Hd. destruct (Hb Hd) as (b & H1 & H2 & H3). exists b. split; [exact H1|]. split; [|exact H3].
        destruct H2 as [H2|H2]; [|exact H2]. subst b.
        exfalso. destruct (H3 a) as [H|H]; [apply Hin; cbn; auto| |].
        * subst a. exact (Rirr _ Hat).
        * exact (Rirr _ (Rtr _ _ _ H Hat)).
      + intros x y q Hxy Hq. apply Hle; [apply edge_of_tl; exact Hxy|exact Hq].
      + intros x y z (l1 & l2 & Eb). apply Hst. exists (t :: l1), l2. rewrite Eb. reflexivity.
      + intros t' st' q E' Hq Htq. injection E' as <- <-.
        pose proof (Hle _ _ _ Eat Hq) as Hq1.
        destruct (Rtot q t) as [H|[H|H]].
        * rewrite cross_cross2. apply (turn a p a t a q); [assumption..| |rewrite <- cross_cross2; exact Hq1].
          replace (cross2 a p a t) with (- cross a t p)%Qc by (unfold cross, cross2; ring). qcl.
        * subst q. replace (cross a p t) with (- cross a t p)%Qc by (unfold cross; ring). qcl.
        * pose proof (Ht _ _ _ eq_refl Hq H) as Hq2.
          replace (cross a p q) with (cross t p q + (- cross a t p) + cross a t q)%Qc by (unfold cross; ring). qcl. }
    apply orientation_eqb_eq, orientation_ccw in E. unfold left_turn in E.
    split; [constructor; assumption|]. split; [|intros a0 b0 st' E0; injection E0 as <- <- _; exact E].
    clear IH Hb Ht.
    assert (G : forall s u b, (forall q, In q (u :: b :: s) -> In q done) -> StronglySorted (fun a b => R b a) (u :: b :: s) ->
        (forall a b' q, edge_of (u :: b :: s) a b' -> In q done -> (0 <= cross a b' q)%Qc) ->
        (0 <= cross b u p)%Qc -> forall x y, edge_of (u :: b :: s) x y -> (0 <= cross x y p)%Qc).
    { clear - Hp turn Rtr. induction s as [|c s IHs]; intros u b Hin Hs Hle Hc x y Hxy.
      - apply edge_of_cons in Hxy. destruct Hxy as [(-> & ->)|H]; [exact Hc|]. exfalso. exact (edge_of_nil _ _ _ H).
      - apply edge_of_cons in Hxy. destruct Hxy as [(-> & ->)|H]; [exact Hc|].
        inversion Hs as [|? ? Hs1 Hf1]; subst. inversion Hs1 as [|? ? Hs2 Hf2]; subst.
        inversion Hf1; subst. inversion Hf2; subst.
        apply (IHs b c); [intros q Hq; apply Hin; right; exact Hq|exact Hs1| | |exact H].
        + intros a0 b0 q H0 Hq. apply Hle; [apply edge_of_tl; exact H0|exact Hq].
        + assert (H0 : (0 <= cross c b u)%Qc) by (apply Hle; [exists [u], s; reflexivity|apply Hin; left; reflexivity]).
          assert (Hup : R u p) by (apply Hp, Hin; left; reflexivity).
          rewrite cross_cross2' in H0, Hc. 
          assert (Hcu : (0 <= cross2 c b u p)%Qc) by (apply (turn c b b u u p); assumption).
          replace (cross c b p) with (cross2 c b b u + cross2 c b u p)%Qc by (unfold cross, cross2; ring). qcl. }
    apply (G st t a); [exact Hin|exact Hs|exact Hle|apply Qclt_le_weak, E].
  Qed.

  Lemma sinv_step done p st : (forall q, In q done -> R q p) -> sinv done st -> sinv (done ++ [p]) (p :: chain_pop st p).
  Proof.
    intros Hp [Hs Hin Hb Hle Hst Ht].
    assert (Hi : psinv done p st).
    { constructor; try assumption. intros t st' q E Hq Htq. exfalso. destruct (Ht _ _ _ E Hq) as [->|H]; [exact (Rirr _ Htq)|].
      exact (Rirr _ (Rtr _ _ _ H Htq)). }
    clear Hs Hin Hb Hle Hst Ht. apply chain_pop_spec in Hi; [|exact Hp]. destruct Hi as ([Hs Hin Hb Hle Hst Ht] & Hnew & Hnew').
    set (st1 := chain_pop st p) in *. clearbody st1. clear st.
    assert (Hmem : forall q, In q (done ++ [p]) <-> In q done \/ q = p).
    { intros q. rewrite in_app_iff. cbn. intuition congruence. }
    constructor.
    - constructor; [exact Hs|]. apply Forall_forall. intros q Hq. apply Hp, Hin, Hq.
    - intros q [<-|Hq]; apply Hmem; auto.
    - intros _. destruct done as [|d done].
      + assert (st1 = []) as -> by (destruct st1 as [|x st1]; [reflexivity|exfalso; apply (Hin x); left; reflexivity]).
        exists p. split; [reflexivity|]. split; [left; reflexivity|]. intros q Hq. apply Hmem in Hq. destruct Hq as [[]|Hq]; auto.
      + destruct Hb as (b & H1 & H2 & H3); [discriminate|]. exists b. destruct st1 as [|x st1]; [destruct H2|].
        split; [exact H1|]. split; [right; exact H2|]. intros q Hq. apply Hmem in Hq. destruct Hq as [Hq| ->]; [apply H3, Hq|].
        right. apply Hp, Hin, H2.
    - intros a b q Hab Hq. apply Hmem in Hq. destruct st1 as [|t st1]; [exfalso; exact (edge_of_nil _ _ _ Hab)|].
      apply edge_of_cons in Hab. destruct Hab as [(-> & ->)|Hab].
      + destruct Hq as [Hq| ->]; [|rewrite cross_cross2; unfold cross2; replace (_ - _)%Qc with (Q2Qc 0) by ring; qcl].
        assert (Htd : In t done) by (apply Hin; left; reflexivity).
        destruct (Rtot t q) as [H|[<-|H]].
        * apply (Ht _ _ _ eq_refl Hq H).
        * replace (cross t p t) with (Q2Qc 0) by (unfold cross; ring). qcl.
        * destruct st1 as [|a st1].
          { exfalso. destruct Hb as (b & H1 & H2 & H3); [intros ->; destruct Htd|]. cbn in H1. subst b.
            destruct (H3 q Hq) as [->|H']; [exact (Rirr _ H)|exact (Rirr _ (Rtr _ _ _ H H'))]. }
          assert (Eat : edge_of (t :: a :: st1) a t) by (exists [], st1; reflexivity).
          pose proof (Hnew _ _ Eat) as H1. pose proof (Hle _ _ _ Eat Hq) as H2.
          assert (Hat : R a t) by (inversion Hs as [|? ? _ Hf]; subst; inversion Hf; assumption).
          assert (H3 : (0 <= cross2 q t t p)%Qc).
          { apply (turn q t a t t p); [exact H|exact Hat|apply Hp, Htd| |rewrite <- cross_cross2'; exact H1].
            replace (cross2 q t a t) with (cross a t q) by (unfold cross, cross2; ring). exact H2. }
          replace (cross t p q) with (cross2 q t t p) by (unfold cross, cross2; ring). exact H3.
      + destruct Hq as [Hq| ->]; [apply Hle; assumption|apply Hnew; exact Hab].
    - intros a b c (l1 & l2 & E). destruct l1 as [|x l1]; cbn [app] in E; injection E as E0 E1.
      + subst c. eapply Hnew', E1.
      + apply Hst. exists l1, l2. exact E1.
    - intros t st' q E Hq. injection E as <- _. apply Hmem in Hq. destruct Hq as [Hq| ->]; [right; apply Hp, Hq|left; reflexivity].
  Qed.

  Lemma fold_sinv l done st : StronglySorted R (done ++ l) -> sinv done st ->
    sinv (done ++ l) (fold_left (fun result p => p :: chain_pop result p) l st).
  Proof.
    revert done st. induction l as [|p l IH]; intros done st Hs Hi; cbn [fold_left].
    { rewrite app_nil_r. exact Hi. }
    replace (done ++ p :: l) with ((done ++ [p]) ++ l) in * by (rewrite <- app_assoc; reflexivity).
    apply IH; [exact Hs|]. apply sinv_step; [|exact Hi]. clear - Hs. intros q Hq.
    rewrite <- app_assoc in Hs. cbn [app] in Hs. induction done as [|d done IHd]; [destruct Hq|].
    cbn [app] in Hs. inversion Hs as [|? ? Hs1 Hf]; subst. destruct Hq as [<-|Hq]; [|apply IHd; assumption].
    rewrite Forall_forall in Hf. apply Hf. rewrite in_app_iff. cbn. auto.
  Qed.
  Lemma half_hull_inv l : StronglySorted R l -> sinv l (rev (half_hull l)).
  Proof.
    intros Hs. unfold half_hull. rewrite rev_involutive. apply (fold_sinv l [] []); [exact Hs|].
    split; [constructor|intros q []|intros H; contradiction| | |discriminate].
    - intros a b q (l1 & l2 & E). destruct l1; discriminate.
    - intros a b c (l1 & l2 & E). destruct l1; discriminate.
  Qed.
  Lemma sinv_two l st : NoDup l -> (2 <= length l)%nat -> sinv l st -> (2 <= length st)%nat.
  Proof.
    intros Hn Hl Hi. destruct l as [|x [|y l]]; cbn in Hl; try lia.
    destruct (s_bottom _ _ Hi) as (b & H1 & H2 & H3); [discriminate|].
    destruct st as [|t [|u st]]; [destruct H2| |cbn; lia]. cbn in H1. subst b.
    assert (G : forall q, In q (x :: y :: l) -> q = t).
    { intros q Hq. destruct (H3 q Hq) as [H|H]; [exact H|]. destruct (s_top _ _ Hi t [] q eq_refl Hq) as [H'|H']; [exact H'|].
      exfalso. exact (Rirr _ (Rtr _ _ _ H H')). }
    assert (x = y) by (rewrite (G x), (G y) by (cbn; auto); reflexivity). subst y.
    inversion Hn as [|? ? Hx _]; subst. exfalso. apply Hx. left. reflexivity.
  Qed.
End Chain.

(** A turn of the chain [u] to [v] is strict: no direction [w] of the same half is in line with
    one step and on the right of the other. *)
Section Corners.
  Context (R : point -> point -> Prop) (Rirr : forall p, ~ R p p) (Rtr : forall p q r, R p q -> R q r -> R p r)
    (Rtot : forall p q, R p q \/ p = q \/ R q p)
    (turn : forall a b c d e f, R a b -> R c d -> R e f ->
       (0 <= cross2 a b c d)%Qc -> (0 <= cross2 c d e f)%Qc -> (0 <= cross2 a b e f)%Qc).

  Lemma edge_of_sorted st a b : StronglySorted (fun a b => R b a) st -> edge_of st a b -> R a b /\ In a st /\ In b st.
  Proof.
    intros S (l1 & l2 & ->). split; [|rewrite !in_app_iff; cbn; auto].
    induction l1 as [|x l1 IH]; cbn [app] in S; inversion S as [|? ? S' F]; subst; [|apply IH, S'].
    inversion F; assumption.
  Qed.
  Lemma edge_of_between st a b c : StronglySorted (fun a b => R b a) st -> edge_of st a b -> In c st -> R a c -> R c b -> False.
  Proof.
    intros S (l1 & l2 & ->) I Rac Rcb. induction l1 as [|x l1 IH]; cbn [app] in S, I; inversion S as [|? ? S' F]; subst; rewrite Forall_forall in F.
    - inversion S' as [|? ? _ F']; subst. rewrite Forall_forall in F'. destruct I as [->|[->|I]]; [exact (Rirr _ Rcb)|exact (Rirr _ Rac)|].
      exact (Rirr _ (Rtr _ _ _ Rac (F' _ I))).
    - destruct I as [->|I]; [|exact (IH S' I)]. apply (Rirr c). eapply Rtr; [exact Rcb|]. apply F. rewrite in_app_iff. right. left. reflexivity.
  Qed.
  Lemma edge_of_up st a b : edge_of st a b -> (exists st', st = b :: a :: st') \/ exists d, bend_of st a b d.
  Proof.
    intros (l1 & l2 & ->). destruct l1 as [|x l1] using rev_ind; [left; exists l2; reflexivity|]. right. exists x, l1, l2. rewrite <- app_assoc. reflexivity.
  Qed.
  Lemma edge_of_down st a b : edge_of st a b -> (exists l, st = l ++ [b; a]) \/ exists z, bend_of st z a b.
  Proof.
    intros (l1 & [|z l2] & ->); [left; exists l1; reflexivity|]. right. exists z, l1, l2. reflexivity.
  Qed.
  Lemma bend_edges st a b c : bend_of st a b c -> edge_of st a b /\ edge_of st b c.
  Proof.
    intros (l1 & l2 & ->). split; [exists (l1 ++ [c]), l2; rewrite <- app_assoc; reflexivity|exists l1, (a :: l2); reflexivity].
  Qed.

  (** A point in line with an edge of the chain is on that edge. *)
  Lemma edge_line l st a b c : sinv R l st -> edge_of st a b -> In c l -> cross a b c = Q2Qc 0 -> c <> a -> c <> b -> R a c /\ R c b.
  Proof.
    intros I E Ic Z na nb. pose proof (s_sorted _ _ _ I) as S. destruct (edge_of_sorted _ _ _ S E) as (Rab & Ia & Ib).
    destruct (Rtot c b) as [Hb|[Hb|Hb]]; [|contradiction|].
    - split; [|exact Hb]. destruct (Rtot a c) as [Ha|[Ha|Ha]]; [exact Ha|congruence|]. exfalso.
      destruct (edge_of_down _ _ _ E) as [(l0 & Est)|(z & B)].
      + destruct (s_bottom _ _ _ I) as (x & Ex & Ix & Hx); [intros El; rewrite El in Ic; destruct Ic|].
        assert (x = a). { subst st. replace (l0 ++ [b; a]) with ((l0 ++ [b]) ++ [a]) in Ex by (rewrite <- app_assoc; reflexivity). rewrite last_last in Ex. congruence. }
        subst x. destruct (Hx c Ic) as [?|H]; [contradiction|]. exact (Rirr _ (Rtr _ _ _ H Ha)).
      + pose proof (s_strict _ _ _ I _ _ _ B) as Hs. destruct (bend_edges _ _ _ _ B) as (E1 & _).
        destruct (edge_of_sorted _ _ _ S E1) as (Rza & _ & _). pose proof (s_left _ _ _ I _ _ _ E1 Ic) as Hl.
        assert (G : (0 <= cross2 a b z a)%Qc).
        { apply (turn a b c a z a); [assumption..| |].
          - replace (cross2 a b c a) with (- cross a b c)%Qc by (unfold cross, cross2; ring). rewrite Z. qcl.
          - replace (cross2 c a z a) with (cross z a c) by (unfold cross, cross2; ring). exact Hl. }
        replace (cross2 a b z a) with (- cross z a b)%Qc in G by (unfold cross, cross2; ring). qcl.
    - exfalso. destruct (edge_of_up _ _ _ E) as [(st' & Est)|(d & B)].
      + destruct (s_top _ _ _ I _ _ c Est Ic) as [?|H]; [contradiction|]. exact (Rirr _ (Rtr _ _ _ H Hb)).
      + pose proof (s_strict _ _ _ I _ _ _ B) as Hs. destruct (bend_edges _ _ _ _ B) as (_ & E1).
        destruct (edge_of_sorted _ _ _ S E1) as (Rbd & _ & _). pose proof (s_left _ _ _ I _ _ _ E1 Ic) as Hl.
        assert (G : (0 <= cross2 b d a b)%Qc).
        { apply (turn b d b c a b); [assumption..| |].
          - rewrite <- cross_cross2. exact Hl.
          - replace (cross2 b c a b) with (- cross a b c)%Qc by (unfold cross, cross2; ring). rewrite Z. qcl. }
        replace (cross2 b d a b) with (- cross a b d)%Qc in G by (unfold cross, cross2; ring). qcl.
  Qed.
  (** A corner [c] of the other chain is not inside an edge of this one. *)
  Lemma other_edge a b c b' a' : R a c -> R c b -> cross a b c = Q2Qc 0 -> R c b' -> R a' c -> (0 < cross b' c a')%Qc ->
    (0 <= cross c a' a)%Qc -> (0 <= cross b' c b)%Qc -> False.
  Proof.
    intros Rac Rcb Z R1 R2 B H1 H2.
    assert (T : (0 <= cross2 a' c c b)%Qc).
    { apply (turn a' c a c c b); [assumption..| |].
      - replace (cross2 a' c a c) with (cross c a' a) by (unfold cross, cross2; ring). exact H1.
      - replace (cross2 a c c b) with (- cross a b c)%Qc by (unfold cross, cross2; ring). rewrite Z. qcl. }
    assert (G : (0 <= cross2 a' c c b')%Qc).
    { apply (turn a' c c b c b'); [assumption..|].
      replace (cross2 c b c b') with (cross b' c b) by (unfold cross, cross2; ring). exact H2. }
    replace (cross2 a' c c b') with (- cross b' c a')%Qc in G by (unfold cross, cross2; ring). qcl.
  Qed.
  (** The chains have no inner corner in common. *)
  Lemma other_corner a b c b' : R a c -> R c b -> R c b' -> (0 < cross a c b)%Qc -> (0 <= cross b' c a)%Qc -> (0 <= cross c b b')%Qc -> False.
  Proof.
    intros Rac Rcb R1 B H1 H2.
    assert (G : (0 <= cross2 c b a c)%Qc).
    { apply (turn c b c b' a c); [assumption..| |].
      - rewrite <- cross_cross2. exact H2.
      - replace (cross2 c b' a c) with (cross b' c a) by (unfold cross, cross2; ring). exact H1. }
    replace (cross2 c b a c) with (- cross a c b)%Qc in G by (unfold cross, cross2; ring). qcl.
  Qed.
  Lemma inner_bend t m b c : In c m -> exists a d, bend_of (t :: m ++ [b]) a c d.
  Proof.
    intros H. apply in_split in H. destruct H as (l1 & l2 & ->).
    destruct (exists_last (l := t :: l1) ltac:(discriminate)) as (u & d & Eu).
    assert (Ea : exists a v, l2 ++ [b] = a :: v) by (destruct l2 as [|a v]; [exists b, []; reflexivity|exists a, (v ++ [b]); reflexivity]).
    destruct Ea as (a & v & Ea). exists a, d, u, v.
    rewrite <- app_assoc. cbn [app].
    change (t :: l1 ++ c :: l2 ++ [b]) with ((t :: l1) ++ c :: l2 ++ [b]). rewrite Ea, Eu, <- app_assoc. reflexivity.
  Qed.
End Corners.

Definition adj (l : list point) (a b : point) : Prop := exists l1 l2, l = l1 ++ a :: b :: l2.
Lemma adj_split u x v a b : adj (u ++ x :: v) a b -> adj (u ++ [x]) a b \/ adj (x :: v) a b.
Proof.
  intros (l1 & l2 & E). revert l1 E. induction u as [|y u IH]; intros l1 E; [right; exists l1, l2; exact E|].
  destruct l1 as [|z l1]; cbn [app] in E; injection E as E0 E1.
  - left. destruct u as [|w u]; cbn [app] in E1; injection E1 as E1 E2; subst; [exists [], []; reflexivity|].
    exists [], (u ++ [x]). reflexivity.
  - destruct (IH l1 E1) as [(p & q & H)|H]; [|right; exact H]. left. exists (y :: p), q. cbn [app]. rewrite H. reflexivity.
Qed.
Lemma adj_edge_of st a b : adj (rev st) a b -> edge_of st a b.
Proof. intros (l1 & l2 & E). apply (f_equal (@rev _)) in E. rewrite rev_involutive, rev_app_distr in E. cbn [rev] in E. rewrite <- !app_assoc in E. exists (rev l2), (rev l1). exact E. Qed.
Lemma combine_adj l : forall x y a b, In (a, b) (combine (x :: l) (l ++ [y])) -> adj (x :: l ++ [y]) a b.
Proof.
  induction l as [|z l IH]; intros x y a b H.
  - cbn in H. destruct H as [H|[]]. injection H as -> ->. exists [], []. reflexivity.
  - cbn [app combine] in H. destruct H as [H|H]; [injection H as -> ->; exists [], (l ++ [y]); reflexivity|].
    destruct (IH _ _ _ _ H) as (l1 & l2 & E). exists (x :: l1), l2. cbn [app] in *. rewrite E. reflexivity.
Qed.

Lemma nodup_join {A} (u v : list A) : NoDup u -> NoDup v -> (forall x, In x u -> In x v -> False) -> NoDup (u ++ v).
Proof.
  induction u as [|x u IH]; intros Nu Nv D; [exact Nv|]. inversion Nu as [|? ? H1 H2]; subst. cbn [app]. constructor.
  - rewrite in_app_iff. intros [H|H]; [exact (H1 H)|]. apply (D x); [left; reflexivity|exact H].
  - apply IH; [exact H2|exact Nv|]. intros y Hy. apply D. right. exact Hy.
Qed.
Lemma pgt_trans p q r : pgt p q -> pgt q r -> pgt p r.
Proof. unfold pgt. intros A B. eapply plt_trans; eassumption. Qed.
Lemma pgt_total p q : pgt p q \/ p = q \/ pgt q p.
Proof. unfold pgt. destruct (plt_total p q) as [H|[H|H]]; auto. Qed.
Lemma contour_edge_two lo m1 hi m2 a b : contour_edge (lo :: rev m1 ++ hi :: rev m2) a b ->
  edge_of (hi :: m1 ++ [lo]) a b \/ edge_of (lo :: m2 ++ [hi]) a b.
Proof.
  intros H. apply ces_edge in H.
  assert (A : adj ((lo :: rev m1) ++ hi :: rev m2 ++ [lo]) a b).
  { destruct (rev m1 ++ hi :: rev m2) as [|y l] eqn:E; [destruct (rev m1); discriminate|].
    rewrite ces_cons2 in H. change ((a, b) = (a, b)) in H || idtac.
    change ((lo, y) :: combine (y :: l) (l ++ [lo])) with (combine (lo :: y :: l) ((y :: l) ++ [lo])) in H. apply combine_adj in H.
    rewrite <- E in H. rewrite <- app_assoc in H. exact H. }
  apply adj_split in A. destruct A as [A|A]; [left|right]; apply adj_edge_of.
  - cbn [rev]. rewrite rev_app_distr. exact A.
  - cbn [rev]. rewrite rev_app_distr. exact A.
Qed.
Section Two.
  Variables (l m1 m2 : list point) (lo hi : point).
  Hypotheses (I1 : sinv plt l (hi :: m1 ++ [lo])) (I2 : sinv pgt l (lo :: m2 ++ [hi])).
  Local Notation h := (lo :: rev m1 ++ hi :: rev m2).
  Lemma two_incl : incl h l.
  Proof.
    intros p H. cbn [In] in H. rewrite in_app_iff in H. cbn [In] in H. rewrite <- !in_rev in H.
    destruct H as [<-|[H|[<-|H]]].
    - apply (s_incl _ _ _ I2). left. reflexivity.
    - apply (s_incl _ _ _ I1). right. apply in_or_app. auto.
    - apply (s_incl _ _ _ I1). left. reflexivity.
    - apply (s_incl _ _ _ I2). right. apply in_or_app. auto.
  Qed.
  Lemma two_left a b p : contour_edge h a b -> In p l -> (0 <= cross a b p)%Qc.
  Proof. intros E H. apply contour_edge_two in E. destruct E as [E|E]; [eapply (s_left _ _ _ I1)|eapply (s_left _ _ _ I2)]; eassumption. Qed.
  Lemma two_nodup : NoDup h.
  Proof.
    pose proof (s_sorted _ _ _ I1) as S1. pose proof (s_sorted _ _ _ I2) as S2.
    assert (N : forall (R : point -> point -> Prop) st, (forall p, ~ R p p) -> StronglySorted R st -> NoDup st).
    { intros R st Ri S. induction S as [|x st S IH F]; constructor; [|exact IH]. intros Hx. rewrite Forall_forall in F. exact (Ri _ (F _ Hx)). }
    assert (N1 : NoDup (hi :: m1 ++ [lo])) by (eapply N; [|exact S1]; intros p; apply plt_irrefl).
    assert (N2 : NoDup (lo :: m2 ++ [hi])) by (eapply N; [|exact S2]; intros p; apply plt_irrefl).
    clear N. assert (D : forall c, In c m1 -> In c m2 -> False).
    { intros c H1 H2. destruct (inner_bend hi m1 lo c H1) as (a & b & B). destruct (inner_bend lo m2 hi c H2) as (b' & a' & B').
      destruct (bend_edges _ _ _ _ B) as (E1 & E2). destruct (bend_edges _ _ _ _ B') as (E1' & E2').
      destruct (edge_of_sorted plt _ _ _ S1 E1) as (R1 & Ia & _). destruct (edge_of_sorted plt _ _ _ S1 E2) as (R2 & _ & _).
      destruct (edge_of_sorted pgt _ _ _ S2 E1') as (R1' & Ib' & _).
      apply (other_corner plt cross2_trans_lt a b c b'); [exact R1|exact R2|exact R1'|eapply (s_strict _ _ _ I1), B| |].
      - eapply (s_left _ _ _ I2); [exact E1'|]. apply (s_incl _ _ _ I1), Ia.
      - eapply (s_left _ _ _ I1); [exact E2|]. apply (s_incl _ _ _ I2), Ib'. }
    apply NoDup_cons_iff in N1. destruct N1 as (Nh & N1). apply NoDup_cons_iff in N2. destruct N2 as (Nl & N2).
    apply NoDup_cons_iff. rewrite in_app_iff in Nh, Nl |- *. cbn [In] in *.
    apply NoDup_remove in N1, N2. rewrite app_nil_r in N1, N2. destruct N1 as (N1 & Nl1). destruct N2 as (N2 & Nh2). split.
    - rewrite <- !in_rev. intros [H|[H|H]]; [contradiction|subst; auto|auto].
    - apply nodup_join; [apply NoDup_rev, N1| |].
      + apply NoDup_cons_iff. rewrite <- in_rev. split; [exact Nh2|apply NoDup_rev, N2].
      + intros x Hx. apply in_rev in Hx. cbn [In]. rewrite <- in_rev. intros [H|H]; [subst; auto|exact (D x Hx H)].
  Qed.
  Lemma two_strict a b c : contour_edge h a b -> In c h -> c <> a -> c <> b -> (0 < cross a b c)%Qc.
  Proof.
    intros E Ic na nb. pose proof (two_left a b c E (two_incl _ Ic)) as Hle. apply Qcle_lt_or_eq in Hle. destruct Hle as [Hlt|Z]; [exact Hlt|].
    symmetry in Z. exfalso. pose proof (two_incl _ Ic) as Il. pose proof (s_sorted _ _ _ I1) as S1. pose proof (s_sorted _ _ _ I2) as S2.
    assert (Ic' : (In c (hi :: m1 ++ [lo]) \/ In c m2) /\ (In c (lo :: m2 ++ [hi]) \/ In c m1)).
    { cbn [In] in *. rewrite !in_app_iff in *. cbn [In] in *. rewrite <- !in_rev in Ic. tauto. }
    destruct Ic' as (C1 & C2). apply contour_edge_two in E. destruct E as [E|E].
    - destruct (edge_of_sorted plt _ _ _ S1 E) as (_ & Ia & Ib).
      destruct (edge_line plt plt_irrefl plt_trans plt_total cross2_trans_lt _ _ _ _ _ I1 E Il Z na nb) as (Ra & Rb).
      destruct C1 as [C|C]; [exact (edge_of_between plt plt_irrefl plt_trans _ _ _ _ S1 E C Ra Rb)|].
      destruct (inner_bend lo m2 hi c C) as (b' & a' & B). destruct (bend_edges _ _ _ _ B) as (E1 & E2).
      destruct (edge_of_sorted pgt _ _ _ S2 E1) as (R1 & _ & _). destruct (edge_of_sorted pgt _ _ _ S2 E2) as (R2 & _ & _).
      apply (other_edge plt cross2_trans_lt a b c b' a'); [exact Ra|exact Rb|exact Z|exact R1|exact R2|eapply (s_strict _ _ _ I2), B| |].
      + eapply (s_left _ _ _ I2); [exact E2|]. apply (s_incl _ _ _ I1), Ia.
      + eapply (s_left _ _ _ I2); [exact E1|]. apply (s_incl _ _ _ I1), Ib.
    - destruct (edge_of_sorted pgt _ _ _ S2 E) as (_ & Ia & Ib).
      destruct (edge_line pgt plt_irrefl pgt_trans pgt_total cross2_trans_gt _ _ _ _ _ I2 E Il Z na nb) as (Ra & Rb).
      destruct C2 as [C|C]; [exact (edge_of_between pgt plt_irrefl pgt_trans _ _ _ _ S2 E C Ra Rb)|].
      destruct (inner_bend hi m1 lo c C) as (b' & a' & B). destruct (bend_edges _ _ _ _ B) as (E1 & E2).
      destruct (edge_of_sorted plt _ _ _ S1 E1) as (R1 & _ & _). destruct (edge_of_sorted plt _ _ _ S1 E2) as (R2 & _ & _).
      apply (other_edge pgt cross2_trans_gt a b c b' a'); [exact Ra|exact Rb|exact Z|exact R1|exact R2|eapply (s_strict _ _ _ I1), B| |].
      + eapply (s_left _ _ _ I1); [exact E2|]. apply (s_incl _ _ _ I2), Ia.
      + eapply (s_left _ _ _ I1); [exact E1|]. apply (s_incl _ _ _ I2), Ib.
  Qed.
  Lemma two_enough a b c : In a l -> In b l -> In c l -> ~ collinear a b c -> 3 <= length h.
  Proof.
    intros Ia Ib Ic N. destruct m1 as [|x l1]; [|cbn [length]; rewrite app_length; cbn [rev length]; rewrite app_length; cbn [length]; lia].
    destruct m2 as [|x l2]; [|cbn [app rev length]; rewrite app_length; cbn [length]; lia]. exfalso. apply N.
    assert (G : forall p, In p l -> cross lo hi p = Q2Qc 0).
    { intros p Hp. apply Qcle_antisym.
      - assert (H : (0 <= cross hi lo p)%Qc) by (apply (s_left _ _ _ I2); [exists [], []; reflexivity|exact Hp]).
        replace (cross hi lo p) with (- cross lo hi p)%Qc in H by (unfold cross; ring). qcl.
      - apply (s_left _ _ _ I1); [exists [], []; reflexivity|exact Hp]. }
    assert (D : lo <> hi).
    { intros e. pose proof (s_sorted _ _ _ I1) as S. inversion S as [|? ? _ F]; subst. inversion F as [|? ? H _]; subst. exact (plt_irrefl _ H). }
    clear - G D Ia Ib Ic. pose proof (G a Ia) as Ga. pose proof (G b Ib) as Gb. pose proof (G c Ic) as Gc.
    unfold collinear. pose proof (parallel (px hi - px lo) (py hi - py lo) (px b - px a) (py b - py a) (px c - px a) (py c - py a) (point_neq_diff _ _ D)) as Hp.
    unfold cross in *. rewrite <- Hp; [ring| |].
    - transitivity (((px hi - px lo) * (py a - py lo) - (py hi - py lo) * (px a - px lo)) - ((px hi - px lo) * (py b - py lo) - (py hi - py lo) * (px b - px lo)))%Qc; [ring|]. rewrite Ga, Gb. ring.
    - transitivity (((px hi - px lo) * (py a - py lo) - (py hi - py lo) * (px a - px lo)) - ((px hi - px lo) * (py c - py lo) - (py hi - py lo) * (px c - px lo)))%Qc; [ring|]. rewrite Ga, Gc. ring.
  Qed.
End Two.

(** The tops and bottoms of the two stacks. *)
Lemma stack_ends R l st : (forall p, ~ R p p) -> (forall p q r, R p q -> R q r -> R p r) -> NoDup l -> 2 <= length l -> sinv R l st ->
  exists t m b, st = t :: m ++ [b] /\ (forall q, In q l -> q = t \/ R q t) /\ (forall q, In q l -> q = b \/ R b q).
Proof.
  intros Ri Rt N L I. pose proof (sinv_two R Ri Rt l st N L I) as L2.
  destruct st as [|t st]; [cbn in L2; lia|]. destruct (exists_last (l := st)) as (m & b & ->); [intros ->; cbn in L2; lia|].
  exists t, m, b. split; [reflexivity|]. split; [intros q Hq; exact (s_top _ _ _ I t (m ++ [b]) q eq_refl Hq)|].
  destruct (s_bottom _ _ _ I) as (b0 & E & _ & H); [intros ->; cbn in L; lia|].
  change (t :: m ++ [b]) with ((t :: m) ++ [b]) in E. rewrite last_last in E. subst b0. exact H.
Qed.
Lemma chain_hull_two l : 2 <= length (points_set l) -> exists m1 m2 lo hi, chain_hull l = lo :: rev m1 ++ hi :: rev m2 /\
  exists l', (forall q, In q l' <-> In q l) /\ sinv plt l' (hi :: m1 ++ [lo]) /\ sinv pgt l' (lo :: m2 ++ [hi]).
Proof.
  intros L. unfold chain_hull. set (m := isort point_leb (points_set l)).
  assert (Nm : NoDup m) by (apply isort_nodup, points_set_nodup). assert (Lm : 2 <= length m) by (unfold m; rewrite isort_length; exact L).
  pose proof (isort_points_strict _ (points_set_nodup l)) as S. fold m in S.
  assert (Im : forall q, In q m <-> In q l) by (intros q; unfold m; rewrite isort_in; apply points_set_in).
  clearbody m. clear L. pose proof (half_hull_inv plt plt_irrefl plt_trans plt_total cross2_trans_lt m S) as I1.
  pose proof (half_hull_inv pgt plt_irrefl pgt_trans pgt_total cross2_trans_gt (rev m) (sorted_rev _ _ S)) as I2.
  destruct (stack_ends plt m _ plt_irrefl plt_trans Nm Lm I1) as (hi & m1 & lo & E1 & T1 & B1).
  destruct (stack_ends pgt (rev m) _ plt_irrefl pgt_trans (NoDup_rev Nm) ltac:(rewrite rev_length; exact Lm) I2) as (lo' & m2 & hi' & E2 & T2 & B2).
  rewrite E1 in I1. rewrite E2 in I2.
  assert (Ihi : In hi m) by (apply (s_incl _ _ _ I1); left; reflexivity).
  assert (Ilo : In lo m) by (apply (s_incl _ _ _ I1); right; apply in_or_app; right; left; reflexivity).
  assert (Ilo' : In lo' m) by (apply in_rev, (s_incl _ _ _ I2); left; reflexivity).
  assert (Ihi' : In hi' m) by (apply in_rev, (s_incl _ _ _ I2); right; apply in_or_app; right; left; reflexivity).
  assert (lo' = lo) as Elo.
  { destruct (B1 lo' Ilo') as [H|H]; [exact H|]. destruct (T2 lo (proj1 (in_rev _ _) Ilo)) as [H'|H']; [congruence|]. exfalso. exact (plt_irrefl _ (plt_trans _ _ _ H H')). }
  assert (hi' = hi) as Ehi.
  { destruct (T1 hi' Ihi') as [H|H]; [exact H|]. destruct (B2 hi (proj1 (in_rev _ _) Ihi)) as [H'|H']; [congruence|]. exfalso. exact (plt_irrefl _ (plt_trans _ _ _ H H')). }
  subst lo' hi'. exists m1, m2, lo, hi. split.
  - apply (f_equal (@rev _)) in E1, E2. rewrite rev_involutive in E1, E2. destruct m as [|x [|y m]]; [cbn in Lm; lia|cbn in Lm; lia|].
    rewrite E1, E2, !removelast_rev, !rev_app_distr. reflexivity.
  - exists m. split; [exact Im|]. split; [exact I1|]. destruct I2 as [G1 G2 G3 G4 G5 G6]. constructor.
    + exact G1.
    + intros q Hq. apply in_rev, G2, Hq.
    + intros _. destruct G3 as (b & ? & ? & Hb); [intros E; apply (f_equal (@length _)) in E; rewrite rev_length in E; cbn in E; lia|].
      exists b. split; [assumption|]. split; [assumption|]. intros q Hq. apply Hb, (proj1 (in_rev _ _)), Hq.
    + intros a b q E Hq. apply G4; [exact E|]. apply (proj1 (in_rev _ _)), Hq.
    + exact G5.
    + intros t st q E Hq. eapply G6; [exact E|]. apply (proj1 (in_rev _ _)), Hq.
Qed.
Lemma edge_single p a b : contour_edge [p] a b -> a = p /\ b = p.
Proof. intros (i & H1 & H2). destruct i as [|[|i]]; try discriminate. cbn in *. split; congruence. Qed.
(** The monotone chain is a hull, and with at least three vertices unless all points are in line. *)
Lemma chain_hull_spec l : is_hull l (chain_hull l) /\ (forall a b c, In a l -> In b l -> In c l -> ~ collinear a b c -> 3 <= length (chain_hull l)).
Proof.
  destruct (le_lt_dec 2 (length (points_set l))) as [L|L].
  - destruct (chain_hull_two l L) as (m1 & m2 & lo & hi & -> & l' & Il & I1 & I2). split; [split; [|split; [|split]]|].
    + exact (two_nodup l' m1 m2 lo hi I1 I2).
    + intros p H. apply Il, (two_incl l' m1 m2 lo hi I1 I2), H.
    + intros a b E p Hp. apply Il in Hp. pose proof (two_left l' m1 m2 lo hi I1 I2 a b p E Hp) as H. unfold right_turn. apply Qcle_not_lt. exact H.
    + intros L3. split; [exact L3|]. split; [exact (two_nodup l' m1 m2 lo hi I1 I2)|]. intros a b E c Hc na nb.
      exact (two_strict l' m1 m2 lo hi I1 I2 a b c E Hc na nb).
    + intros a b c Ia Ib Ic. apply (two_enough l' m1 m2 lo hi I1 I2 a b c); apply Il; assumption.
  - assert (Ep : forall p, In p (isort point_leb (points_set l)) <-> In p l) by (intros p; rewrite isort_in; apply points_set_in).
    assert (Lm : length (isort point_leb (points_set l)) < 2) by (rewrite isort_length; exact L). unfold chain_hull.
    destruct (isort point_leb (points_set l)) as [|x [|y m]]; [| |cbn in Lm; lia].
    + split; [apply no_hull|]. intros a b c Ia. apply Ep in Ia. destruct Ia.
    + split; [split; [|split; [|split]]|].
      * constructor; [intros []|constructor].
      * intros p Hp. apply Ep, Hp.
      * intros a b E p _. apply edge_single in E. destruct E as (-> & ->). unfold right_turn.
        replace (cross x x p) with (Q2Qc 0) by (unfold cross; ring). apply Qcle_not_lt. qcl.
      * cbn. lia.
      * intros a b c Ia Ib Ic. apply Ep in Ia, Ib, Ic. destruct Ia as [<-|[]], Ib as [<-|[]], Ic as [<-|[]]. intros N. exfalso. apply N.
        unfold collinear, cross. ring.
Qed.
Lemma distinct_complete l : NoDup l -> distinct l = true.
Proof.
  induction 1 as [|p l H N IH]; [reflexivity|]. cbn [distinct]. rewrite IH. destruct (member p l) eqn:E; [|reflexivity].
  apply member_in in E. contradiction.
Qed.
Lemma hull_check_complete l h : is_hull l h -> hull_check l h = true.
Proof.
  intros (H1 & H2 & H3 & H4). unfold hull_check. rewrite !andb_true_iff, !forallb_forall. split; [split; [split|]|].
  - apply distinct_complete, H1.
  - intros p Hp. apply member_in, H2, Hp.
  - intros (a, b) Hs. apply segments_edge in Hs. rewrite forallb_forall. intros p Hp. cbn [seg_start seg_end].
    specialize (H3 a b Hs p Hp). destruct (angle_orientation a b p) eqn:E; try reflexivity. apply orientation_cw in E. contradiction.
  - intros (a, b) Hs. apply segments_edge in Hs. rewrite forallb_forall. intros p Hp. cbn [seg_start seg_end].
    rewrite !orb_true_iff, !point_eqb_eq, orientation_eqb_eq, orientation_ccw.
    destruct (point_eq_dec p a) as [E|na]; [auto|]. destruct (point_eq_dec p b) as [E|nb]; [auto|]. right.
    destruct (le_lt_dec 3 (length h)) as [L|L]; [apply (H4 L); assumption|]. exfalso.
    apply ces_edge in Hs. destruct h as [|x [|y [|z h]]]; [destruct Hp| | |cbn in L; lia].
    + cbn in Hs, Hp. destruct Hs as [Hs|[]], Hp as [->|[]]. injection Hs as <- _. contradiction.
    + cbn in Hs, Hp. destruct Hs as [Hs|[Hs|[]]]; injection Hs as <- <-; destruct Hp as [Hp|[Hp|[]]]; congruence.
Qed.
Lemma ref_hull_chain l : ref_hull l = chain_hull l.
Proof. unfold ref_hull. rewrite hull_check_complete; [reflexivity|]. apply chain_hull_spec. Qed.
