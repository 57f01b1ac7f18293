(** [Triangulation.delaunay] returns a Delaunay triangulation of the points. *)
From Coq Require Import List Lia Sorted.
From Verif Require Import Base Geometry Spec QcTac QcFast GeomProofs LoopProofs ListProofs HullProofs HelperProofs SegmentProofs QuadEdge QuadProofs Ctx Utils Triangulation
  DelGeo DelCyc DelMap DelOps DelMir DelCand DelMerge DelDone DelTangent DelStart DelHeap DelLoop DelFind DelBase DelInit.
From Verif Require TriProofs.
Import ListNotations.
Open Scope Qc_scope.

(** ** A direction that orders the points as the code does *)
Definition faithful (ep : Qc) (S : list point) : Prop := forall p q, In p S -> In q S -> plt p q -> phi ep p < phi ep q.
Lemma pair_ep p q : plt p q -> exists e, 0 < e /\ forall ep, 0 < ep -> ep <= e -> phi ep p < phi ep q.
Proof.
  intros H. unfold phi. destruct (Qclt_le_dec (py p - py q) 0) as [h|h].
  - exists 1. split; [ql|]. intros ep h1 h2. pose proof (mul_pos ep (py q - py p) h1 ltac:(ql)) as M.
    assert (e : ep * (py q - py p) = ep * py q - ep * py p) by ring.
    destruct H as [H|(H & H')]; ql.
  - destruct H as [H|(H & H')]; [|ql].
    set (d := py p - py q) in *.
    assert (Hd : 0 < d + 1) by ql.
    assert (Nd : d + 1 <> 0) by (intros x; rewrite x in Hd; ql).
    exists ((px q - px p) / (d + 1)).
    assert (X : 0 < (px q - px p) / (d + 1)).
    { apply Qcnot_le_lt. intros h1. pose proof (Qcmult_le_compat_r _ _ _ h1 (Qclt_le_weak _ _ Hd)) as M.
      assert (e : (px q - px p) / (d + 1) * (d + 1) = px q - px p) by (unfold Qcdiv; rewrite <- Qcmult_assoc, Qcmult_inv_l, Qcmult_1_r; [reflexivity|exact Nd]).
      rewrite e in M. assert (e' : 0 * (d + 1) = 0) by ring. rewrite e' in M. ql. }
    split; [exact X|]. intros ep h1 h2.
    pose proof (Qcmult_le_compat_r _ _ _ h2 (Qclt_le_weak _ _ Hd)) as M.
    assert (e : (px q - px p) / (d + 1) * (d + 1) = px q - px p) by (unfold Qcdiv; rewrite <- Qcmult_assoc, Qcmult_inv_l, Qcmult_1_r; [reflexivity|exact Nd]).
    rewrite e in M. assert (e' : ep * (d + 1) = ep * py p - ep * py q + ep) by (unfold d; ring). ql.
Qed.
Lemma row_ep p S : exists e, 0 < e /\ forall ep, 0 < ep -> ep <= e -> forall q, In q S -> plt p q -> phi ep p < phi ep q.
Proof.
  induction S as [|x S (e & E & IH)]; [exists 1; split; [ql|intros ? ? ? ? []]|].
  destruct (point_ltb p x) eqn:PL; [pose proof (proj1 (point_ltb_lt p x) PL) as h|assert (h : ~ plt p x) by (rewrite <- point_ltb_lt, PL; discriminate)].
  - destruct (pair_ep p x h) as (e' & E' & H'). destruct (Qclt_le_dec e e') as [c|c].
    + exists e. split; [exact E|]. intros ep h1 h2 q [<-|Hq] pq; [apply H'; auto; ql|apply IH; auto].
    + exists e'. split; [exact E'|]. intros ep h1 h2 q [<-|Hq] pq; [apply H'; auto|apply IH; auto; ql].
  - exists e. split; [exact E|]. intros ep h1 h2 q [<-|Hq] pq; [contradiction|apply IH; auto].
Qed.
Lemma faithful_exists S : exists ep, faithful ep S.
Proof.
  assert (H : forall A, exists e, 0 < e /\ forall ep, 0 < ep -> ep <= e -> forall p q, In p A -> In q S -> plt p q -> phi ep p < phi ep q).
  { induction A as [|x A (e & E & IH)]; [exists 1; split; [ql|intros ? ? ? ? ? []]|].
    destruct (row_ep x S) as (e' & E' & H'). destruct (Qclt_le_dec e e') as [c|c].
    - exists e. split; [exact E|]. intros ep h1 h2 p q [<-|Hp] Hq pq; [apply H'; auto; ql|apply IH; auto].
    - exists e'. split; [exact E'|]. intros ep h1 h2 p q [<-|Hp] Hq pq; [apply H'; auto|apply IH; auto; ql]. }
  destruct (H S) as (e & E & K). exists e. intros p q Hp Hq pq. apply K; auto. ql.
Qed.

(** ** A line between two lists *)
Lemma half2 : / q2 + / q2 = 1.
Proof. apply Qc_is_canon. reflexivity. Qed.
Lemma above a (B : list Qc) : (forall b, In b B -> a < b) -> exists t, a < t /\ forall b, In b B -> t < b.
Proof.
  induction B as [|x B IH]; intros H; [exists (a + 1); split; [ql|intros ? []]|].
  destruct IH as (t & T & IH); [intros; apply H; cbn; auto|].
  pose proof (H x (or_introl eq_refl)) as hx. set (m := (a + x) * / q2).
  assert (Em : m + m = a + x) by (unfold m; rewrite <- Qcmult_plus_distr_r, half2, Qcmult_1_r; reflexivity).
  destruct (Qclt_le_dec m t) as [c|c].
  - exists m. split; [ql|]. intros b [<-|Hb]; [ql|]. specialize (IH b Hb). ql.
  - exists t. split; [exact T|]. intros b [<-|Hb]; [ql|auto].
Qed.
Lemma between (A B : list Qc) : (forall a b, In a A -> In b B -> a < b) -> exists t, (forall a, In a A -> a < t) /\ forall b, In b B -> t < b.
Proof.
  induction A as [|x A IH]; intros H.
  - destruct B as [|b B]; [exists 0; split; intros ? []|].
    assert (K : exists m, forall y, In y (b :: B) -> m < y).
    { clear H. generalize (b :: B). clear. induction l as [|b l (m & IH)]; [exists 0; intros ? []|].
      destruct (Qclt_le_dec m b) as [c|c]; [exists m; intros y [<-|Hy]; auto|].
      exists (b - 1). intros y [<-|Hy]; [ql|]. specialize (IH y Hy). ql. }
    destruct K as (m & K). exists m. split; [intros ? []|exact K].
  - destruct IH as (t & T1 & T2); [intros; apply H; cbn; auto|].
    destruct (Qclt_le_dec x t) as [c|c]; [exists t; split; [intros a [<-|Ha]; auto|exact T2]|].
    destruct (above x B) as (t' & K1 & K2); [intros; apply H; cbn; auto|].
    exists t'. split; [|exact K2]. intros a [<-|Ha]; [exact K1|]. specialize (T1 a Ha). ql.
Qed.

(** ** Ascending lists *)
Definition asc (ep : Qc) (l : list point) : Prop := StronglySorted (fun a b => phi ep a < phi ep b) l.
Lemma asc_app ep a b : asc ep (a ++ b) -> asc ep a /\ asc ep b /\ forall x y, In x a -> In y b -> phi ep x < phi ep y.
Proof.
  unfold asc. induction a as [|z a IH]; cbn [app]; intros H; [split; [constructor|]; split; [exact H|intros ? ? []]|].
  inversion H as [|? ? Hs Hf]; subst. destruct (IH Hs) as (I1 & I2 & I3). rewrite Forall_app in Hf. destruct Hf as (F1 & F2).
  split; [constructor; assumption|]. split; [exact I2|]. intros x y [<-|Hx] Hy; [|auto]. rewrite Forall_forall in F2. auto.
Qed.
Lemma asc_inj ep l : asc ep l -> forall a b, In a l -> In b l -> phi ep a = phi ep b -> a = b.
Proof.
  unfold asc. induction l as [|z l IH]; intros H a b Ha Hb e; [destruct Ha|].
  inversion H as [|? ? Hs Hf]; subst. rewrite Forall_forall in Hf.
  destruct Ha as [<-|Ha], Hb as [<-|Hb]; auto.
  - specialize (Hf b Hb). rewrite e in Hf. ql.
  - specialize (Hf a Ha). rewrite e in Hf. ql.
Qed.

(** ** Forests of triangulations *)
Inductive forest (ep : Qc) (h : heap) : list (list point) -> list Triangulation.tri -> (edge -> Prop) -> Prop :=
| forest_nil : forest ep h [] [] (fun _ => False)
| forest_cons S Ss t ts P m Q : comp h P S m ep t -> forest ep h Ss ts Q -> (forall d, P d -> ~ Q d) ->
    forest ep h (S :: Ss) (t :: ts) (fun d => P d \/ Q d).
Lemma forest_length ep h Ss ts Q : forest ep h Ss ts Q -> length Ss = length ts.
Proof. induction 1; cbn; congruence. Qed.
Lemma forest_frame ep h Ss ts Q P h' : forest ep h Ss ts Q -> frame h P h' -> (forall d, Q d -> ~ P d) -> forest ep h' Ss ts Q.
Proof.
  intros F X. induction F as [|S Ss t ts P0 m Q C F IH D]; intros H; [constructor|].
  apply (forest_cons ep h' S Ss t ts P0 m Q); [apply (comp_frame h P); auto|auto|exact D].
Qed.
Lemma forest_live ep h Ss ts Q d : forest ep h Ss ts Q -> Q d -> live h d.
Proof.
  induction 1 as [|S Ss t ts P m Q C F IH D]; [intros []|]. intros [h0|h0]; [|auto]. apply (rp_live _ _ _ _ (c_rep _ _ _ _ _ _ C)), h0.
Qed.

Lemma initialize_spec ep h pts t h' : wf h -> asc ep pts -> initialize_triangulation h pts = Ok (t, h') ->
  exists P m, comp h' P pts m ep t /\ fresh h h' P.
Proof.
  intros W A E. destruct pts as [|p [|q [|r [|]]]]; try discriminate E; cbn [initialize_triangulation] in E.
  - pose proof (two_spec ep h p q W) as K. destruct (triangulate_two_points h p q). injection E as -> ->. apply K.
    inversion A as [|? ? _ F]; subst. inversion F; assumption.
  - pose proof (three_spec ep h p q r W) as K. destruct (triangulate_three_points h p q r). injection E as -> ->.
    inversion A as [|? ? A' F]; subst. inversion F; subst. inversion A' as [|? ? _ F']; subst. inversion F'; subst. apply K; assumption.
Qed.
Lemma initialize_all_spec ep : forall parts h ts h', wf h -> Forall (asc ep) parts -> initialize_all h parts = Ok (ts, h') ->
  exists Q, forest ep h' parts ts Q /\ fresh h h' Q.
Proof.
  induction parts as [|p parts IH]; intros h ts h' W A E.
  - injection E as <- <-. exists (fun _ => False). split; [constructor|]. split; [|intros ? []]. split; [lia|auto].
  - cbn [initialize_all] in E. apply TriProofs.rbind_ok in E as ((t & h1) & E1 & E).
    apply TriProofs.rbind_ok in E as ((ts1 & h2) & E2 & E). injection E as <- <-.
    inversion A as [|? ? A1 A2]; subst.
    destruct (initialize_spec ep h p t h1 W A1 E1) as (P & m & C & Fr & Nv).
    pose proof Fr as (f1 & f2 & f3 & f4).
    destruct (IH h1 ts1 h2 f2 A2 E2) as (Q & F & Fr' & Nv'). pose proof Fr' as (g1 & g2 & g3 & g4).
    exists (fun d => P d \/ Q d). split.
    + apply (forest_cons ep h2 p parts t ts1 P m Q); [apply (comp_frame h1 (fun _ => False)); auto|exact F|].
      intros d Hd Hq. apply (Nv' d Hq), (rp_live _ _ _ _ (c_rep _ _ _ _ _ _ C) d Hd).
    + assert (V : forall x, valid h x -> valid h1 x) by (unfold valid; intros; lia). split.
      * split; [lia|]. split; [exact g2|]. split.
        -- intros x Lx _. pose proof Lx as (Vx & Px). rewrite g3, f3; auto. split; auto.
        -- intros x Vx. rewrite g4, f4; auto.
      * intros d [Hd|Hd]; [apply Nv, Hd|]. intros Vx. apply (Nv' d Hd), V, Vx.
Qed.

Lemma pair_ind2 {A} (P : list A -> Prop) : P [] -> (forall a, P [a]) -> (forall a b l, P l -> P (a :: b :: l)) -> forall l, P l.
Proof.
  intros H0 H1 H2. fix F 1. intros [|a [|b l]]; [exact H0|apply H1|apply H2, F].
Qed.
Lemma merge_round_spec ep fuel : forall ts h Ss Q ts' h', wf h -> forest ep h Ss ts Q -> asc ep (concat Ss) ->
  merge_round fuel h ts = Ok (ts', h') ->
  exists Ss' Q', forest ep h' Ss' ts' Q' /\ concat Ss' = concat Ss /\ (frame h Q h' /\ forall d, Q' d -> Q d \/ ~ valid h d) /\ (2 * length ts' <= length ts + 1)%nat /\ (ts <> [] -> ts' <> []).
Proof.
  induction ts as [|a|a b ts IH] using pair_ind2; intros h Ss Q ts' h' W F A E.
  - injection E as <- <-. exists Ss, Q. split; [exact F|]. split; [reflexivity|]. split; [split; [split; [lia|auto]|auto]|]. cbn. split; [lia|auto].
  - injection E as <- <-. exists Ss, Q. split; [exact F|]. split; [reflexivity|]. split; [split; [split; [lia|auto]|auto]|]. cbn. split; [lia|auto].
  - cbn [merge_round] in E. apply TriProofs.rbind_ok in E as ((t & h1) & E1 & E).
    apply TriProofs.rbind_ok in E as ((ts1 & h2) & E2 & E). injection E as <- <-.
    inversion F as [|S1 Ss1 ? ? P1 m1 Q1 C1 F1 D1]; subst. inversion F1 as [|S2 Ss2 ? ? P2 m2 Q2 C2 F2 D2]; subst.
    cbn [concat] in A. rewrite app_assoc in A. destruct (asc_app _ _ _ A) as (A12 & A3 & _). destruct (asc_app _ _ _ A12) as (A1 & A2 & A12').
    destruct (between (List.map (phi ep) S1) (List.map (phi ep) S2)) as (tau & T1 & T2).
    { intros x y Hx Hy. apply in_map_iff in Hx as (x' & <- & Hx), Hy as (y' & <- & Hy). auto. }
    destruct (merge_spec S1 S2 ep tau m1 m2 (fun q Hq => T1 _ (in_map _ _ _ Hq)) (fun q Hq => T2 _ (in_map _ _ _ Hq))
      (asc_inj _ _ A1) (asc_inj _ _ A2) fuel h P1 P2 a b t h1 C1 C2 E1) as (P' & m' & C' & Fr & Nv & _).
    pose proof Fr as (f1 & f2 & f3 & f4).
    assert (F3 : forest ep h1 Ss2 ts Q2).
    { apply (forest_frame ep h Ss2 ts Q2 (fun d => P1 d \/ P2 d)); auto. intros d Hd [h0|h0]; [apply (D1 d h0); auto|apply (D2 d h0 Hd)]. }
    destruct (IH h1 Ss2 Q2 ts1 h2 f2 F3 A3 E2) as (Ss' & Q' & F' & Ec & (Fr' & Nv') & Len & _). pose proof Fr' as (g1 & g2 & g3 & g4).
    assert (V : forall x, valid h x -> valid h1 x) by (unfold valid; intros; lia).
    exists ((S1 ++ S2) :: Ss'), (fun d => P' d \/ Q' d). split; [|split; [|split; [|split]]].
    + apply (forest_cons ep h2 _ _ t ts1 P' m' Q'); [|exact F'|].
      * apply (comp_frame h1 Q2); auto. intros d Hd Hq. destruct (Nv d Hd) as [[h0|h0]|h0].
        -- apply (D1 d h0); auto.
        -- apply (D2 d h0 Hq).
        -- apply h0, (forest_live _ _ _ _ _ _ F2 Hq).
      * intros d Hd Hq. destruct (Nv' d Hq) as [h0|h0].
        -- destruct (Nv d Hd) as [[h1'|h1']|h1'].
           ++ apply (D1 d h1'); auto.
           ++ apply (D2 d h1' h0).
           ++ apply h1', (forest_live _ _ _ _ _ _ F2 h0).
        -- apply h0, (rp_live _ _ _ _ (c_rep _ _ _ _ _ _ C') d Hd).
    + cbn [concat]. rewrite Ec, app_assoc. reflexivity.
    + split.
      * split; [lia|]. split; [exact g2|]. split.
        -- intros x Lx Nx. pose proof Lx as (Vx & Px). rewrite g3, f3; auto; try tauto. split; auto.
        -- intros x Vx. rewrite g4, f4; auto.
      * intros d [Hd|Hd].
        -- destruct (Nv d Hd) as [[h0|h0]|h0]; auto.
        -- destruct (Nv' d Hd) as [h0|h0]; auto.
    + cbn [length]. lia.
    + discriminate.
Qed.
Lemma merge_rounds_spec ep fuel : forall k ts h Ss Q ts' h', wf h -> forest ep h Ss ts Q -> asc ep (concat Ss) ->
  merge_rounds fuel k h ts = Ok (ts', h') -> (length ts <= 2 ^ k)%nat -> ts <> [] ->
  exists P m t, ts' = [t] /\ comp h' P (concat Ss) m ep t.
Proof.
  induction k as [|k IH]; intros ts h Ss Q ts' h' W F A E L N.
  - injection E as <- <-. inversion F as [|S1 Ss1 t ts1 P m Q1 C F1 D]; subst; [congruence|].
    inversion F1; subst; [|cbn in L; lia]. exists P, m, t. split; [reflexivity|]. cbn [concat]. rewrite app_nil_r. exact C.
  - cbn [merge_rounds] in E. apply TriProofs.rbind_ok in E as ((ts1 & h1) & E1 & E).
    destruct (merge_round_spec ep fuel ts h Ss Q ts1 h1 W F A E1) as (Ss1 & Q1 & F1 & Ec & (Fr & _) & Len & Nn).
    pose proof Fr as (_ & f2 & _). rewrite <- Ec in A |- *.
    apply (IH ts1 h1 Ss1 Q1 ts' h' f2 F1 A E); auto. cbn [Nat.pow] in L. lia.
Qed.

Lemma slices_concat {A} : forall sizes (l : list A), fold_right Nat.add 0%nat sizes = length l -> concat (slices l sizes) = l.
Proof.
  induction sizes as [|n sizes IH]; intros l E; cbn [slices concat].
  - destruct l; [reflexivity|discriminate E].
  - rewrite IH, firstn_skipn; [reflexivity|]. rewrite skipn_length. cbn in E. lia.
Qed.
Lemma slices_asc ep : forall sizes l, asc ep l -> Forall (asc ep) (slices l sizes).
Proof.
  induction sizes as [|n sizes IH]; intros l A; cbn [slices]; constructor.
  - rewrite <- (firstn_skipn n l) in A. apply asc_app in A. apply A.
  - apply IH. rewrite <- (firstn_skipn n l) in A. apply asc_app in A. apply A.
Qed.
Lemma initialize_all_length : forall parts h ts h', initialize_all h parts = Ok (ts, h') -> length ts = length parts.
Proof.
  induction parts as [|p parts IH]; intros h ts h' E; cbn [initialize_all] in E; [injection E as <- <-; reflexivity|].
  apply TriProofs.rbind_ok in E as ((t & h1) & E1 & E). apply TriProofs.rbind_ok in E as ((ts1 & h2) & E2 & E). injection E as <- <-.
  cbn. f_equal. eauto.
Qed.

Lemma delaunay_two ctx points t h : delaunay ctx points = Ok (t, h) -> (2 <= length points)%nat.
Proof.
  intros E. destruct (Nat.le_gt_cases 2 (length points)) as [L|L]; [exact L|]. exfalso. unfold delaunay in E. rewrite isort_length in E.
  pose proof (isort_length point_leb points) as L'. destruct (ctx_coins ctx (length points)) as [|c coins].
  - cbn in E. discriminate E.
  - cbn [slices initialize_all] in E. apply TriProofs.rbind_ok in E as ((ts & h1) & E1 & _).
    apply TriProofs.rbind_ok in E1 as ((t1 & h2) & E1 & _).
    assert (K : (length (firstn c (isort point_leb points)) < 2)%nat) by (rewrite firstn_length; lia).
    destruct (firstn c (isort point_leb points)) as [|x [|y l]]; [discriminate E1|discriminate E1|cbn in K; lia].
Qed.
Theorem delaunay_spec ctx points t h : NoDup points -> ((2 <= length points)%nat -> is_change (length points) (ctx_coins ctx (length points))) ->
  delaunay ctx points = Ok (t, h) -> exists ep P m, asc ep (isort point_leb points) /\ comp h P (isort point_leb points) m ep t.
Proof.
  intros N Hc E. specialize (Hc (delaunay_two _ _ _ _ E)). destruct Hc as (Hc & _). unfold delaunay in E. rewrite isort_length in E. set (pts := isort point_leb points) in *.
  pose proof (isort_points_strict points N) as St. fold pts in St.
  destruct (faithful_exists pts) as (ep & Fe). exists ep.
  assert (A : asc ep pts).
  { unfold asc, faithful in *. clear -St Fe. induction St as [|x l St IH Hf]; constructor.
    - apply IH. intros p q Hp Hq. apply Fe; cbn; auto.
    - rewrite Forall_forall in *. intros y Hy. apply Fe; cbn; auto. }
  apply TriProofs.rbind_ok in E as ((ts & h1) & E1 & E). apply TriProofs.rbind_ok in E as ((ts' & h2) & E2 & E).
  assert (Ec : concat (slices pts (ctx_coins ctx (length points))) = pts).
  { apply slices_concat. unfold pts. rewrite isort_length. exact Hc. }
  destruct (initialize_all_spec ep _ _ _ _ (wf_empty _) (slices_asc ep _ _ A) E1) as (Q & F & Fr & _). pose proof Fr as (_ & f2 & _).
  assert (Nt : ts <> []).
  { intros ->. cbn in E2. injection E2 as <- <-. discriminate E. }
  assert (Ls : (length ts <= 2 ^ Z.to_nat (ceil_log2 (Z.of_nat (length ts))))%nat).
  { destruct ts as [|t0 ts0]; [congruence|]. destruct (ceil_log2_spec (Z.of_nat (length (t0 :: ts0)))) as (z1 & z2 & _); [cbn [length]; lia|].
    apply Nat2Z.inj_le. rewrite Nat2Z.inj_pow. rewrite Z2Nat.id by exact z1. exact z2. }
  rewrite <- Ec in A at 1.
  destruct (merge_rounds_spec ep _ _ ts h1 _ Q ts' h2 f2 F A E2 Ls Nt) as (P & m & t0 & -> & C).
  injection E as <- <-. rewrite Ec in A, C. exists P, m. auto.
Qed.
