(** The start of the merge, and the sides of the merged triangulation. *)
From Coq Require Import List Lia.
From Verif Require Import Base Geometry Spec QcTac QcFast GeomProofs DelGeo DelCyc DelMap DelFan DelOps DelMir DelCand DelMerge DelTangent.
Import ListNotations.
Open Scope Qc_scope.

(** Both maps side by side. *)
Definition union (L : list point) (mL mR : map) : map := Map
  (fun v a => me mL v a \/ me mR v a)
  (fun v => if in_dec point_eq_dec v L then mn mL v else mn mR v)
  (fun v => if in_dec point_eq_dec v L then mp mL v else mp mR v).

Section U.
Context (L R : list point) (ep tau : Qc) (mL mR : map).
Context (HL : forall q, In q L -> phi ep q < tau) (HR : forall q, In q R -> tau < phi ep q).
Context (WL : laws L mL) (WR : laws R mR).
Lemma apart x : In x L -> In x R -> False.
Proof. intros h1 h2. specialize (HL _ h1). specialize (HR _ h2). ql. Qed.
Lemma union_L v : In v L -> mn (union L mL mR) v = mn mL v /\ mp (union L mL mR) v = mp mL v /\ (forall a, me (union L mL mR) v a <-> me mL v a).
Proof.
  intros H. cbn [union me mn mp]. destruct (in_dec point_eq_dec v L); [|contradiction]. repeat split; auto.
  intros [h|h]; [exact h|]. exfalso. apply (apart v H), (l_in _ _ WR _ _ h).
Qed.
Lemma union_R v : In v R -> mn (union L mL mR) v = mn mR v /\ mp (union L mL mR) v = mp mR v /\ (forall a, me (union L mL mR) v a <-> me mR v a).
Proof.
  intros H. cbn [union me mn mp]. destruct (in_dec point_eq_dec v L) as [h|_]; [exfalso; exact (apart v h H)|]. repeat split; auto.
  intros [h|h]; [|exact h]. exfalso. apply (apart v); [apply (l_in _ _ WL _ _ h)|exact H].
Qed.
Lemma union_laws : laws (L ++ R) (union L mL mR).
Proof.
  apply laws_of.
  - intros v. destruct (in_dec point_eq_dec v L) as [h|h].
    + destruct (union_L v h) as (-> & -> & e). apply (ring_iff v (me mL v)); [apply (laws_ring _ _ WL)|exact e].
    + destruct (in_dec point_eq_dec v R) as [h'|h'].
      * destruct (union_R v h') as (-> & -> & e). apply (ring_iff v (me mR v)); [apply (laws_ring _ _ WR)|exact e].
      * assert (N : forall a, ~ me (union L mL mR) v a).
        { intros a [g|g]; [apply h, (l_in _ _ WL _ _ g)|apply h', (l_in _ _ WR _ _ g)]. }
        split; intros; exfalso; eapply N; eassumption.
  - intros v a [h|h]; [left; apply (l_sym _ _ WL), h|right; apply (l_sym _ _ WR), h].
  - intros v a [h|h]; apply in_app_iff; [left; apply (l_in _ _ WL _ _ h)|right; apply (l_in _ _ WR _ _ h)].
  - intros v a q [h|h] Hq B; apply in_app_iff in Hq as [Hq|Hq].
    + apply (l_clean _ _ WL v a q h Hq B).
    + specialize (HR _ Hq). pose proof (btw_phi ep tau v a q B (HL _ (l_in _ _ WL _ _ h)) (HL _ (e_in2 _ _ WL _ _ h))). ql.
    + specialize (HL _ Hq). pose proof (btw_phi' ep tau v a q B (HR _ (l_in _ _ WR _ _ h)) (HR _ (e_in2 _ _ WR _ _ h))). ql.
    + apply (l_clean _ _ WR v a q h Hq B).
  - intros a b c d [h|h] [h'|h'].
    + apply (l_planar _ _ WL); auto.
    + apply (phi_apart ep tau); auto; [apply HL, (l_in _ _ WL _ _ h)|apply HL, (e_in2 _ _ WL _ _ h)|apply HR, (l_in _ _ WR _ _ h')|apply HR, (e_in2 _ _ WR _ _ h')].
    + intros X. apply crossing_sym in X. revert X.
      apply (phi_apart ep tau); [apply HL, (e_in2 _ _ WL _ _ h')|apply HL, (l_in _ _ WL _ _ h')|apply HR, (l_in _ _ WR _ _ h)|apply HR, (e_in2 _ _ WR _ _ h)].
    + apply (l_planar _ _ WR); auto.
Qed.
End U.

Section B.
Context (L R : list point) (ep tau : Qc) (mL mR : map).
Context (HL : forall q, In q L -> phi ep q < tau) (HR : forall q, In q R -> tau < phi ep q).
Context (TL : DT L mL) (TR : DT R mR).
Context (injL : forall a b, In a L -> In b L -> phi ep a = phi ep b -> a = b).
Context (injR : forall a b, In a R -> In b R -> phi ep a = phi ep b -> a = b).
Notation S := (L ++ R).
Let WL := d_laws _ _ TL.
Let WR := d_laws _ _ TR.

Definition first_map (l y r z : point) : map := ins (union L mL mR) r l (mp mR r z) y.
Lemma farL r : In r R -> forall q, In q L -> phi ep q < phi ep r.
Proof. intros h q Hq. specialize (HL _ Hq). specialize (HR _ h). ql. Qed.
Lemma farR l : In l L -> forall q, In q R -> phi ep l < phi ep q.
Proof. intros h q Hq. specialize (HR _ Hq). specialize (HL _ h). ql. Qed.

Context (l y r z : point) (Ls : lside L mL ep l y r) (Rs : rside R mR ep r z l).
Context (C1 : cross l y r <= 0) (C2 : 0 <= cross r z l).
Let Hl : In l L := l_in _ _ WL _ _ (proj1 Ls).
Let Hr : In r R := l_in _ _ WR _ _ (proj1 Rs).
Lemma base_below q : In q S -> 0 <= cross l r q /\ ~ btw q l r.
Proof.
  intros Hq. apply in_app_iff in Hq as [Hq|Hq].
  - apply (lside_exit L mL ep TL injL l y r); auto. apply farL, Hr.
  - apply (rside_exit R mR ep TR injR r z l); auto. apply farR, Hl.
Qed.
Lemma first_inv : inv L R mL mR (first_map l y r z) l r [].
Proof.
  pose proof (union_laws L R ep tau mL mR HL HR WL WR) as WU.
  destruct (union_L L R ep tau mL mR HL HR WR l Hl) as (un1 & _ & ue1).
  destruct (union_R L R ep tau mL mR HL HR WL r Hr) as (un2 & up2 & ue2).
  pose proof Ls as (E1 & _). pose proof Rs as (E2 & _). destruct (l_prev _ _ WR _ _ E2) as (E3 & E4).
  assert (Nrl : r <> l) by (intros e; apply (apart L R ep tau HL HR l); [exact Hl|rewrite <- e; exact Hr]).
  split.
  - apply laws_ins; auto.
    + apply in_app_iff; auto.
    + apply in_app_iff; auto.
    + intros h. apply ue2 in h. apply (apart L R ep tau HL HR l); [exact Hl|]. apply (e_in2 _ _ WR _ _ h).
    + apply ue2, E3.
    + apply ue1, E1.
    + rewrite un2, E4. apply (rside_place R mR ep TR injR r z l); auto. apply farR, Hl.
    + rewrite un1. apply (lside_place L mL ep TL injL l y r); auto. apply farL, Hr.
    + intros q Hq B. apply (base_below q Hq), btw_sym, B.
    + intros u v h (c & _). destruct (base_below u (l_in _ _ WU _ _ h)) as (b1 & _). rewrite (cross_flip l r) in c. ql.
  - apply ch_bottom; auto; [|intros q Hq; apply base_below, Hq]. right. right. auto.
  - intros v a [[h|h]|[(-> & ->)|(-> & ->)]]; [auto|auto| |]; right; right; [right|left]; left; reflexivity.
  - intros v a h. left. left. left. exact h.
  - intros v a h. left. left. right. exact h.
Qed.
End B.

(** ** The sides *)
Definition left_ok (S : list point) (m : map) (ep : Qc) (x y : point) : Prop :=
  me m x y /\ (forall q, In q S -> q <> x -> phi ep x < phi ep q) /\ (forall q, In q S -> 0 <= cross x y q).
Definition right_ok (S : list point) (m : map) (ep : Qc) (x y : point) : Prop :=
  me m x y /\ (forall q, In q S -> q <> x -> phi ep q < phi ep x) /\ (forall q, In q S -> cross x y q <= 0).
Lemma right_lside S m ep x y r : DT S m -> right_ok S m ep x y -> lside S m ep x y r.
Proof. intros T (H & M & A). split; [exact H|]. split; [apply gap_here; auto|auto]. Qed.
Lemma left_mir S m ep x y : left_ok S m ep x y -> right_ok (List.map mir S) (mirm m) (- ep) (mir x) (mir y).
Proof.
  intros (H & M & A). split; [cbn [mirm me]; rewrite !mir_mir; exact H|]. split.
  - intros q Hq Nq. apply in_mir in Hq. rewrite <- (mir_mir q), !phi_mir.
    assert (phi ep x < phi ep (mir q)); [|ql]. apply M; auto. intros e. apply Nq. rewrite <- e, mir_mir. reflexivity.
  - intros q Hq. apply in_mir in Hq. rewrite <- (mir_mir q), cross_mir. specialize (A _ Hq). ql.
Qed.
Lemma left_rside S m ep x y l : DT S m -> left_ok S m ep x y -> rside S m ep x y l.
Proof.
  intros T H. apply rside_mir; [exact T|]. apply right_lside; [apply DT_mir, T|]. apply left_mir, H.
Qed.
Section E.
Context (L R : list point) (ep tau : Qc).
Context (HL : forall q, In q L -> phi ep q < tau) (HR : forall q, In q R -> tau < phi ep q).
Notation S := (L ++ R).
(** The first side of the left part stays, unless the base starts there. *)
Lemma below_left mL x y l r : laws L mL -> left_ok L mL ep x y -> In l L -> In r R -> l <> x ->
  (forall q, In q S -> 0 <= cross l r q) -> forall q, In q S -> 0 <= cross x y q /\ ~ btw q x y.
Proof.
  intros WL (H & M & A) Hl Hr N B q Hq. pose proof (l_in _ _ WL _ _ H) as Hx. pose proof (e_in2 _ _ WL _ _ H) as Hy.
  apply in_app_iff in Hq as [Hq|Hq]; [split; [auto|apply (l_clean _ _ WL); auto]|].
  split.
  2:{ intros b. pose proof (btw_phi ep tau x y q b (HL _ Hx) (HL _ Hy)). specialize (HR _ Hq). ql. }
  destruct (Qclt_le_dec (cross x y q) 0) as [h|h]; [exfalso|exact h].
  pose proof (M l Hl N) as P1. pose proof (M y Hy (l_ne _ _ WL _ _ H)) as P2.
  pose proof (HL _ Hl) as P3. pose proof (HR _ Hr) as P4. pose proof (HR _ Hq) as P5.
  set (d1 := phi ep y - phi ep x). set (d2 := phi ep r - phi ep l).
  assert (D1 : 0 < d1) by (unfold d1; ql). assert (D2 : 0 < d2) by (unfold d2; ql).
  pose proof (mul_nonneg (phi ep q - phi ep l) (d1 * cross l r x) ltac:(ql)) as M1.
  specialize (M1 (mul_nonneg _ _ (Qclt_le_weak _ _ D1) (B x ltac:(apply in_app_iff; auto)))).
  pose proof (mul_nonneg (phi ep l - phi ep x) (d1 * cross l r q) ltac:(ql)) as M2.
  specialize (M2 (mul_nonneg _ _ (Qclt_le_weak _ _ D1) (B q ltac:(apply in_app_iff; auto)))).
  pose proof (mul_neg (phi ep l - phi ep x) (d2 * cross x y q) ltac:(ql) (mul_neg _ _ D2 h)) as M3.
  pose proof (mul_nonneg (phi ep q - phi ep x) (d2 * cross x y l) ltac:(ql) (mul_nonneg _ _ (Qclt_le_weak _ _ D2) (A l Hl))) as M4.
  assert (K : (phi ep q - phi ep x) * (d2 * cross x y l) = - ((phi ep q - phi ep l) * (d1 * cross l r x))
    + (phi ep l - phi ep x) * (d2 * cross x y q) - (phi ep l - phi ep x) * (d1 * cross l r q)).
  { unfold d1, d2, phi, cross. ring. }
  ql.
Qed.
Lemma left_side_merged mL m x y l r : laws L mL -> DT S m -> left_ok L mL ep x y -> In l L -> In r R ->
  (forall q, In q S -> 0 <= cross l r q /\ ~ btw q l r) ->
  if point_eq_dec l x then left_ok S m ep l r else left_ok S m ep x y.
Proof.
  intros WL T LO Hl Hr B. pose proof LO as (H & M & A). pose proof (l_in _ _ WL _ _ H) as Hx. pose proof (e_in2 _ _ WL _ _ H) as Hy.
  assert (M' : forall q, In q S -> q <> x -> phi ep x < phi ep q).
  { intros q Hq Nq. apply in_app_iff in Hq as [Hq|Hq]; [auto|]. specialize (HL _ Hx). specialize (HR _ Hq). ql. }
  destruct (point_eq_dec l x) as [->|n].
  - split; [|split; [exact M'|intros q Hq; apply B, Hq]]. apply (hull_edge _ _ T); auto.
    + apply in_app_iff; auto.
    + apply in_app_iff; auto.
    + intros ->. specialize (HL _ Hx). specialize (HR _ Hr). ql.
    + intros q Hq. apply B, Hq.
    + intros q Hq. apply B, Hq.
  - pose proof (below_left mL x y l r WL LO Hl Hr n (fun q Hq => proj1 (B q Hq))) as X.
    split; [|split; [exact M'|intros q Hq; apply X, Hq]]. apply (hull_edge _ _ T); auto.
    + apply in_app_iff; auto.
    + apply in_app_iff; auto.
    + apply (l_ne _ _ WL _ _ H).
    + intros q Hq. apply X, Hq.
    + intros q Hq. apply X, Hq.
Qed.
End E.
Lemma right_side_merged L R ep tau mR m x y l r :
  (forall q, In q L -> phi ep q < tau) -> (forall q, In q R -> tau < phi ep q) ->
  laws R mR -> DT (L ++ R) m -> right_ok R mR ep x y -> In l L -> In r R ->
  (forall q, In q (L ++ R) -> 0 <= cross l r q /\ ~ btw q l r) ->
  if point_eq_dec r x then right_ok (L ++ R) m ep r l else right_ok (L ++ R) m ep x y.
Proof.
  intros HL HR WR T RO Hl Hr B. pose proof RO as (H & M & A). pose proof (l_in _ _ WR _ _ H) as Hx. pose proof (e_in2 _ _ WR _ _ H) as Hy.
  assert (M' : forall q, In q (L ++ R) -> q <> x -> phi ep q < phi ep x).
  { intros q Hq Nq. apply in_app_iff in Hq as [Hq|Hq]; [|auto]. specialize (HR _ Hx). specialize (HL _ Hq). ql. }
  destruct (point_eq_dec r x) as [->|n].
  - split; [|split; [exact M'|]].
    + apply (l_sym _ _ (d_laws _ _ T)), (hull_edge _ _ T).
      * apply in_app_iff; auto.
      * apply in_app_iff; auto.
      * intros ->. specialize (HL _ Hl). specialize (HR _ Hx). ql.
      * intros q Hq. apply B, Hq.
      * intros q Hq. apply B, Hq.
    + intros q Hq. rewrite cross_flip. destruct (B q Hq). ql.
  - assert (X : forall q, In q (L ++ R) -> cross x y q <= 0 /\ ~ btw q x y).
    { intros q Hq.
      destruct (below_left (List.map mir R) (List.map mir L) (- ep) (- tau)) with (mL := mirm mR) (x := mir x) (y := mir y) (l := mir r) (r := mir l) (q := mir q) as (x1 & x2).
      - intros p Hp. apply in_mir in Hp. specialize (HR _ Hp). rewrite <- (mir_mir p), phi_mir. ql.
      - intros p Hp. apply in_mir in Hp. specialize (HL _ Hp). rewrite <- (mir_mir p), phi_mir. ql.
      - apply laws_mir, WR.
      - split; [cbn [mirm me]; rewrite !mir_mir; exact H|]. split.
        + intros p Hp Np. apply in_mir in Hp. rewrite <- (mir_mir p), !phi_mir.
          assert (phi ep (mir p) < phi ep x); [|ql]. apply M; auto. intros e. apply Np. rewrite <- e, mir_mir. reflexivity.
        + intros p Hp. apply in_mir in Hp. rewrite <- (mir_mir p), cross_mir. specialize (A _ Hp). ql.
      - apply mir_in, Hr.
      - apply mir_in, Hl.
      - apply mir_neq, n.
      - intros p Hp. rewrite <- map_app in Hp. apply in_mir in Hp. rewrite <- (mir_mir p), cross_mir, cross_flip.
        destruct (B (mir p)) as (b & _); [|ql]. apply in_app_iff in Hp. apply in_app_iff. tauto.
      - rewrite <- map_app. apply mir_in. apply in_app_iff in Hq. apply in_app_iff. tauto.
      - rewrite cross_mir in x1. split; [ql|]. intros b. apply x2, btw_mir, b. }
    split; [|split; [exact M'|intros q Hq; apply X, Hq]].
    apply (l_sym _ _ (d_laws _ _ T)), (hull_edge _ _ T).
    + apply in_app_iff; auto.
    + apply in_app_iff; auto.
    + apply not_eq_sym, (l_ne _ _ WR _ _ H).
    + intros q Hq. rewrite cross_flip. destruct (X q Hq). ql.
    + intros q Hq b. apply (X q Hq), btw_sym, b.
Qed.
