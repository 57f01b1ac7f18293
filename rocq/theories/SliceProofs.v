(** Geometries drawn from consecutive slices of sorted coordinates. *)
From Coq Require Import Sorting.Sorted.
From Verif Require Import Base Prog Geometry Ctx Utils Contracts Factories Strategies Spec MixSpec QcTac ProgProofs GeomProofs
  ListProofs PrimeProofs SimpleProofs SegmentProofs EdgeProofs HelperProofs ReferenceProofs SeparationProofs MultiProofs.

(** ** Cutting strictly sorted coordinates. *)
Lemma cut_line k : forall (l : list Qc) b, StronglySorted Qclt l -> (forall x, In x l -> (b <= x)%Qc) ->
  exists c, (b <= c)%Qc /\ (forall x, In x (firstn (S k) l) -> (x <= c)%Qc) /\
    (forall y, In y (skipn k l) -> (c <= y)%Qc) /\ (forall y, In y (skipn (S k) l) -> (c < y)%Qc).
Proof.
  induction k as [|k IH]; intros l b Hs Hb.
  - destruct l as [|x l]; [exists b; split; [apply Qcle_refl|cbn; tauto]|].
    exists x. split; [apply Hb; left; reflexivity|]. inversion Hs as [|? ? Hs' Hf]; subst. rewrite Forall_forall in Hf.
    cbn [firstn skipn]. split; [intros y [<- |[]]; apply Qcle_refl|]. split; [|exact Hf].
    intros y [<- |Hy]; [apply Qcle_refl|apply Qclt_le_weak, Hf, Hy].
  - destruct l as [|x l]; [exists b; split; [apply Qcle_refl|cbn; tauto]|].
    inversion Hs as [|? ? Hs' Hf]; subst. rewrite Forall_forall in Hf.
    destruct (IH l x Hs') as (c & Hc & H1 & H2 & H3); [intros y Hy; apply Qclt_le_weak, Hf, Hy|].
    exists c. assert (b <= x)%Qc by (apply Hb; left; reflexivity). split; [qcl|].
    change (firstn (S (S k)) (x :: l)) with (x :: firstn (S k) l). change (skipn (S k) (x :: l)) with (skipn k l).
    change (skipn (S (S k)) (x :: l)) with (skipn (S k) l). split; [|split; [exact H2|exact H3]].
    intros y [<- |Hy]; [exact Hc|apply H1, Hy].
Qed.
Lemma skipn_incl {A} (l : list A) m n : m <= n -> incl (skipn n l) (skipn m l).
Proof.
  intros H x Hx. replace n with ((n - m) + m) in Hx by lia.
  assert (E : skipn (n - m + m) l = skipn (n - m) (skipn m l)).
  { clear. generalize (n - m). intros k. revert l. induction m as [|m IH]; intros l; [rewrite Nat.add_0_r; reflexivity|].
    rewrite Nat.add_succ_r. destruct l as [|y l]; [cbn; rewrite skipn_nil; reflexivity|]. apply IH. }
  rewrite E in Hx. eapply skipn_in, Hx.
Qed.
Lemma firstn_incl {A} (l : list A) m n : m <= n -> incl (firstn m l) (firstn n l).
Proof.
  intros H x Hx. replace m with (Nat.min m n) in Hx by lia. rewrite <- firstn_firstn in Hx.
  apply firstn_in in Hx. exact Hx.
Qed.
(** A geometry takes at most [n] coordinates, the next one starts [t] coordinates earlier. *)
Lemma cut_line_py (l : list Qc) b n t : StronglySorted Qclt l -> (forall x, In x l -> (b <= x)%Qc) ->
  (1 <= n)%Z -> (0 <= t <= 1)%Z ->
  exists c, (b <= c)%Qc /\ (forall m x, (0 <= m <= n)%Z -> In x (py_take l m) -> (x <= c)%Qc) /\
    (forall y, In y (py_drop l (n - t)) -> (c <= y)%Qc) /\ (t = 0%Z -> forall y, In y (py_drop l (n - t)) -> (c < y)%Qc).
Proof.
  intros Hs Hb Hn Ht. destruct (cut_line (Z.to_nat (n - 1)) l b Hs Hb) as (c & H0 & H1 & H2 & H3).
  exists c. split; [exact H0|]. split; [|split].
  - intros m x Hm Hx. apply H1. rewrite take_pos in Hx by lia. eapply firstn_incl; [|exact Hx]. lia.
  - intros y Hy. apply H2. rewrite drop_pos in Hy by lia. eapply skipn_incl; [|exact Hy]. lia.
  - intros -> y Hy. apply H3. rewrite drop_pos in Hy by lia. replace (S (Z.to_nat (n - 1))) with (Z.to_nat (n - 0)) by lia. exact Hy.
Qed.
Lemma drop_above (l : list Qc) b n : StronglySorted Qclt l -> (forall x, In x l -> (b <= x)%Qc) ->
  (1 <= n)%Z -> forall y, In y (py_drop l n) -> (b < y)%Qc.
Proof.
  intros Hs Hb Hn y Hy. destruct (cut_line_py l b n 0 Hs Hb Hn ltac:(lia)) as (c & H0 & _ & _ & H).
  specialize (H eq_refl y). rewrite Z.sub_0_r in H. specialize (H Hy). qcl.
Qed.
Lemma isort_strict (l : list Qc) : NoDup l -> StronglySorted Qclt (isort qleb l).
Proof.
  intros Hn. assert (Hp : Permutation l (isort qleb l)) by apply isort_perm.
  assert (Hs : StronglySorted (le qleb) (isort qleb l)).
  { apply isort_sorted.
    - intros x y. rewrite !qleb_le. destruct (Qclt_le_dec x y); [left; apply Qclt_le_weak; assumption|right; assumption].
    - intros x y z. rewrite !qleb_le. apply Qcle_trans. }
  apply (Permutation_NoDup Hp) in Hn. revert Hn Hs. generalize (isort qleb l). clear. intros l. induction l as [|x l IH]; intros Hn Hs.
  - constructor.
  - inversion Hn; subst. inversion Hs as [|? ? Hs' Hf]; subst. constructor; [apply IH; assumption|].
    rewrite Forall_forall in *. intros y Hy. specialize (Hf y Hy). unfold le in Hf. apply qleb_le in Hf.
    apply Qcle_lt_or_eq in Hf. destruct Hf as [Hf|Hf]; [exact Hf|]. congruence.
Qed.

(** ** Points of segments relative to a line. *)
Lemma coordinate_on a p s e : on_segment p s e -> exists t, (0 <= t)%Qc /\ (t <= 1)%Qc /\
  coordinate_along a p = (coordinate_along a s + t * (coordinate_along a e - coordinate_along a s))%Qc.
Proof. intros (t & H0 & H1 & Hx & Hy). exists t. split; [exact H0|]. split; [exact H1|]. destruct a; assumption. Qed.
Lemma on_below a p s e c : on_segment p s e -> (coordinate_along a s <= c)%Qc -> (coordinate_along a e <= c)%Qc -> (coordinate_along a p <= c)%Qc.
Proof. intros H Hs He. destruct (coordinate_on a _ _ _ H) as (t & T0 & T1 & ->). qcn. Qed.
Lemma on_above a p s e c : on_segment p s e -> (c <= coordinate_along a s)%Qc -> (c <= coordinate_along a e)%Qc -> (c <= coordinate_along a p)%Qc.
Proof. intros H Hs He. destruct (coordinate_on a _ _ _ H) as (t & T0 & T1 & ->). qcn. Qed.
Lemma on_above_lt a p s e c : on_segment p s e -> (c < coordinate_along a s)%Qc -> (c < coordinate_along a e)%Qc -> (c < coordinate_along a p)%Qc.
Proof.
  intros H Hs He. destruct (Qclt_le_dec (coordinate_along a s) (coordinate_along a e)) as [L|L].
  - pose proof (on_above a p s e (coordinate_along a s) H (Qcle_refl _) (Qclt_le_weak _ _ L)). qcl.
  - pose proof (on_above a p s e (coordinate_along a e) H L (Qcle_refl _)). qcl.
Qed.
Lemma inside_ratio p s e : inside p s e -> exists t, (0 < t)%Qc /\ (t < 1)%Qc /\
  px p = (px s + t * (px e - px s))%Qc /\ py p = (py s + t * (py e - py s))%Qc.
Proof.
  intros ((t & H0 & H1 & Hx & Hy) & Ns & Ne). exists t. split; [|split; [|auto]].
  - apply Qcle_lt_or_eq in H0. destruct H0 as [H0|H0]; [exact H0|]. subst t. exfalso. apply Ns.
    apply point_ext; [rewrite Hx|rewrite Hy]; ring.
  - apply Qcle_lt_or_eq in H1. destruct H1 as [H1|H1]; [exact H1|]. subst t. exfalso. apply Ne.
    apply point_ext; [rewrite Hx|rewrite Hy]; ring.
Qed.
Lemma inside_at a p s e c : inside p s e -> (coordinate_along a s <= c)%Qc -> (coordinate_along a e <= c)%Qc -> coordinate_along a p = c ->
  coordinate_along a s = c /\ coordinate_along a e = c.
Proof.
  intros H Hs He Hp. destruct (inside_ratio _ _ _ H) as (t & T0 & T1 & Hx & Hy).
  assert (E : coordinate_along a p = (coordinate_along a s + t * (coordinate_along a e - coordinate_along a s))%Qc) by (destruct a; assumption).
  rewrite Hp in E. clear Hp Hx Hy H.
  assert (E' : ((1 - t) * (c - coordinate_along a s) + t * (c - coordinate_along a e) = 0)%Qc) by (rewrite E at 1 2; ring).
  split; apply Qcle_antisym; try assumption; apply Qcnot_lt_le; intros L.
  - assert (0 < (1 - t) * (c - coordinate_along a s))%Qc by qcn. assert (0 <= t * (c - coordinate_along a e))%Qc by qcn. qcl.
  - assert (0 <= (1 - t) * (c - coordinate_along a s))%Qc by qcn. assert (0 < t * (c - coordinate_along a e))%Qc by qcn. qcl.
Qed.
(** Segments on the two sides of a line, the first of them not lying along it. *)
Lemma sides_apart a c s e s' e' : (coordinate_along a s <= c)%Qc -> (coordinate_along a e <= c)%Qc ->
  (c <= coordinate_along a s')%Qc -> (c <= coordinate_along a e')%Qc ->
  (coordinate_along a s <> c \/ coordinate_along a e <> c) -> ~ interiors_meet (Seg s e) (Seg s' e').
Proof.
  intros H1 H2 H3 H4 N (p & Hp & Hq). cbn [seg_start seg_end] in *.
  assert (coordinate_along a p = c).
  { apply Qcle_antisym; [eapply on_below; [apply Hp|assumption..]|eapply on_above; [apply Hq|assumption..]]. }
  destruct (inside_at _ _ _ _ _ Hp H1 H2 H). tauto.
Qed.
Lemma sides_apart_lt a c s e s' e' : (coordinate_along a s <= c)%Qc -> (coordinate_along a e <= c)%Qc ->
  (c < coordinate_along a s')%Qc -> (c < coordinate_along a e')%Qc -> ~ interiors_meet (Seg s e) (Seg s' e').
Proof.
  intros H1 H2 H3 H4 (p & Hp & Hq). cbn [seg_start seg_end] in *.
  assert (coordinate_along a p <= c)%Qc by (eapply on_below; [apply Hp|assumption..]).
  assert (c < coordinate_along a p)%Qc by (eapply on_above_lt; [apply Hq|assumption..]). qcl.
Qed.
Lemma blocks_touch_false a l : blocks_touch a l = Ok false ->
  forall c, (forall t, In t l -> (coordinate_along a (seg_start t) <= c)%Qc /\ (coordinate_along a (seg_end t) <= c)%Qc) ->
  forall s, In s l -> coordinate_along a (seg_start s) <> c \/ coordinate_along a (seg_end s) <> c.
Proof. destruct a; [apply vertical_leftmost_false|apply horizontal_lowermost_false]. Qed.

(** ** Drawing from a slice. *)
Lemma drawable_sampled l q : drawable (Sampled l) q <-> In q l.
Proof. apply gen_sampled_from. Qed.
Definition scalars_of (a : axis) (xs ys : scalars) : scalars := match a with AxisX => xs | AxisY => ys end.
Lemma sliced_drawable a l xs ys p : (forall x, In x l -> drawable (scalars_of a xs ys) x) ->
  drawable_point (fst (sliced a l xs ys)) (Some (snd (sliced a l xs ys))) p ->
  In (coordinate_along a p) l /\ drawable_point xs (Some ys) p.
Proof.
  intros Hl (Hx & Hy). cbn [ordinates] in Hy. unfold drawable_point. cbn [ordinates].
  destruct a; cbn [sliced fst snd coordinate_along scalars_of] in *.
  - apply (proj1 (drawable_sampled _ _)) in Hx. auto.
  - apply (proj1 (drawable_sampled _ _)) in Hy. auto.
Qed.

(** What is drawn for one polygon of a multipolygon or a mix. *)
Lemma slice_polygon_spec ctx a xs ys mn mx hmn hmx smn smx l p : (1 <= smn)%Z ->
  (forall x, In x l -> drawable (scalars_of a xs ys) x) ->
  generates (slice_polygon ctx a xs ys mn mx hmn hmx smn smx l) p ->
  polygon_sizes p mn mx hmn hmx smn smx /\
  (forall q, In q (vertices p) -> In (coordinate_along a q) l /\ drawable_point xs (Some ys) q).
Proof.
  intros Hc Hl H. unfold slice_polygon in H. destruct (sliced a l xs ys) as (sx & sy) eqn:E.
  apply polygon_strategy_spec in H; [|exact Hc]. destruct H as (H1 & H2 & H3 & H4 & H5 & _).
  split; [split; [exact H1|split; [exact H2|exact H3]]|].
  intros q Hq. apply sliced_drawable; [exact Hl|]. rewrite E. cbn [fst snd]. unfold vertices in Hq. apply in_app_or in Hq.
  destruct Hq as [Hq|Hq]; [apply H4, Hq|]. apply in_concat in Hq. destruct Hq as (vs & Hv & Hq). eapply H5; eassumption.
Qed.
Lemma border_edge_vertices (p : polygon) s : In s (contour_segments (border p)) ->
  contour_edge (border p) (seg_start s) (seg_end s) /\ In (seg_start s) (vertices p) /\ In (seg_end s) (vertices p).
Proof.
  intros H. assert (E : contour_edge (border p) (seg_start s) (seg_end s)).
  { apply segments_edge. destruct s. exact H. }
  split; [exact E|]. apply edge_in in E. unfold vertices. split; apply in_or_app; left; apply E.
Qed.
