(** Contours on different sides of a line bound regions without common points. *)
From Coq Require Import List Lia.
From Verif Require Import Base Prog Geometry Ctx Utils Contracts Factories Strategies Planar Spec MixSpec WindSpec RegionSpec ProgProofs QcTac QcFast GeomProofs
  EdgeProofs SegmentProofs SeparationProofs SliceProofs MultiProofs GeometryApiProofs CycEdge DelWind MultipolygonProofs MixProofs MixApiProofs WindProofs BorderProofs.
Import List ListNotations.
Local Open Scope Qc_scope.

(** ** Points beyond a contour. *)
Lemma zsum_none (f : point * point -> Z) l : (forall x, In x l -> f x = 0%Z) -> zsum (List.map f l) = 0%Z.
Proof. induction l as [|x l IH]; intros H; [reflexivity|]. cbn [List.map]. unfold zsum in *. cbn [fold_right]. rewrite IH, (H x (or_introl eq_refl)); [reflexivity|]. intros y Hy. apply H. right. exact Hy. Qed.
Lemma winding_none q vs : (forall a b, In a vs -> In b vs -> passes q a b = 0%Z) -> winding q vs = 0%Z.
Proof. intros H. rewrite winding_wsum. apply zsum_none. intros (a & b) Hab. apply ces_in in Hab. apply H; apply Hab. Qed.
Lemma right_none q a b : px a <= px q -> px b <= px q -> passes q a b = 0%Z.
Proof. intros H1 H2. unfold passes. rewrite (qltb_no _ _ H1), (qltb_no _ _ H2). rewrite !andb_false_r. reflexivity. Qed.
Lemma qleb_no x y : y < x -> qleb x y = false.
Proof. intros H. destruct (qleb x y) eqn:E; [|reflexivity]. apply qleb_le in E. exfalso. ql. Qed.
Lemma left_none q a b : px q < px a -> px q < px b -> passes q a b = 0%Z.
Proof. intros H1 H2. unfold passes. rewrite (qleb_no _ _ H1), (qleb_no _ _ H2). reflexivity. Qed.
Lemma high_none q a b : py a < py q -> py b < py q -> passes q a b = 0%Z.
Proof.
  intros H1 H2. unfold passes.
  destruct (qleb (px b) (px q) && qltb (px q) (px a))%bool eqn:E.
  - apply andb_true_iff in E. destruct E as (E1 & E2). apply qleb_le in E1. apply qltb_lt in E2.
    rewrite (qltb_no 0 (cross a b q)) by (unfold cross; qn). rewrite (qleb_no (px a) (px q)) by exact E2. reflexivity.
  - destruct (qleb (px a) (px q) && qltb (px q) (px b))%bool eqn:F; [|reflexivity]. apply andb_true_iff in F. destruct F as (E1 & E2). apply qleb_le in E1. apply qltb_lt in E2.
    rewrite (qltb_no (cross a b q) 0) by (unfold cross; qn). reflexivity.
Qed.
Lemma left_of_all (vs : list point) : exists x, forall v, In v vs -> x < px v.
Proof.
  induction vs as [|v vs (x & IH)]; [exists 0; intros v []|]. destruct (Qclt_le_dec x (px v)) as [L|L].
  - exists x. intros u [<- |Hu]; [exact L|apply IH, Hu].
  - exists (px v - 1). intros u [<- |Hu]; [ql|]. specialize (IH u Hu). ql.
Qed.
(** A step away from the point. *)
Definition shifted (a : axis) (q : point) (d : Qc) : point := match a with AxisX => Pt (px q + d) (py q) | AxisY => Pt (px q) (py q + d) end.
Lemma shifted_on a q d x : on_segment x q (shifted a q d) -> x = q \/ (0 < d /\ coordinate_along a q < coordinate_along a x) \/ (d < 0 /\ coordinate_along a x < coordinate_along a q) \/ d = 0.
Proof.
  intros (t & T0 & T1 & X & Y). destruct (Qc_eq_dec t 0) as [->|n].
  - left. destruct x, q. cbn [Geometry.px Geometry.py] in *. f_equal; rewrite ?X, ?Y; ring.
  - right. assert (T : 0 < t) by (apply Qcnot_le_lt; intros L; apply n; ql).
    destruct (Qc_lt_eq_gt d 0) as [h|[h|h]]; [right; left|right; right|left]; try split; try assumption;
      destruct a; cbn [shifted coordinate_along Geometry.px Geometry.py] in *; [rewrite X|rewrite Y|rewrite X|rewrite Y]; qn.
Qed.
Lemma on_bound a vs c x : (forall v, In v vs -> coordinate_along a v <= c) -> on_contour x vs -> coordinate_along a x <= c.
Proof. intros H (u & v & E & O). apply edge_in in E. eapply on_below; [exact O|apply H, E..]. Qed.
Lemma on_bound' a vs c x : (forall v, In v vs -> c <= coordinate_along a v) -> on_contour x vs -> c <= coordinate_along a x.
Proof. intros H (u & v & E & O). apply edge_in in E. eapply on_above; [exact O|apply H, E..]. Qed.
Lemma beyond_after a vs q : (forall v, In v vs -> coordinate_along a v <= coordinate_along a q) -> ~ on_contour q vs -> winding q vs = 0%Z.
Proof.
  intros H N. rewrite (winding_move q (shifted a q 1)).
  - apply winding_none. intros u v Hu Hv. apply H in Hu, Hv. destruct a; cbn [shifted coordinate_along Geometry.px Geometry.py] in *; [apply right_none|apply high_none]; cbn [Geometry.px Geometry.py]; ql.
  - intros x O C. apply shifted_on in O. destruct O as [->|[(_ & O)|[(O & _)|O]]]; [exact (N C)| |revert O; ql|discriminate O].
    pose proof (on_bound a vs _ x H C). ql.
Qed.
Lemma beyond_before a vs q : (forall v, In v vs -> coordinate_along a q <= coordinate_along a v) -> ~ on_contour q vs -> winding q vs = 0%Z.
Proof.
  intros H N. rewrite (winding_move q (shifted a q (-(1)))).
  - destruct a; cbn [shifted coordinate_along Geometry.px Geometry.py] in *.
    + apply winding_none. intros u v Hu Hv. apply H in Hu, Hv. apply left_none; cbn [Geometry.px Geometry.py]; ql.
    + destruct (left_of_all vs) as (X & HX). set (p := Pt X (py q + - (1))). rewrite (winding_move _ p).
      * apply winding_none. intros u v Hu Hv. apply left_none; apply HX; assumption.
      * intros x O C. pose proof (on_below AxisY x _ _ (py q + -(1)) O ltac:(cbn; ql) ltac:(cbn; ql)) as B. cbn in B.
        pose proof (on_bound' AxisY vs _ x H C) as B'. cbn in B'. ql.
  - intros x O C. apply shifted_on in O. destruct O as [->|[(O & _)|[(_ & O)|O]]]; [exact (N C)|revert O; ql| |discriminate O].
    pose proof (on_bound' a vs _ x H C). ql.
Qed.

(** ** Regions. *)
Lemma split_regions vs ws : split_by_line vs ws -> regions_apart vs ws.
Proof.
  intros (a & c & H1 & H2). split; intros q (Q1 & Q2).
  - assert (L : coordinate_along a q < c). { apply Qcnot_le_lt. intros L. apply Q1, (beyond_after a); [|exact Q2]. intros v Hv. specialize (H1 v Hv). ql. }
    assert (Nq : ~ on_contour q ws) by (intros C; pose proof (on_bound' a ws c q H2 C); ql). split; [|exact Nq].
    apply (beyond_before a); [|exact Nq]. intros v Hv. specialize (H2 v Hv). ql.
  - assert (L : c < coordinate_along a q). { apply Qcnot_le_lt. intros L. apply Q1, (beyond_before a); [|exact Q2]. intros v Hv. specialize (H2 v Hv). ql. }
    assert (Nq : ~ on_contour q vs) by (intros C; pose proof (on_bound a vs c q H1 C); ql). split; [|exact Nq].
    apply (beyond_after a); [|exact Nq]. intros v Hv. specialize (H1 v Hv). ql.
Qed.
Lemma regions_sym vs ws : regions_apart vs ws -> regions_apart ws vs.
Proof. intros (A & B). split; assumption. Qed.
Lemma split_incl vs ws vs' ws' : incl vs' vs -> incl ws' ws -> split_by_line vs ws -> split_by_line vs' ws'.
Proof. intros A B (a & c & H1 & H2). exists a, c. split; intros x Hx; [apply H1, A, Hx|apply H2, B, Hx]. Qed.
Lemma parted_split vs ws : parted vs ws -> split_by_line vs ws.
Proof.
  intros (k & m & H1 & H2). exists (if k then AxisX else AxisY), (if k then px m else py m).
  assert (W : forall p q, kle k p q -> coordinate_along (if k then AxisX else AxisY) p <= coordinate_along (if k then AxisX else AxisY) q).
  { intros p q [X|X]; [|apply kpt_inj in X; subst; destruct k; cbn; ql]. destruct k; cbn [kpt] in X; destruct X as [X|(X & _)]; cbn [Geometry.px Geometry.py coordinate_along] in *; ql. }
  split; intros x Hx; [pose proof (W _ _ (H1 x Hx)) as Y|pose proof (W _ _ (H2 x Hx)) as Y]; destruct k; exact Y.
Qed.
Lemma parted_regions (l : list contour) : ForallOrdPairs parted l ->
  forall i j vs ws, nth_error l i = Some vs -> nth_error l j = Some ws -> i <> j -> regions_apart vs ws.
Proof.
  intros F. apply ordered_pairs_nth; [apply regions_sym|]. revert F. apply ForallOrdPairs_impl. intros x y H. apply split_regions, parted_split, H.
Qed.
Lemma multicontours_regions ctx xs ys mn mx cmn cmx w s mc :
  multicontours ctx xs ys mn mx cmn cmx = Ok (w, s) -> generates s mc ->
  forall i j vs ws, nth_error mc i = Some vs -> nth_error mc j = Some ws -> i <> j -> regions_apart vs ws.
Proof. intros H Hg. apply parted_regions, (multicontours_spec _ _ _ _ _ _ _ _ _ _ H Hg). Qed.
Lemma polygons_regions ctx xs ys mn mx hmn hmx smn smx w s p :
  polygons ctx xs ys mn mx hmn hmx smn smx = Ok (w, s) -> generates s p ->
  forall i j vs ws, nth_error (holes p) i = Some vs -> nth_error (holes p) j = Some ws -> i <> j -> regions_apart vs ws.
Proof. intros H Hg. apply parted_regions, (polygons_spec _ _ _ _ _ _ _ _ _ _ _ _ H Hg). Qed.

Lemma contours_incl (p : polygon) vs : In vs (border p :: holes p) -> incl vs (vertices p).
Proof. intros [<- |H] x Hx; unfold vertices; apply in_or_app; [left; exact Hx|right]. apply in_concat. exists vs. auto. Qed.
Lemma split_all p q : split_by_line (vertices p) (vertices q) \/ split_by_line (vertices q) (vertices p) ->
  forall vs ws, In vs (border p :: holes p) -> In ws (border q :: holes q) -> regions_apart vs ws.
Proof.
  intros [H|H] vs ws Hv Hw; [|apply regions_sym]; apply split_regions; (eapply split_incl; [| |exact H]; apply contours_incl; assumption).
Qed.
Lemma multipolygons_regions ctx xs ys mn mx bmn bmx hmn hmx smn smx w s ps :
  multipolygons ctx xs ys mn mx bmn bmx hmn hmx smn smx = Ok (w, s) -> generates s ps ->
  forall i j p q, nth_error ps i = Some p -> nth_error ps j = Some q -> i <> j ->
  forall vs ws, In vs (border p :: holes p) -> In ws (border q :: holes q) -> regions_apart vs ws.
Proof.
  intros H Hg i j p q Hi Hj n. apply split_all. apply (proj1 (multipolygons_apart _ _ _ _ _ _ _ _ _ _ _ _ _ _ H Hg) i j p q Hi Hj n).
Qed.
Lemma aside_outside p vs : aside p vs -> outside_of vs p.
Proof.
  intros H. assert (N : ~ on_contour p vs) by (intros (u & v & E & O); apply edge_in in E; revert O; apply (aside_segment p u v vs H); apply E).
  split; [|exact N]. destruct H as [(a & c & H1 & H2)|(a & c & H1 & H2)]; [apply (beyond_before a)|apply (beyond_after a)]; try exact N; intros v Hv.
  - specialize (H1 p (or_introl eq_refl)). specialize (H2 v Hv). ql.
  - specialize (H2 p (or_introl eq_refl)). specialize (H1 v Hv). ql.
Qed.
Lemma segment_outside s e q vs : split_by_line [s; e] vs \/ split_by_line vs [s; e] -> on_segment q s e -> on_contour q vs \/ outside_of vs q.
Proof.
  intros H O. assert (D : on_contour q vs \/ ~ on_contour q vs).
  { assert (X : forall l, (exists a b, In (a, b) l /\ on_segment q a b) \/ ~ (exists a b, In (a, b) l /\ on_segment q a b)).
    { induction l as [|(a & b) l [IH|IH]]; [right; intros (a & b & [] & _)|left; destruct IH as (x & y & I1 & I2); exists x, y; split; [right; exact I1|exact I2]|].
      destruct (ReferenceProofs.on_segment_b_spec q a b) as (Y1 & Y2). destruct (Reference.on_segment_b q a b) eqn:Eb.
      - left. exists a, b. split; [left; reflexivity|apply Y1; reflexivity].
      - right. intros (x & y & [E|I1] & I2); [injection E as -> ->; specialize (Y2 I2); discriminate|]. apply IH. exists x, y. auto. }
    destruct (X (ces vs)) as [(a & b & I1 & I2)|Y]; [left; exists a, b; split; [apply ces_edge, I1|exact I2]|]. right. intros (a & b & I1 & I2). apply Y. exists a, b. split; [apply ces_edge, I1|exact I2]. }
  destruct D as [D|D]; [left; exact D|]. right. split; [|exact D].
  destruct H as [(a & c & H1 & H2)|(a & c & H1 & H2)]; [apply (beyond_before a)|apply (beyond_after a)]; try exact D; intros v Hv.
  - pose proof (on_below a q s e c O (H1 s ltac:(cbn; auto)) (H1 e ltac:(cbn; auto))). specialize (H2 v Hv). ql.
  - pose proof (on_above a q s e c O (H2 s ltac:(cbn; auto)) (H2 e ltac:(cbn; auto))). specialize (H1 v Hv). ql.
Qed.
Lemma mixes_regions ctx xs ys pmn pmx gmn gmx qmn qmx mn mx hmn hmx smn smx w s m : (forall l, is_hull l (ctx_hull ctx l)) ->
  mixes ctx xs ys pmn pmx gmn gmx qmn qmx mn mx hmn hmx smn smx = Ok (w, s) -> generates s m ->
  (forall p q vs, In p (elements (discrete m)) -> In q (elements (shaped m)) -> In vs (border q :: holes q) -> outside_of vs p) /\
  (forall t q vs x, In t (elements (linear m)) -> In q (elements (shaped m)) -> In vs (border q :: holes q) -> on_segment x (seg_start t) (seg_end t) -> on_contour x vs \/ outside_of vs x) /\
  (forall i j p q, nth_error (elements (shaped m)) i = Some p -> nth_error (elements (shaped m)) j = Some q -> i <> j ->
   forall vs ws, In vs (border p :: holes p) -> In ws (border q :: holes q) -> regions_apart vs ws).
Proof.
  intros Hh H Hg. destruct (mixes_points_aside _ _ _ _ _ _ _ _ _ _ _ _ _ _ _ _ _ _ Hh H Hg) as (_ & _ & A).
  destruct (mixes_apart _ _ _ _ _ _ _ _ _ _ _ _ _ _ _ _ _ _ Hh H Hg) as (_ & _ & B & C). split; [|split].
  - intros p q vs Hp Hq Hv. apply aside_outside. destruct (A p q Hp Hq) as (As & _). pose proof (contours_incl q vs Hv) as I.
    destruct As as [(a & c & H1 & H2)|(a & c & H1 & H2)]; [left|right]; exists a, c; split; auto.
  - intros t q vs x Ht Hq Hv. apply segment_outside. pose proof (contours_incl q vs Hv) as I.
    destruct (B t q Ht Hq) as [X|X]; [left|right]; (eapply split_incl; [| |exact X]; auto using incl_refl).
  - intros i j p q Hi Hj n. apply split_all, (C i j p q Hi Hj n).
Qed.
(** A point inside a border is not on the border of another polygon, so the holes of all polygons are clear of other borders. *)
Lemma within_inside q vs : within q vs -> inside_of vs q.
Proof. intros (A & B). split; [rewrite A; discriminate|exact B]. Qed.
Lemma holes_clear p q : (forall vs x, In vs (holes p) -> on_contour x vs -> within x (border p)) -> regions_apart (border p) (border q) ->
  forall vs x, In vs (holes p) -> on_contour x vs -> outside_of (border q) x.
Proof. intros W (R & _) vs x Hv Hx. apply R, within_inside, (W vs x Hv Hx). Qed.
Lemma others_clear ctx : contracts ctx ->
  (forall xs ys mn mx bmn bmx hmn hmx smn smx w s ps, multipolygons ctx xs ys mn mx bmn bmx hmn hmx smn smx = Ok (w, s) -> generates s ps ->
   forall i j p q vs x, nth_error ps i = Some p -> nth_error ps j = Some q -> i <> j -> In vs (holes p) -> on_contour x vs -> outside_of (border q) x) /\
  (forall xs ys pmn pmx gmn gmx qmn qmx mn mx hmn hmx smn smx w s m, (forall l, is_hull l (ctx_hull ctx l)) ->
   mixes ctx xs ys pmn pmx gmn gmx qmn qmx mn mx hmn hmx smn smx = Ok (w, s) -> generates s m ->
   (forall i j p q vs x, nth_error (elements (shaped m)) i = Some p -> nth_error (elements (shaped m)) j = Some q -> i <> j -> In vs (holes p) -> on_contour x vs -> outside_of (border q) x) /\
   (forall t q vs x, In t (elements (linear m)) -> In q (elements (shaped m)) -> In vs (holes q) -> on_contour x vs -> ~ on_segment x (seg_start t) (seg_end t))).
Proof.
  intros C. destruct (holes_within ctx C) as (_ & W1 & W2). split.
  - intros xs ys mn mx bmn bmx hmn hmx smn smx w s ps H Hg i j p q vs x Hi Hj n. apply holes_clear.
    + intros us y. eapply W1; [exact H|exact Hg|]. eapply nth_error_In; eassumption.
    + eapply multipolygons_regions; [exact H|exact Hg|exact Hi|exact Hj|exact n|left; reflexivity|left; reflexivity].
  - intros xs ys pmn pmx gmn gmx qmn qmx mn mx hmn hmx smn smx w s m Hh H Hg. destruct (mixes_regions _ _ _ _ _ _ _ _ _ _ _ _ _ _ _ _ _ _ Hh H Hg) as (_ & B & R). split.
    + intros i j p q vs x Hi Hj n. apply holes_clear.
      * intros us y. eapply W2; [exact H|exact Hg|]. eapply nth_error_In; eassumption.
      * eapply R; [exact Hi|exact Hj|exact n|left; reflexivity|left; reflexivity].
    + intros t q vs x Ht Hq Hv Hx O. pose proof (W2 _ _ _ _ _ _ _ _ _ _ _ _ _ _ _ _ _ _ H Hg Hq vs x Hv Hx) as (W & N).
      destruct (B t q (border q) x Ht Hq (or_introl eq_refl) O) as [X|(X & _)]; [exact (N X)|rewrite W in X; discriminate].
Qed.
