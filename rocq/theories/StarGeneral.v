(** Contours, concave contours and multisegments: what the convexity of star contours gives. *)
From Coq Require Import Sorted Permutation.
From Verif Require Import Base Prog Geometry Ctx Utils Contracts Spec RangeSpec WindSpec GeneralSpec HullSpec Factories Strategies QcTac QcFast ProgProofs
  GeomProofs CyclicProofs ListProofs SegmentProofs SimpleProofs GridProofs ConvexProofs CycEdge BorderProofs Jordan MultiProofs ContourProofs SequenceProofs
  GeometryApiProofs HullProofs Planar GeneralProofs GeneralPolyProofs PolyFaultProofs FaultProofs DelGeo PlanarProofs RangeProofs SeparationProofs CarveProofs SliceProofs MultipolygonProofs MixSpec MixProofs MixApiProofs GeneralApiProofs StarSpec StarApi.
Import List ListNotations.
Open Scope Z_scope.

(** ** Convex contours are counterclockwise closed curves. *)
Lemma edge_source (vs : contour) a b d : NoDup vs -> contour_edge vs a b -> contour_edge vs a d -> b = d.
Proof.
  intros N (i & Ha & Hb) (j & Ha' & Hd). assert (E : i = j).
  { apply (proj1 (NoDup_nth_error vs) N); [apply nth_error_Some; congruence|congruence]. }
  subst j. congruence.
Qed.
Lemma edge_target (vs : contour) a b c : NoDup vs -> contour_edge vs a b -> contour_edge vs c b -> a = c.
Proof.
  intros N (i & Ha & Hb) (j & Hc & Hb'). assert (Li : (i < length vs)%nat) by (apply nth_error_Some; congruence).
  assert (Lj : (j < length vs)%nat) by (apply nth_error_Some; congruence).
  assert (E : (S i mod length vs = S j mod length vs)%nat).
  { apply (proj1 (NoDup_nth_error vs) N); [apply Nat.mod_upper_bound; lia|congruence]. }
  assert (i = j); [|subst j; congruence].
  assert (M : forall k, (k < length vs)%nat -> (S k mod length vs = if S k =? length vs then 0 else S k)%nat).
  { intros k Hk. destruct (Nat.eqb_spec (S k) (length vs)) as [F|F]; [rewrite F; apply Nat.mod_same; lia|apply Nat.mod_small; lia]. }
  rewrite !M in E by assumption. destruct (Nat.eqb_spec (S i) (length vs)), (Nat.eqb_spec (S j) (length vs)); lia.
Qed.
Lemma convex_jordan vs : convex_ccw vs -> jordan vs.
Proof.
  intros Hc. pose proof Hc as (Hl & Hd & H). split; [exact Hd|].
  intros a b c d p Hab Hcd Hne (u & u0 & u1 & Xu & Yu) (t & t0 & t1 & Xt & Yt).
  assert (E : cross a b p = 0%Qc) by (unfold cross; rewrite Xu, Yu; ring).
  assert (Hz : forall q, In q vs -> cross a b q = 0%Qc -> q = a \/ q = b).
  { intros q Hq Eq. destruct (point_eq_dec q a) as [Ea|Ea]; [auto|]. destruct (point_eq_dec q b) as [Eb|Eb]; [auto|].
    exfalso. specialize (H a b Hab q Hq Ea Eb). unfold left_turn in H. rewrite Eq in H. revert H. apply Qlt_irrefl. }
  destruct (edge_in _ _ _ Hcd) as (Hc' & Hd').
  pose proof (convex_edges_weak vs a b c Hc Hab Hc') as W1.
  pose proof (convex_edges_weak vs a b d Hc Hab Hd') as W2.
  assert (Ec : cross a b p = ((1 - t) * cross a b c + t * cross a b d)%Qc) by (unfold cross; rewrite Xt, Yt; ring).
  rewrite E in Ec.
  assert (P1 : (0 <= (1 - t) * cross a b c)%Qc) by (apply mul_nonneg; [qcl|exact W1]).
  assert (P2 : (0 <= t * cross a b d)%Qc) by (apply mul_nonneg; assumption).
  assert (Z1 : ((1 - t) * cross a b c = 0)%Qc) by (apply Qcle_antisym; [ql|exact P1]).
  assert (Z2 : (t * cross a b d = 0)%Qc) by (apply Qcle_antisym; [ql|exact P2]).
  destruct (Qc_eq_dec t 0) as [T0|T0].
  - left. assert (Z : cross a b c = 0%Qc) by (rewrite T0 in Z1; rewrite <- Z1; ring).
    assert (Ep : p = c) by (apply point_ext; [rewrite Xt|rewrite Yt]; rewrite T0; ring).
    destruct (Hz c Hc' Z) as [-> | ->]; [|auto]. destruct Hne. f_equal. apply (edge_source vs a b d Hd Hab Hcd).
  - pose proof (CyclicProofs.mul_zero _ _ Z2 T0) as Zd. destruct (Qc_eq_dec t 1) as [T1|T1].
    + right. assert (Ep : p = d) by (apply point_ext; [rewrite Xt|rewrite Yt]; rewrite T1; ring).
      destruct (Hz d Hd' Zd) as [-> | ->]; [auto|]. destruct Hne. f_equal. apply (edge_target vs a b c Hd Hab Hcd).
    + assert (Zc : cross a b c = 0%Qc).
      { apply (CyclicProofs.mul_zero _ _ Z1). intros F. apply T1. ql. }
      pose proof (edge_neq vs c d Hd ltac:(lia) Hcd) as Hncd. exfalso.
      destruct (Hz c Hc' Zc) as [-> | ->], (Hz d Hd' Zd) as [-> | ->]; try congruence.
      destruct (third_vertex vs a b Hd Hl) as (w & Hw & Hwa & Hwb).
      pose proof (H a b Hab w Hw Hwa Hwb) as L1. pose proof (H b a Hcd w Hw Hwb Hwa) as L2.
      unfold left_turn, cross in *. clear - L1 L2. qcl.
Qed.
Fixpoint path_cross (q : point) (l : list point) : Qc :=
  match l with
  | a :: (b :: _) as r => (cross q a b + path_cross q r)%Qc
  | _ => 0%Qc
  end.
Lemma path_cross_sum q r : forall l v, path_cross q (v :: l ++ [r]) =
  (path_sum (v :: l ++ [r]) + (px q * py v - py q * px v) - (px q * py r - py q * px r))%Qc.
Proof.
  induction l as [|x l IH]; intros v; [cbn [app path_cross path_sum]; unfold cross; ring|].
  cbn [app]. change (path_cross q (v :: x :: l ++ [r])) with (cross q v x + path_cross q (x :: l ++ [r]))%Qc.
  change (path_sum (v :: x :: l ++ [r])) with (px v * py x - px x * py v + path_sum (x :: l ++ [r]))%Qc.
  rewrite IH. unfold cross. ring.
Qed.
Lemma path_cross_edges q : forall (l : list point) v r,
  path_cross q (v :: l ++ [r]) = fold_right Qcplus 0%Qc (map (fun e => cross q (fst e) (snd e)) (combine (v :: l) (l ++ [r]))).
Proof.
  induction l as [|x l IH]; intros v r; [reflexivity|]. cbn [app combine map fold_right fst snd].
  change (path_cross q (v :: x :: l ++ [r])) with (cross q v x + path_cross q (x :: l ++ [r]))%Qc. rewrite IH. reflexivity.
Qed.
Lemma sum_pos {A} (f : A -> Qc) l : (forall x, In x l -> (0 <= f x)%Qc) -> (exists x, In x l /\ (0 < f x)%Qc) ->
  (0 < fold_right Qcplus 0 (map f l))%Qc.
Proof.
  assert (K : forall l, (forall x, In x l -> (0 <= f x)%Qc) -> (0 <= fold_right Qcplus 0 (map f l))%Qc).
  { clear. induction l as [|x l IH]; intros H; cbn [map fold_right]; [apply Qcle_refl|].
    pose proof (H x (or_introl eq_refl)). pose proof (IH (fun y Hy => H y (or_intror Hy))). ql. }
  intros H (x & Hx & Px). induction l as [|y l IH]; [destruct Hx|]. cbn [map fold_right]. destruct Hx as [->|Hx].
  - pose proof (K l (fun y Hy => H y (or_intror Hy))). ql.
  - pose proof (H y (or_introl eq_refl)). pose proof (IH (fun y Hy => H y (or_intror Hy)) Hx). ql.
Qed.
Lemma convex_area vs : convex_ccw vs -> (0 < signed_area vs)%Qc.
Proof.
  intros Hc. destruct vs as [|v l]; [destruct Hc as (L & _); cbn in L; lia|]. rewrite signed_path.
  replace (path_sum (v :: l ++ [v])) with (path_cross v (v :: l ++ [v])) by (rewrite path_cross_sum; ring).
  rewrite path_cross_edges. change (combine (v :: l) (l ++ [v])) with (ces (v :: l)). apply sum_pos.
  - intros (a, b) He. apply ces_edge in He. cbn [fst snd]. replace (cross v a b) with (cross a b v) by (unfold cross; ring).
    apply (convex_edges_weak (v :: l)); [exact Hc|exact He|left; reflexivity].
  - destruct Hc as (L & N & H). destruct l as [|x [|y l]]; cbn [length] in L; try lia. exists (x, y).
    assert (He : contour_edge (v :: x :: y :: l) x y) by (exists 1%nat; split; [reflexivity|]; rewrite Nat.mod_small by (cbn [length]; lia); reflexivity).
    split; [apply ces_edge, He|]. cbn [fst snd]. replace (cross v x y) with (cross x y v) by (unfold cross; ring).
    apply (H x y He v (or_introl eq_refl)); intros ->; inversion N as [|? ? K _]; apply K; [left|right; left]; reflexivity.
Qed.
Lemma convex_counterclockwise vs : convex_ccw vs -> counterclockwise vs.
Proof. intros H. split; [apply convex_jordan, H|]. split; [apply convex_strict, H|apply convex_area, H]. Qed.
Lemma reverse_twice (vs : contour) : reverse_vertices (reverse_vertices vs) = vs.
Proof. destruct vs as [|v l]; [reflexivity|]. change (v :: rev (rev l) = v :: l). rewrite rev_involutive. reflexivity. Qed.
Lemma reversed_clockwise vs : convex_ccw (reverse_vertices vs) -> clockwise vs.
Proof. intros H. rewrite <- (reverse_twice vs). apply turned, convex_counterclockwise, H. Qed.
Lemma wound_simple vs : (3 <= length vs)%nat -> counterclockwise vs \/ clockwise vs -> simple vs.
Proof. intros L [(J & _)|(J & _)]; apply jordan_simple; assumption. Qed.

(** ** Star contours. *)
Lemma star_contours_convex ctx xs ys mn mx w s vs : orders_directions ctx ->
  star_contours ctx xs ys mn mx = Ok (w, s) -> generates s vs -> convex_ccw vs \/ convex_ccw (reverse_vertices vs).
Proof.
  intros Ho H Hg. unfold star_contours in H. validate; try discriminate. injection H as _ <-. change MIN_CONTOUR_SIZE with 3 in *.
  eapply star_strategy_convex; [exact Ho| |exact Hg]. lia.
Qed.
Lemma star_contours_wound ctx xs ys mn mx w s vs : orders_directions ctx ->
  star_contours ctx xs ys mn mx = Ok (w, s) -> generates s vs -> counterclockwise vs \/ clockwise vs.
Proof.
  intros Ho H Hg. destruct (star_contours_convex _ _ _ _ _ _ _ _ Ho H Hg) as [K|K]; [left; apply convex_counterclockwise, K|right; apply reversed_clockwise, K].
Qed.
Lemma reverse_turn vs a b c : NoDup vs -> contour_turn vs a b c -> contour_turn (reverse_vertices vs) c b a.
Proof.
  intros N H. apply turn_edges in H. destruct H as (H1 & H2). apply edges_turn; [apply reverse_nodup, N|apply reverse_edge; rewrite reverse_twice; assumption..].
Qed.
Lemma reversed_turns vs : convex_ccw (reverse_vertices vs) -> forall a b c, contour_turn vs a b c -> right_turn a b c.
Proof.
  intros H a b c Ht. assert (N : NoDup vs) by (rewrite <- (reverse_twice vs); apply reverse_nodup, H).
  pose proof (convex_turns _ H _ _ _ (reverse_turn vs a b c N Ht)) as K. unfold left_turn, right_turn in *.
  replace (cross a b c) with (- cross c b a)%Qc by (unfold cross; ring). ql.
Qed.
(** All turns of a star contour are in one direction: it is not taken for a concave one. *)
Lemma convex_rejected vs : convex_ccw vs \/ convex_ccw (reverse_vertices vs) -> are_vertices_non_convex vs <> Ok true.
Proof.
  intros H E. apply non_convex_spec in E. destruct E as (a & b & c & a' & b' & c' & Ht & Ht' & Ne). destruct H as [H|H].
  - pose proof (convex_turns _ H _ _ _ Ht) as K. pose proof (convex_turns _ H _ _ _ Ht') as K'. apply turn_orientation in K, K'. congruence.
  - pose proof (reversed_turns _ H _ _ _ Ht) as K. pose proof (reversed_turns _ H _ _ _ Ht') as K'. apply turn_orientation in K, K'. congruence.
Qed.
Lemma concave_strategy_carved ctx xs ys mn mx vs : orders_directions ctx -> (3 <= mn)%Z ->
  generates (to_concave_vertex_sequence_strategy ctx xs ys mn mx) vs -> generates (to_carved_vertex_sequence_strategy ctx xs ys mn mx) vs.
Proof.
  intros Ho Hm H. unfold to_concave_vertex_sequence_strategy in H. apply gen_pfilter_res in H. destruct H as (H & Hn).
  unfold to_vertex_sequences_ in H. apply gen_alt in H. destruct H as [H|H]; [|exact H].
  destruct (convex_rejected vs); [|exact Hn]. eapply star_strategy_convex; eassumption.
Qed.
Lemma star_not_concave ctx xs ys mn mx w s vs : orders_directions ctx ->
  star_contours ctx xs ys mn mx = Ok (w, s) -> generates s vs ->
  forall ctx' xs' ys' mn' mx' w' s', concave_contours ctx' xs' ys' mn' mx' = Ok (w', s') -> ~ generates s' vs.
Proof.
  intros Ho H Hg ctx' xs' ys' mn' mx' w' s' H' Hg'. apply (star_contours_convex _ _ _ _ _ _ _ _ Ho H) in Hg.
  unfold concave_contours in H'. validate; try discriminate. injection H' as _ <-.
  unfold to_concave_vertex_sequence_strategy in Hg'. apply gen_pfilter_res in Hg'. destruct Hg' as (_ & Hn). exact (convex_rejected vs Hg Hn).
Qed.

(** ** Coordinates in general position. *)
Section G.
Context (ctx : context) (C : contracts ctx).
Lemma carved_general xs ys mn mx vs : 3 <= mn -> general_coordinates xs ys ->
  generates (to_carved_vertex_sequence_strategy ctx xs ys mn mx) vs -> counterclockwise vs.
Proof.
  intros Hm G H. unfold to_carved_vertex_sequence_strategy in H. apply gen_pfilter in H. destruct H as (H & _).
  apply gen_bind in H. destruct H as (pts & Hp & H). apply gen_bind in H. destruct H as (size & _ & H). apply gen_lift in H.
  pose proof (grid_general _ _ _ _ _ G Hp) as Gp. apply grid_at_least in Hp. destruct Hp as (Hp & _ & N).
  pose proof (sequence_always ctx C pts size N) as K. rewrite H in K. apply K; [|exact Gp]. unfold lenZ in Hp. lia.
Qed.
Context (Ho : orders_directions ctx).
Lemma vertex_sequences_general xs ys mn mx vs : 3 <= mn -> general_coordinates xs ys ->
  generates (to_vertex_sequences_ ctx xs ys mn mx) vs -> counterclockwise vs \/ convex_ccw (reverse_vertices vs).
Proof.
  intros Hm G H. unfold to_vertex_sequences_ in H. apply gen_alt in H. destruct H as [H|H].
  - apply (star_strategy_convex ctx xs ys mn mx vs Ho Hm) in H. destruct H as [H|H]; [left; apply convex_counterclockwise, H|right; exact H].
  - left. eapply carved_general; eassumption.
Qed.
Lemma concave_contours_general xs ys mn mx w s vs : general_coordinates xs ys ->
  concave_contours ctx xs ys mn mx = Ok (w, s) -> generates s vs ->
  counterclockwise vs /\ (exists a b c, contour_turn vs a b c /\ left_turn a b c) /\ (exists a b c, contour_turn vs a b c /\ right_turn a b c).
Proof.
  intros G H Hg. destruct (concave_contours_spec _ _ _ _ _ _ _ _ H Hg) as (_ & _ & _ & K).
  unfold concave_contours in H. validate; try discriminate. injection H as _ <-.
  apply concave_strategy_carved in Hg; [|exact Ho|unfold CONCAVE; lia]. apply carved_general in Hg; [|unfold CONCAVE; lia|exact G].
  split; [exact Hg|]. apply K, Hg.
Qed.
Context (Hh : forall l, is_hull l (ctx_hull ctx l)).
Lemma contours_general xs ys mn mx w s vs : general_coordinates xs ys ->
  contours ctx xs ys mn mx = Ok (w, s) -> generates s vs -> counterclockwise vs \/ convex_ccw (reverse_vertices vs).
Proof.
  intros G H Hg. unfold contours in H. validate; try discriminate. injection H as _ <-. change MIN_CONTOUR_SIZE with 3 in *.
  unfold to_vertex_sequence_strategy in Hg. apply gen_alt in Hg. destruct Hg as [Hg|Hg]; [|eapply vertex_sequences_general; [|exact G|exact Hg]; lia].
  left. apply convex_counterclockwise. eapply convex_strategy_spec; [exact Hh| | |exact Hg]; [lia|apply clamped_range; assumption].
Qed.
Lemma contours_wound xs ys mn mx w s vs : general_coordinates xs ys ->
  contours ctx xs ys mn mx = Ok (w, s) -> generates s vs -> counterclockwise vs \/ (clockwise vs /\ convex_ccw (reverse_vertices vs)).
Proof.
  intros G H Hg. destruct (contours_general _ _ _ _ _ _ _ G H Hg) as [K|K]; [auto|right]. split; [apply reversed_clockwise, K|exact K].
Qed.
Lemma contours_general_simple xs ys mn mx w s vs : general_coordinates xs ys ->
  contours ctx xs ys mn mx = Ok (w, s) -> generates s vs -> simple vs.
Proof.
  intros G H Hg. pose proof (contours_general _ _ _ _ _ _ _ G H Hg) as K. destruct (contours_spec _ _ _ _ _ _ _ _ Hh H Hg) as ((L & _) & _).
  unfold lenZ in L. apply wound_simple; [lia|]. destruct K as [K|K]; [left; exact K|right; apply reversed_clockwise, K].
Qed.
Lemma multisegments_general xs ys mn mx w s l : general_coordinates xs ys ->
  multisegments ctx xs ys mn mx = Ok (w, s) -> generates s l -> pairwise_apart l.
Proof.
  intros G H Hg. destruct (multisegments_apart _ _ _ _ _ _ _ _ Hh H Hg) as [K|(w' & s' & vs & H' & Hv & Ns & _)]; [exact K|].
  destruct Ns. eapply contours_general_simple; eassumption.
Qed.
End G.

(** ** Segments of mixes. *)
Section M.
Context (ctx : context) (C : contracts ctx) (Ho : orders_directions ctx) (Hh : forall l, is_hull l (ctx_hull ctx l)).
Lemma segment_draw_general xs ys g : general_coordinates xs (Some ys) -> segment_draw ctx xs ys g -> pairwise_apart g.
Proof.
  intros G [->|(a & l & count & Hc & Hd & H)]; [intros i j s t Hs; destruct i; discriminate|].
  unfold draw_segments in H. destruct (sliced a (py_take l count) xs ys) as (sx & sy) eqn:E.
  assert (Gs : general_coordinates sx (Some sy)).
  { eapply sliced_general; [exact G| |exact E]. intros x Hx. apply Hd, (py_take_in _ _ _ Hx). }
  apply segment_sequence_spec in H; [|exact Hh|apply Z.div_pos; lia|intros m Em; injection Em as <-; lia].
  destruct H as ((S1 & _) & _ & [H|(vs & Hv & Hn & _)]); [exact H|]. destruct Hn. cbn [ordinates] in Hv.
  pose proof (vertex_sequences_spec ctx sx (Some sy) _ _ _ (Z.le_max_r _ 3) Hv) as ((L & _) & _). unfold lenZ in L.
  apply vertex_sequences_general in Hv; [|exact C|exact Ho|lia|exact Gs]. apply wound_simple; [lia|].
  destruct Hv as [Hv|Hv]; [left; exact Hv|right; apply reversed_clockwise, Hv].
Qed.
Lemma concat_apart (groups : list (list segment)) : (forall g, In g groups -> pairwise_apart g) ->
  ForallOrdPairs (fun g g' => forall s t, In s g -> In t g' -> ~ interiors_meet s t) groups -> pairwise_apart (concat groups).
Proof.
  intros Hg F. induction F as [|g groups Hf F IH]; [intros i j s t Hs; destruct i; discriminate|].
  specialize (IH (fun g' H => Hg g' (or_intror H))). pose proof (Hg g (or_introl eq_refl)) as Hgg. rewrite Forall_forall in Hf.
  assert (K : forall s t, In s g -> In t (concat groups) -> ~ interiors_meet s t).
  { intros s t Hs Ht. apply in_concat in Ht. destruct Ht as (g' & Hg' & Ht). exact (Hf g' Hg' s t Hs Ht). }
  intros i j s t Hi Hj N. cbn [concat] in Hi, Hj.
  destruct (Nat.lt_ge_cases i (length g)) as [Li|Li]; [rewrite nth_error_app1 in Hi by exact Li|rewrite nth_error_app2 in Hi by exact Li];
    (destruct (Nat.lt_ge_cases j (length g)) as [Lj|Lj]; [rewrite nth_error_app1 in Hj by exact Lj|rewrite nth_error_app2 in Hj by exact Lj]).
  - exact (Hgg i j s t Hi Hj N).
  - apply K; eapply nth_error_In; eassumption.
  - intros M. apply interiors_meet_sym in M. revert M. apply K; eapply nth_error_In; eassumption.
  - apply (IH (i - length g)%nat (j - length g)%nat s t Hi Hj). lia.
Qed.
Lemma mixes_linear_general xs ys pmn pmx gmn gmx qmn qmx mn mx hmn hmx smn smx w s m : general_coordinates xs ys ->
  mixes ctx xs ys pmn pmx gmn gmx qmn qmx mn mx hmn hmx smn smx = Ok (w, s) -> generates s m -> pairwise_apart (elements (linear m)).
Proof.
  intros G H Hg. destruct (mixes_spec _ _ _ _ _ _ _ _ _ _ _ _ _ _ _ _ _ _ Hh H Hg) as (P & S & Q & -> & _ & _ & _ & _ & _ & (_ & _ & _ & E4 & _)).
  cbn [linear]. rewrite elements_unpack. destruct E4 as (groups & -> & G1 & G2). apply concat_apart; [|exact G2].
  intros g Hgr. apply (segment_draw_general xs (ordinates xs ys)); [|apply G1, Hgr]. apply general_ordinates, G.
Qed.
End M.
