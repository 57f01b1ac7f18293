(** Convex and star contours, for the public API. *)
From Verif Require Import Base Prog Geometry Ctx Utils Contracts Factories Strategies Planar Spec ProgProofs
  PlanarProofs ConvexProofs StarProofs.

Lemma clamped_range mn mx legal : ~ bad_sizes mn mx legal -> forall m, mx = Some m -> (Z.max mn legal <= m)%Z.
Proof.
  intros H m ->. destruct (Z_le_dec (Z.max mn legal) m) as [L|L]; [exact L|]. exfalso. apply H. exists m. split; [reflexivity|lia].
Qed.
Lemma convex_contours_spec ctx xs ys mn mx w s vs : (forall l, is_hull l (ctx_hull ctx l)) ->
  convex_contours ctx xs ys mn mx = Ok (w, s) -> generates s vs ->
  convex_ccw vs /\ size_ok (lenZ vs) (Z.max mn 3) mx
  /\ forall p, In p vs -> in_drawable_range xs (px p) /\ in_drawable_range (ordinates xs ys) (py p).
Proof.
  intros Hh H. unfold convex_contours in H. validate; try discriminate. injection H as _ <-.
  apply convex_strategy_spec; [exact Hh|unfold CONVEX; lia|apply clamped_range; assumption].
Qed.
Lemma star_contours_spec ctx xs ys mn mx w s vs :
  star_contours ctx xs ys mn mx = Ok (w, s) -> generates s vs ->
  size_ok (lenZ vs) (Z.max mn 3) mx /\ NoDup vs /\ (forall p, In p vs -> drawable_point xs ys p)
  /\ strict vs /\ exists c, region_centroid vs = Ok c
    /\ forall a b d, contour_turn vs a b d -> c <> b /\ in_angle b a d c.
Proof.
  intros H. unfold star_contours in H. validate; try discriminate. injection H as _ <-.
  apply star_strategy_spec. unfold MIN_CONTOUR_SIZE, CONCAVE, CONVEX. lia.
Qed.

Lemma convex_contours_shape ctx xs ys mn mx w s vs : (forall l, is_hull l (ctx_hull ctx l)) ->
  convex_contours ctx xs ys mn mx = Ok (w, s) -> generates s vs ->
  convex_ccw vs /\ simple vs /\ forall a b c, contour_turn vs a b c -> left_turn a b c.
Proof.
  intros Hh H Hg. destruct (convex_contours_spec _ _ _ _ _ _ _ _ Hh H Hg) as (Hc & _).
  split; [exact Hc|]. split; [apply convex_simple, Hc|apply convex_turns, Hc].
Qed.
Lemma convex_contours_sizes ctx xs ys mn mx w s vs : (forall l, is_hull l (ctx_hull ctx l)) ->
  convex_contours ctx xs ys mn mx = Ok (w, s) -> generates s vs -> size_ok (lenZ vs) (Z.max mn 3) mx.
Proof. intros Hh H Hg. apply (convex_contours_spec _ _ _ _ _ _ _ _ Hh H Hg). Qed.
Lemma convex_contours_range ctx xs ys mn mx w s vs : (forall l, is_hull l (ctx_hull ctx l)) ->
  convex_contours ctx xs ys mn mx = Ok (w, s) -> generates s vs ->
  forall p, In p vs -> in_drawable_range xs (px p) /\ in_drawable_range (ordinates xs ys) (py p).
Proof. intros Hh H Hg. apply (convex_contours_spec _ _ _ _ _ _ _ _ Hh H Hg). Qed.
Lemma star_contours_sizes ctx xs ys mn mx w s vs :
  star_contours ctx xs ys mn mx = Ok (w, s) -> generates s vs ->
  size_ok (lenZ vs) (Z.max mn 3) mx /\ NoDup vs /\ forall p, In p vs -> drawable_point xs ys p.
Proof. intros H Hg. destruct (star_contours_spec _ _ _ _ _ _ _ _ H Hg) as (H1 & H2 & H3 & _). auto. Qed.
Lemma star_contours_angles ctx xs ys mn mx w s vs :
  star_contours ctx xs ys mn mx = Ok (w, s) -> generates s vs ->
  strict vs /\ exists c, region_centroid vs = Ok c
    /\ forall a b d, contour_turn vs a b d -> c <> b /\ in_angle b a d c.
Proof. intros H Hg. destruct (star_contours_spec _ _ _ _ _ _ _ _ H Hg) as (_ & _ & _ & H4). exact H4. Qed.
Lemma star_contours_turns ctx xs ys mn mx w s vs c :
  star_contours ctx xs ys mn mx = Ok (w, s) -> generates s vs -> region_centroid vs = Ok c ->
  (forall a b, contour_edge vs a b -> ~ collinear a b c) ->
  (forall a b d, contour_turn vs a b d -> left_turn a b d)
  \/ (forall a b d, contour_turn vs a b d -> right_turn a b d).
Proof.
  intros H Hg Hc He. destruct (star_contours_spec _ _ _ _ _ _ _ _ H Hg) as ((Hs & _) & _ & _ & Hst & c' & Hc' & Ha).
  rewrite Hc in Hc'. injection Hc' as <-. apply (turns_one_direction vs c).
  - unfold lenZ in Hs. lia.
  - exact Hst.
  - intros a b d Ht. apply Ha, Ht.
  - exact He.
Qed.
