(** The reference services follow every motion. *)
From Verif Require Import Base Prog Geometry Ctx Contracts Factories Reference QcTac MoveSpec MoveBase.
Import List ListNotations.

Section R.
Context (k a b : Qc) (K : (0 < k)%Qc).
Let f := move_point k a b.
Let fs := move_segment k a b.
Lemma mv_chain_pop r p : chain_pop (map f r) (f p) = map f (chain_pop r p).
Proof.
  induction r as [|x r IH]; cbn [map chain_pop]; [reflexivity|]. destruct r as [|y r]; cbn [map] in *; [reflexivity|]. unfold f. rewrite mv_orientation by exact K. fold f.
  destruct (orientation_eqb _ _); [reflexivity|exact IH].
Qed.
Lemma mv_half l : half_hull (map f l) = map f (half_hull l).
Proof.
  unfold half_hull. rewrite map_rev. f_equal. change (@nil point) with (map f (@nil point)) at 1. generalize (@nil point). induction l as [|p l IH]; intros r; cbn [map fold_left]; [reflexivity|].
  rewrite mv_chain_pop. change (f p :: map f (chain_pop r p)) with (map f (p :: chain_pop r p)). apply IH.
Qed.
Lemma mv_chain l : chain_hull (map f l) = map f (chain_hull l).
Proof.
  unfold chain_hull, f. rewrite mv_set, (isort_map _ point_leb point_leb _ (mv_point_leb k a b K)) by exact K. fold f. destruct (isort point_leb (points_set l)) as [|x [|y s]]; [reflexivity|reflexivity|].
  cbn [map]. change (f x :: f y :: map f s) with (map f (x :: y :: s)). rewrite <- map_rev, !mv_half, !removelast_map, map_app. reflexivity.
Qed.
Lemma mv_member p l : member (f p) (map f l) = member p l.
Proof. apply existsb_map_eq. intros q. apply mv_point_eqb, K. Qed.
Lemma mv_distinct l : distinct (map f l) = distinct l.
Proof. induction l as [|p l IH]; cbn [map distinct]; [reflexivity|]. rewrite mv_member, IH. reflexivity. Qed.
Lemma mv_check l h : hull_check (map f l) (map f h) = hull_check l h.
Proof.
  unfold hull_check. rewrite mv_distinct. f_equal; [f_equal; [f_equal|]|].
  - apply forallb_map_eq. intros p. apply mv_member.
  - unfold f. rewrite mv_contour_segments. fold f. apply forallb_map_eq. intros s. apply forallb_map_eq. intros p. cbn [move_segment seg_start seg_end]. unfold f. rewrite mv_orientation by exact K. reflexivity.
  - unfold f. rewrite mv_contour_segments. fold f. apply forallb_map_eq. intros s. apply forallb_map_eq. intros p. cbn [move_segment seg_start seg_end]. unfold f. rewrite mv_orientation, !mv_point_eqb by exact K. reflexivity.
Qed.
Lemma mv_ref_hull l : ref_hull (map f l) = map f (ref_hull l).
Proof. unfold ref_hull. rewrite mv_chain, mv_check. destruct (hull_check _ _); reflexivity. Qed.
Lemma mv_on p s e : on_segment_b (f p) (f s) (f e) = on_segment_b p s e.
Proof. unfold on_segment_b, f. rewrite mv_collinear by exact K. cbn [move_point px py]. rewrite !mv_qmin, !mv_qmax, !mv_qleb by exact K. reflexivity. Qed.
Lemma mv_meet s t : segments_meet (fs s) (fs t) = segments_meet s t.
Proof. unfold segments_meet, fs. rewrite mv_cross_overlap by exact K. cbn [move_segment seg_start seg_end]. fold f. rewrite !mv_on. reflexivity. Qed.
Lemma mv_ref_nearest l s : ref_nearest (map fs l) (fs s) = fs (ref_nearest l s).
Proof.
  unfold ref_nearest. assert (E : find (fun t => segments_meet t (fs s)) (map fs l) = option_map fs (find (fun t => segments_meet t s) l)).
  { induction l as [|t l IH]; cbn [map find]; [reflexivity|]. rewrite mv_meet. destruct (segments_meet t s); [reflexivity|exact IH]. }
  rewrite E. destruct (find _ l); [reflexivity|]. cbn [option_map]. destruct l; reflexivity.
Qed.
Lemma mv_ref_atan2 y x : ref_atan2 (k * y)%Qc (k * x)%Qc = ref_atan2 y x.
Proof.
  unfold ref_atan2. assert (Z : forall q, qltb (k * q) 0 = qltb q 0) by (intros q; unfold qltb; rewrite mul_zero by exact K; reflexivity).
  assert (A : forall q, (if qltb (k * q) 0 then (- (k * q))%Qc else (k * q)%Qc) = (k * (if qltb q 0 then (- q)%Qc else q))%Qc) by (intros q; rewrite Z; destruct (qltb q 0); ring).
  cbv zeta beta. rewrite !A, Z. set (r := ((if qltb x 0 then - x else x) + (if qltb y 0 then - y else y))%Qc).
  replace (k * (if qltb x 0 then - x else x) + k * (if qltb y 0 then - y else y))%Qc with (k * r)%Qc by (unfold r; ring).
  assert (Zr : qeqb (k * r) 0 = qeqb r 0) by (unfold qeqb; rewrite mul_zero by exact K; reflexivity). rewrite Zr.
  destruct (qeqb r 0) eqn:D; [reflexivity|]. assert (N : r <> 0%Qc) by (intros E; rewrite E in D; discriminate D).
  assert (Nk : k <> 0%Qc) by (intros E; rewrite E in K; exact (Qclt_not_eq _ _ K eq_refl)).
  assert (E : (k * x / (k * r) = x / r)%Qc) by (field; auto). rewrite E. reflexivity.
Qed.
Lemma reference_follows : follows_motion reference k a b.
Proof. split; [exact mv_ref_hull|]. split; [exact mv_ref_nearest|exact mv_ref_atan2]. Qed.
End R.
