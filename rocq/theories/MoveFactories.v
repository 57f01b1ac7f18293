(** Moving and rescaling: centroids, star-shaped and convex contours. *)
From Verif Require Import Base Prog Geometry Ctx Utils Contracts Factories Strategies QcTac MoveSpec MoveBase MoveHeap.
Import List ListNotations.

Lemma Qc_of_pos n : n <> 0%nat -> Qc_of_Z (Z.of_nat n) <> 0%Qc.
Proof. intros N E. apply Qc_eq_this in E. unfold Qc_of_Z in E. rewrite !this_Q2Qc in E. unfold Qeq in E. cbn in E. lia. Qed.
Lemma mapM_rel {A B} (g : B -> B) (F F' : A -> res B) l : (forall x, rrel (moves g) (F x) (F' x)) -> rrel (moves (map g)) (mapM F l) (mapM F' l).
Proof.
  intros H. induction l as [|x l IH]; cbn [mapM]; [reflexivity|]. apply (rrel_bind (moves g)); [apply H|]. intros u v ->.
  apply (rrel_bind (moves (map g))); [exact IH|]. intros us vs ->. reflexivity.
Qed.
Lemma mapM_map {A B C} (g : A -> B) (F : B -> res C) l : mapM F (map g l) = mapM (fun x => F (g x)) l.
Proof. induction l as [|x l IH]; cbn [map mapM]; [reflexivity|]. rewrite IH. reflexivity. Qed.

Section F.
Context (k a b : Qc) (K : (0 < k)%Qc).
Let fx := move_scalar k a.
Let fy := move_scalar k b.
Let f := move_point k a b.

Lemma k_not_zero : k <> 0%Qc.
Proof. intros E. rewrite E in K. exact (Qclt_not_eq _ _ K eq_refl). Qed.
(** Sums along a closed contour. *)
Section Tele.
Context (g g1 g2 : point -> point -> Qc) (c1 c2 : Qc) (phi : point -> Qc).
Context (E : forall p q, g (f p) (f q) = (c1 * g1 p q + c2 * g2 p q + (phi q - phi p))%Qc).
Lemma tele_open l : forall y d, qsum (map (fun ab => g (fst ab) (snd ab)) (combine (map f (y :: l)) (map f l))) =
  (c1 * qsum (map (fun ab => g1 (fst ab) (snd ab)) (combine (y :: l) l)) + c2 * qsum (map (fun ab => g2 (fst ab) (snd ab)) (combine (y :: l) l)) + (phi (last (y :: l) d) - phi y))%Qc.
Proof.
  induction l as [|x l IH]; intros y d; [cbn; ring|]. cbn [map combine qsum fold_right fst snd]. specialize (IH x d). cbn [map combine] in IH. unfold qsum in IH. rewrite IH, E.
  change (last (y :: x :: l) d) with (last (x :: l) d). unfold qsum. ring.
Qed.
Lemma tele_closed l : qsum (zip_with_prev g (map f l)) = (c1 * qsum (zip_with_prev g1 l) + c2 * qsum (zip_with_prev g2 l))%Qc.
Proof.
  destruct l as [|x l]; [cbn; ring|]. unfold zip_with_prev. cbn [map]. change (f x :: map f l) with (map f (x :: l)). rewrite last_map.
  change (f (last (x :: l) x) :: map f (x :: l)) with (map f (last (x :: l) x :: x :: l)). rewrite (tele_open (x :: l) (last (x :: l) x) x).
  change (last (last (x :: l) x :: x :: l) x) with (last (x :: l) x). ring.
Qed.
End Tele.
Lemma mv_area vs : doubled_area (map f vs) = (k * (k * doubled_area vs))%Qc.
Proof.
  unfold doubled_area. rewrite (tele_closed shoelace shoelace shoelace (k * k) 0 (fun p => k * a * py p - k * b * px p)%Qc); [ring|].
  intros p q. unfold shoelace, f, move_point, move_scalar. cbn [px py]. ring.
Qed.
Lemma mv_moment_x vs : qsum (zip_with_prev (fun p q => (px p + px q) * shoelace p q)%Qc (map f vs)) =
  (k * (k * (k * qsum (zip_with_prev (fun p q => (px p + px q) * shoelace p q)%Qc vs))) + (1 + 1 + 1) * a * (k * (k * doubled_area vs)))%Qc.
Proof.
  rewrite (tele_closed _ (fun p q => (px p + px q) * shoelace p q)%Qc shoelace (k * k * k) ((1 + 1 + 1) * a * (k * k))
             (fun p => k * k * a * (px p * py p) - k * k * b * (px p * px p) + (1 + 1) * a * (k * a * py p - k * b * px p))%Qc).
  - unfold doubled_area. ring.
  - intros p q. unfold shoelace, f, move_point, move_scalar. cbn [px py]. ring.
Qed.
Lemma mv_moment_y vs : qsum (zip_with_prev (fun p q => (py p + py q) * shoelace p q)%Qc (map f vs)) =
  (k * (k * (k * qsum (zip_with_prev (fun p q => (py p + py q) * shoelace p q)%Qc vs))) + (1 + 1 + 1) * b * (k * (k * doubled_area vs)))%Qc.
Proof.
  rewrite (tele_closed _ (fun p q => (py p + py q) * shoelace p q)%Qc shoelace (k * k * k) ((1 + 1 + 1) * b * (k * k))
             (fun p => k * k * a * (py p * py p) - k * k * b * (px p * py p) + (1 + 1) * b * (k * a * py p - k * b * px p))%Qc).
  - unfold doubled_area. ring.
  - intros p q. unfold shoelace, f, move_point, move_scalar. cbn [px py]. ring.
Qed.
Lemma three_not_zero : (1 + 1 + 1)%Qc <> 0%Qc.
Proof. intros E. discriminate E. Qed.
Lemma mv_centroid vs : rrel (moves f) (region_centroid vs) (region_centroid (map f vs)).
Proof.
  unfold region_centroid. rewrite mv_area, mv_moment_x, mv_moment_y.
  assert (Ez : qeqb (k * (k * doubled_area vs)) 0 = qeqb (doubled_area vs) 0) by (unfold qeqb; rewrite !mul_zero by exact K; reflexivity).
  rewrite Ez. destruct (qeqb (doubled_area vs) 0) eqn:D; [reflexivity|]. cbn [rrel].
  assert (N : doubled_area vs <> 0%Qc) by (intros E; rewrite E in D; discriminate D).
  pose proof k_not_zero as Nk. unfold moves, f, move_point, move_scalar. cbn [px py]. f_equal; field; repeat split; auto using three_not_zero.
Qed.
Lemma sum_moved c l : qsum (map (move_scalar k c) l) = (k * qsum l + Qc_of_Z (Z.of_nat (length l)) * c)%Qc.
Proof.
  induction l as [|x l IH]; [cbn [map qsum fold_right length]; change (Qc_of_Z (Z.of_nat 0)) with 0%Qc; ring|]. cbn [map qsum fold_right length]. unfold qsum in IH. rewrite IH.
  assert (E : Qc_of_Z (Z.of_nat (S (length l))) = (1 + Qc_of_Z (Z.of_nat (length l)))%Qc).
  { apply Qc_eq_this. rewrite this_plus. unfold Qc_of_Z. rewrite !this_Q2Qc, Nat2Z.inj_succ. unfold Z.succ. rewrite inject_Z_plus. apply Qplus_comm. }
  rewrite E. unfold move_scalar. unfold qsum. ring.
Qed.
Lemma mv_multipoint_centroid l : l <> [] -> multipoint_centroid (map f l) = f (multipoint_centroid l).
Proof.
  intros N. unfold multipoint_centroid. rewrite map_length. rewrite !map_map.
  replace (map (fun x => px (f x)) l) with (map fx (map px l)) by (rewrite map_map; reflexivity).
  replace (map (fun x => py (f x)) l) with (map fy (map py l)) by (rewrite map_map; reflexivity).
  unfold fx, fy. rewrite !sum_moved, !map_length. assert (Nn : Qc_of_Z (Z.of_nat (length l)) <> 0%Qc) by (apply Qc_of_pos; destruct l; [congruence|discriminate]).
  unfold f, move_point, move_scalar. cbn [px py]. f_equal; field; exact Nn.
Qed.
Lemma mv_drop n c : forall i vs, (0 <= i)%Z -> drop_bad_angles n i (f c) (map f vs) = map f (drop_bad_angles n i c vs).
Proof.
  induction n as [|n IH]; intros i vs Hi; cbn [drop_bad_angles]; [reflexivity|]. rewrite lenZ_map. destruct (Z.ltb_spec (Z.max i 2) (lenZ vs)) as [L|L]; [|reflexivity].
  pose proof (Z.mod_pos_bound (i + 1) (lenZ vs) ltac:(lia)) as M. unfold f. rewrite !mv_vget by lia. rewrite mv_angle by exact K. rewrite py_del_map. cbv zeta.
  destruct (angle_contains_point _ _ _ _); apply IH; lia.
Qed.
Definition fap (x : Qc * point) : Qc * point := (fst x, f (snd x)).
Lemma mv_angle_leb x y : angle_point_leb (fap x) (fap y) = angle_point_leb x y.
Proof. unfold angle_point_leb, fap. cbn [fst snd]. unfold f. rewrite mv_point_leb by exact K. reflexivity. Qed.
Lemma mv_groups l : last_of_groups (map fap l) = map f (last_of_groups l).
Proof. induction l as [|x [|y l] IH]; cbn [map last_of_groups] in *; [reflexivity|reflexivity|]. cbn [fap fst snd] in *. rewrite IH. destruct (qeqb (fst x) (fst y)); reflexivity. Qed.
Section Star.
Context (ctx : context) (At : forall y x, ctx_atan2 ctx (k * y)%Qc (k * x)%Qc = ctx_atan2 ctx y x).
Lemma mv_segment_angle s e : to_segment_angle ctx (f s) (f e) = to_segment_angle ctx s e.
Proof. unfold to_segment_angle, f, move_point, move_scalar. cbn [px py]. rewrite <- (At (py e - py s) (px e - px s)). f_equal; ring. Qed.
Lemma mv_star_step c l : rrel (fun x y => y = (f (fst x), map f (snd x))) (star_step ctx c l) (star_step ctx (f c) (map f l)).
Proof.
  unfold star_step. apply (rrel_bind (moves (map fap))).
  - rewrite mapM_map. apply mapM_rel. intros p. rewrite mv_segment_angle. apply rrel_same. intros v. reflexivity.
  - intros m m' ->. rewrite (isort_map fap angle_point_leb angle_point_leb m mv_angle_leb), mv_groups, lenZ_map. destruct (_ <? _)%Z; [|reflexivity].
    apply (rrel_bind (moves f)); [apply mv_centroid|]. intros d d' ->. rewrite map_length. rewrite mv_drop by lia. unfold f. rewrite mv_compress by exact K. reflexivity.
Qed.
Lemma mv_star l : rrel (moves (map f)) (to_star_contour_vertices ctx l) (to_star_contour_vertices ctx (map f l)).
Proof.
  unfold to_star_contour_vertices. rewrite map_length, lenZ_map.
  apply (while_rel (fun x y => snd (fst y) = map f (snd (fst x)) /\ snd y = snd x /\ (snd (fst x) <> [] -> fst (fst y) = f (fst (fst x))))).
  - intros ((c & r) & z) ((c' & r') & z') (E1 & E2 & E3). cbn [fst snd] in *. subst r' z'. rewrite lenZ_map.
    destruct (Z.ltb_spec 2 (lenZ r)); cbn [andb]; [|reflexivity]. destruct (_ <? _)%Z; [|reflexivity].
    rewrite E3 by (intros ->; cbn in *; lia). apply (rrel_bind _ _ _ _ _ _ (mv_star_step c r)). intros (u & v) y ->. cbn. auto.
  - cbn [fst snd]. split; [reflexivity|]. split; [reflexivity|]. apply mv_multipoint_centroid.
Qed.
End Star.

(** ** Convex contours. *)
Lemma mv_vectors c bits : forall lo hi mx coords,
  vectors_coordinates (map (move_scalar k c) coords) bits (move_scalar k c lo) (move_scalar k c hi) (move_scalar k c mx) = map (Qcmult k) (vectors_coordinates coords bits lo hi mx).
Proof.
  intros lo hi mx coords. revert bits lo hi. induction coords as [|x coords IH]; intros bits lo hi; cbn [map vectors_coordinates].
  - unfold move_scalar. f_equal; [|f_equal]; ring.
  - destruct (hd true bits); cbn [map]; rewrite IH; f_equal; unfold move_scalar; ring.
Qed.
Lemma mv_split c l : split_ends (map (move_scalar k c) l) = option_map (fun x => (move_scalar k c (fst (fst x)), map (move_scalar k c) (snd (fst x)), move_scalar k c (snd x))) (split_ends l).
Proof.
  destruct l as [|x [|y l]]; try reflexivity. cbn [map split_ends option_map fst snd]. change (move_scalar k c y :: map (move_scalar k c) l) with (map (move_scalar k c) (y :: l)).
  rewrite removelast_map, last_map. reflexivity.
Qed.
Lemma mv_shuffle perm l : shuffle_by perm (map (Qcmult k) l) = map (Qcmult k) (shuffle_by perm l).
Proof.
  unfold shuffle_by. rewrite map_map. apply map_ext. intros i. replace (Q2Qc 0) with (k * Q2Qc 0)%Qc at 1 by (change (Q2Qc 0) with 0%Qc; ring). apply map_nth.
Qed.
Definition fv (v : Qc * Qc) : Qc * Qc := (k * fst v, k * snd v)%Qc.
Lemma mv_walk l : forall x y mx my, walk (map fv l) (k * x) (k * y) (k * mx) (k * my) =
  (map fv (fst (walk l x y mx my)), fv (snd (walk l x y mx my))).
Proof.
  induction l as [|(vx & vy) l IH]; intros x y mx my; cbn [map walk]; [reflexivity|]. unfold fv at 1. cbn [fst snd].
  replace (k * x + k * vx)%Qc with (k * (x + vx))%Qc by ring. replace (k * y + k * vy)%Qc with (k * (y + vy))%Qc by ring.
  rewrite !sc_qmin by exact K. rewrite IH. destruct (walk l (x + vx) (y + vy) (qmin mx (x + vx)) (qmin my (y + vy))) as (ps & mins). reflexivity.
Qed.
Definition fav (x : Qc * (Qc * Qc)) : Qc * (Qc * Qc) := (fst x, fv (snd x)).
Lemma mv_convex ctx l bx by_ perm : follows_motion ctx k a b ->
  rrel (moves (map f)) (to_convex_vertex_sequence ctx l bx by_ (shuffle_by perm)) (to_convex_vertex_sequence ctx (map f l) bx by_ (shuffle_by perm)).
Proof.
  intros (Hh & _ & At). unfold to_convex_vertex_sequence. rewrite !map_map.
  replace (map (fun x => px (f x)) l) with (map fx (map px l)) by (rewrite map_map; reflexivity).
  replace (map (fun x => py (f x)) l) with (map fy (map py l)) by (rewrite map_map; reflexivity).
  unfold fx, fy. rewrite (isort_map (move_scalar k a) qleb qleb _ (mv_qleb k K a)), (isort_map (move_scalar k b) qleb qleb _ (mv_qleb k K b)), !mv_split.
  destruct (split_ends (isort qleb (map px l))) as [((x1 & xs) & x2)|]; [|reflexivity]. destruct (split_ends (isort qleb (map py l))) as [((y1 & ys) & y2)|]; [|reflexivity].
  cbn [option_map fst snd]. unfold to_vectors_coordinates. rewrite !mv_vectors, mv_shuffle, combine_map2.
  apply (rrel_bind (moves (map fav))).
  - rewrite mapM_map. apply mapM_rel. intros v. cbn [fst snd]. rewrite At. apply rrel_same. intros u. reflexivity.
  - intros m m' ->. rewrite (isort_map fav (fun x y => qleb (fst x) (fst y)) (fun x y => qleb (fst x) (fst y)) m) by reflexivity.
    rewrite map_map. replace (map (fun x => snd (fav x)) (isort (fun x y => qleb (fst x) (fst y)) m)) with (map fv (map snd (isort (fun x y => qleb (fst x) (fst y)) m))) by (rewrite map_map; reflexivity).
    set (vs := map snd (isort (fun x y => qleb (fst x) (fst y)) m)).
    pose proof (mv_walk vs 0 0 0 0) as W. replace (k * 0)%Qc with 0%Qc in W by ring. rewrite W. destruct (walk vs 0 0 0 0) as (ps & (mx & my)). cbn [fst snd fv rrel]. unfold moves, f. rewrite <- Hh. f_equal.
    rewrite !map_map. apply map_ext. intros (x & y). cbn [fst snd]. unfold fv, move_point. cbn [fst snd px py]. f_equal.
    + replace (k * x + (move_scalar k a x1 - k * mx))%Qc with (move_scalar k a (x + (x1 - mx))) by (unfold move_scalar; ring). rewrite mv_qmax, mv_qmin by exact K. reflexivity.
    + replace (k * y + (move_scalar k b y1 - k * my))%Qc with (move_scalar k b (y + (y1 - my))) by (unfold move_scalar; ring). rewrite mv_qmax, mv_qmin by exact K. reflexivity.
Qed.
End F.
