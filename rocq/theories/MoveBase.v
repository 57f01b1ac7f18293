(** Moving and rescaling: geometry, contracts of lists and strategies. *)
From Verif Require Import Base Prog Geometry Ctx Utils Contracts Factories Strategies Planar QcTac MoveSpec LoopProofs.
Import List ListNotations.

(** ** Programs in lockstep. *)
Inductive prel {A B} (R : A -> B -> Prop) : prog A -> prog B -> Prop :=
| prel_ret a b : R a b -> prel R (Ret a) (Ret b)
| prel_fail e : prel R (Fail e) (Fail e)
| prel_reject : prel R Reject Reject
| prel_choose lo hi k k' : (forall z, in_range lo hi z -> prel R (k z) (k' z)) -> prel R (Choose lo hi k) (Choose lo hi k').
Definition rrel {A B} (R : A -> B -> Prop) (x : res A) (y : res B) : Prop :=
  match x, y with Ok a, Ok b => R a b | Raise e, Raise e' => e' = e | _, _ => False end.

Lemma prel_bind {A B C D} (R : A -> B -> Prop) (Q : C -> D -> Prop) p p' f f' : prel R p p' -> (forall a b, R a b -> prel Q (f a) (f' b)) -> prel Q (bind p f) (bind p' f').
Proof. intros H K. induction H; cbn [bind]; try constructor; auto. Qed.
Lemma prel_impl {A B} (R Q : A -> B -> Prop) p p' : (forall a b, R a b -> Q a b) -> prel R p p' -> prel Q p p'.
Proof. intros K H. induction H; constructor; auto. Qed.
Lemma prel_lift {A B} (R : A -> B -> Prop) x y : rrel R x y -> prel R (lift x) (lift y).
Proof. destruct x, y; cbn; intros H; try contradiction; subst; constructor; exact H. Qed.
Lemma prel_lift_same {A B C} (R : B -> C -> Prop) (x : res A) f f' : (forall a, prel R (f a) (f' a)) -> prel R (bind (lift x) f) (bind (lift x) f').
Proof. intros H. destruct x; cbn; [apply H|constructor]. Qed.
Lemma prel_same {A} (p : prog A) : prel eq p p.
Proof. induction p; constructor; auto. Qed.
Lemma prel_draw {A B C} (R : B -> C -> Prop) (p : prog A) f f' : (forall a, prel R (f a) (f' a)) -> prel R (bind p f) (bind p f').
Proof. intros H. apply (prel_bind eq); [apply prel_same|]. intros a b <-. apply H. Qed.
Lemma prel_alt {A B} (R : A -> B -> Prop) p p' q q' : prel R p p' -> prel R q q' -> prel R (alt p q) (alt p' q').
Proof. intros H K. unfold alt. constructor. intros z _. destruct (z =? 0)%Z; assumption. Qed.
Lemma prel_filter {A B} (R : A -> B -> Prop) f f' p p' : prel R p p' -> (forall a b, R a b -> f' b = f a) -> prel R (pfilter f p) (pfilter f' p').
Proof. intros H K. unfold pfilter. apply (prel_bind R); [exact H|]. intros a b Hab. rewrite (K _ _ Hab). destruct (f a); constructor; exact Hab. Qed.
Lemma prel_filter_res {A B} (R : A -> B -> Prop) f f' p p' : prel R p p' -> (forall a b, R a b -> f' b = f a) -> prel R (pfilter_res f p) (pfilter_res f' p').
Proof. intros H K. unfold pfilter_res. apply (prel_bind R); [exact H|]. intros a b Hab. rewrite (K _ _ Hab). destruct (f a) as [[]|]; constructor; exact Hab. Qed.
Lemma prel_pmap {A B C D} (R : A -> B -> Prop) (Q : C -> D -> Prop) f f' p p' : prel R p p' -> (forall a b, R a b -> Q (f a) (f' b)) -> prel Q (pmap f p) (pmap f' p').
Proof. intros H K. unfold pmap. apply (prel_bind R); [exact H|]. intros a b Hab. constructor. auto. Qed.
Lemma prel_draw_n {A} (f : A -> A) n p p' : prel (fun x y => y = f x) p p' -> prel (fun x y => y = map f x) (draw_n n p) (draw_n n p').
Proof.
  intros H. induction n as [|n IH]; cbn [draw_n]; [constructor; reflexivity|]. apply (prel_bind _ _ _ _ _ _ H). intros a b ->.
  apply (prel_bind _ _ _ _ _ _ IH). intros l m ->. constructor. reflexivity.
Qed.
Lemma prel_lists {A} (f : A -> A) p p' mn mx : prel (fun x y => y = f x) p p' -> prel (fun x y => y = map f x) (lists p mn mx) (lists p' mn mx).
Proof. intros H. unfold lists. destruct (_ || _)%bool; constructor. intros z _. apply prel_draw_n, H. Qed.
Lemma nodupb_map {A} (f : A -> A) eqb l : (forall x y, eqb (f x) (f y) = eqb x y) -> nodupb eqb (map f l) = nodupb eqb l.
Proof.
  intros E. induction l as [|x l IH]; cbn [map nodupb]; [reflexivity|]. rewrite IH. f_equal. f_equal. clear IH.
  induction l as [|y l IH]; cbn [map existsb]; [reflexivity|]. rewrite E, IH. reflexivity.
Qed.
Lemma prel_unique {A} (f : A -> A) eqb p p' mn mx : (forall x y, eqb (f x) (f y) = eqb x y) -> prel (fun x y => y = f x) p p' ->
  prel (fun x y => y = map f x) (unique_lists eqb p mn mx) (unique_lists eqb p' mn mx).
Proof. intros E H. unfold unique_lists. apply prel_filter; [apply prel_lists, H|]. intros a b ->. apply nodupb_map, E. Qed.
Lemma lenZ_map {A B} (f : A -> B) l : lenZ (map f l) = lenZ l.
Proof. unfold lenZ. rewrite map_length. reflexivity. Qed.
Lemma prel_sampled {A} (f : A -> A) l : prel (fun x y => y = f x) (sampled_from l) (sampled_from (map f l)).
Proof.
  destruct l as [|x l]; cbn [sampled_from map]; [constructor|]. change (f x :: map f l) with (map f (x :: l)). rewrite lenZ_map. constructor. intros z _. constructor.
  exact (map_nth f (x :: l) x _).
Qed.
Lemma remove_nth_map {A B} (f : A -> B) l : forall k, remove_nth k (map f l) = map f (remove_nth k l).
Proof. induction l as [|x l IH]; intros [|k]; cbn [map remove_nth]; try reflexivity. rewrite IH. reflexivity. Qed.
Lemma prel_permute {A B} (f : A -> B) n : forall l, prel (fun x y => y = map f x) (permute n l) (permute n (map f l)).
Proof.
  induction n as [|n IH]; intros l; cbn [permute]; [constructor; reflexivity|]. destruct l as [|x l]; cbn [map]; [constructor; reflexivity|].
  change (f x :: map f l) with (map f (x :: l)). rewrite lenZ_map. constructor. intros z _. rewrite remove_nth_map. apply (prel_bind _ _ _ _ _ _ (IH _)). intros r s ->. constructor.
  cbn [map]. f_equal. exact (map_nth f (x :: l) x _).
Qed.
Lemma prel_permutations {A B} (f : A -> B) l : prel (fun x y => y = map f x) (permutations l) (permutations (map f l)).
Proof. unfold permutations. rewrite map_length. apply prel_permute. Qed.

(** The outcomes correspond. *)
Lemma prel_generates {A} (f : A -> A) p p' : prel (fun x y => y = f x) p p' -> forall v', generates p' v' <-> exists v, generates p v /\ v' = f v.
Proof.
  intros H. unfold generates. induction H as [a b ->|e| |lo hi k k' H IH]; intros v'.
  - split; [intros M; inversion M; subst; exists a; split; [constructor|reflexivity]|]. intros (v & M & ->). inversion M. constructor.
  - split; [intros M; inversion M|intros (v & M & _); inversion M].
  - split; [intros M; inversion M|intros (v & M & _); inversion M].
  - split.
    + intros M. inversion M as [| | |lo' hi' k'' z o I M' E1 E2]; subst. apply (IH z I) in M'. destruct M' as (v & M' & E). exists v. split; [econstructor; eassumption|exact E].
    + intros (v & M & E). inversion M as [| | |lo' hi' k'' z o I M' E1 E2]; subst. econstructor; [exact I|]. apply (IH z I). exists v. auto.
Qed.
Lemma prel_raises {A B} (R : A -> B -> Prop) p p' : prel R p p' -> forall e, can_raise p' e <-> can_raise p e.
Proof.
  intros H. unfold can_raise. induction H as [a b Hab|e0| |lo hi k k' H IH]; intros e.
  - split; intros M; inversion M.
  - split; intros M; inversion M; constructor.
  - split; intros M; inversion M.
  - split; intros M; inversion M as [| | |lo' hi' k'' z o I M' E1 E2]; subst; (econstructor; [exact I|]); apply (IH z I), M'.
Qed.

(** ** Loops in lockstep. *)
Lemma while_rel {S S' R R'} (Rs : S -> S' -> Prop) (Rr : R -> R' -> Prop) body body' n s s' :
  (forall s s', Rs s s' -> rrel (fun x y => match x, y with inl u, inl u' => Rs u u' | inr v, inr v' => Rr v v' | _, _ => False end) (body s) (body' s')) ->
  Rs s s' -> rrel Rr (while_ n body s) (while_ n body' s').
Proof.
  intros Hb Hs. unfold while_. rewrite !loop_nloop. revert s s' Hs. generalize (Pos.to_nat n). clear n. intros n.
  induction n as [|n IH]; intros s s' Hs; cbn [nloop]; [reflexivity|]. specialize (Hb s s' Hs) as Hc.
  destruct (body s) as [[u|v]|e], (body' s') as [[u'|v']|e']; cbn [rrel] in Hc; try contradiction; cbn [rrel]; auto.
Qed.
Lemma rrel_bind {A B C D} (R : A -> B -> Prop) (Q : C -> D -> Prop) x y f g : rrel R x y -> (forall a b, R a b -> rrel Q (f a) (g b)) -> rrel Q (rbind x f) (rbind y g).
Proof. intros H K. destruct x, y; cbn in *; try contradiction; auto. Qed.
Lemma rrel_assert {A B} (Q : A -> B -> Prop) c c' x y : c' = c -> rrel Q x y -> rrel Q (rbind (assert_ c) (fun _ => x)) (rbind (assert_ c') (fun _ => y)).
Proof. intros -> H. destruct c; cbn; [exact H|reflexivity]. Qed.

(** ** Lists. *)
Lemma insert_map {A B} (f : A -> B) leb leb' x l : (forall x y, leb' (f x) (f y) = leb x y) -> insert leb' (f x) (map f l) = map f (insert leb x l).
Proof. intros E. induction l as [|y l IH]; cbn [map insert]; [reflexivity|]. rewrite E. destruct (leb x y); cbn [map]; [reflexivity|]. rewrite IH. reflexivity. Qed.
Lemma isort_map {A B} (f : A -> B) leb leb' l : (forall x y, leb' (f x) (f y) = leb x y) -> isort leb' (map f l) = map f (isort leb l).
Proof. intros E. induction l as [|x l IH]; cbn [map isort]; [reflexivity|]. rewrite IH. apply insert_map, E. Qed.
Lemma py_index_map {A B} (f : A -> B) l i : py_index (map f l) i = py_index l i.
Proof. unfold py_index. rewrite map_length. reflexivity. Qed.
Lemma py_get_map {A B} (f : A -> B) l i : py_get (map f l) i = option_map f (py_get l i).
Proof. unfold py_get. rewrite py_index_map. destruct (py_index l i); [|reflexivity]. apply nth_error_map. Qed.
Lemma py_del_map {A B} (f : A -> B) l i : py_del (map f l) i = map f (py_del l i).
Proof. unfold py_del. rewrite py_index_map. destruct (py_index l i); [|reflexivity]. apply remove_nth_map. Qed.
Lemma py_bound_map {A B} (f : A -> B) l i : py_bound (map f l) i = py_bound l i.
Proof. unfold py_bound. rewrite map_length. reflexivity. Qed.
Lemma py_take_map {A B} (f : A -> B) l i : py_take (map f l) i = map f (py_take l i).
Proof. unfold py_take. rewrite py_bound_map. apply firstn_map. Qed.
Lemma py_drop_map {A B} (f : A -> B) l i : py_drop (map f l) i = map f (py_drop l i).
Proof. unfold py_drop. rewrite py_bound_map. apply skipn_map. Qed.
Lemma py_slice_map {A B} (f : A -> B) l i j : py_slice (map f l) i j = map f (py_slice l i j).
Proof. unfold py_slice. rewrite !py_bound_map, skipn_map, firstn_map. reflexivity. Qed.
Lemma last_map {A B} (f : A -> B) l d : last (map f l) (f d) = f (last l d).
Proof. induction l as [|x [|y l] IH]; cbn [map last] in *; [reflexivity|reflexivity|exact IH]. Qed.
Lemma removelast_map {A B} (f : A -> B) l : removelast (map f l) = map f (removelast l).
Proof. induction l as [|x [|y l] IH]; cbn [map removelast] in *; [reflexivity|reflexivity|]. rewrite IH. reflexivity. Qed.
Lemma combine_map2 {A B C D} (f : A -> C) (g : B -> D) l : forall m, combine (map f l) (map g m) = map (fun ab => (f (fst ab), g (snd ab))) (combine l m).
Proof. induction l as [|x l IH]; intros [|y m]; cbn [map combine]; try reflexivity. rewrite IH. reflexivity. Qed.
Lemma filter_map_eq {A B} (f : A -> B) p p' l : (forall x, p' (f x) = p x) -> filter p' (map f l) = map f (filter p l).
Proof. intros E. induction l as [|x l IH]; cbn [map filter]; [reflexivity|]. rewrite E, IH. destruct (p x); reflexivity. Qed.
Lemma existsb_map_eq {A B} (f : A -> B) p p' l : (forall x, p' (f x) = p x) -> existsb p' (map f l) = existsb p l.
Proof. intros E. induction l as [|x l IH]; cbn [map existsb]; [reflexivity|]. rewrite E, IH. reflexivity. Qed.
Lemma forallb_map_eq {A B} (f : A -> B) p p' l : (forall x, p' (f x) = p x) -> forallb p' (map f l) = forallb p l.
Proof. intros E. induction l as [|x l IH]; cbn [map forallb]; [reflexivity|]. rewrite E, IH. reflexivity. Qed.
Lemma flat_map_map {A B C D} (f : A -> B) (g : C -> D) F F' l : (forall x, F' (f x) = map g (F x)) -> flat_map F' (map f l) = map g (flat_map F l).
Proof. intros E. induction l as [|x l IH]; cbn [map flat_map]; [reflexivity|]. rewrite E, IH, map_app. reflexivity. Qed.
Lemma zip_with_prev_map {A B C D} (f : A -> B) (g : C -> D) F F' (l : list A) : (forall x y, F' (f x) (f y) = g (F x y)) -> zip_with_prev F' (map f l) = map g (zip_with_prev F l).
Proof.
  intros E. destruct l as [|x l]; [reflexivity|]. unfold zip_with_prev. cbn [map].
  change (f x :: map f l) with (map f (x :: l)). rewrite last_map. change (f (last (x :: l) x) :: map f (x :: l)) with (map f (last (x :: l) x :: x :: l)).
  rewrite combine_map2, !map_map. apply map_ext. intros (u, v). apply E.
Qed.
Lemma pairwise_map {A B} (f : A -> B) l : pairwise (map f l) = map (fun ab => (f (fst ab), f (snd ab))) (pairwise l).
Proof. induction l as [|x [|y l] IH]; cbn [map pairwise] in *; [reflexivity|reflexivity|]. rewrite IH. reflexivity. Qed.

(** ** Geometry. *)
Section G.
Context (k a b : Qc) (K : (0 < k)%Qc).
Let fx := move_scalar k a.
Let fy := move_scalar k b.
Let f := move_point k a b.
Let fs := move_segment k a b.

Lemma scale_compare x y : ((k * x ?= k * y) = (x ?= y))%Qc.
Proof.
  destruct (Qc_dec x y) as [[H|H]|H].
  - rewrite (proj1 (Qclt_alt x y) H). apply (proj1 (Qclt_alt _ _)). rewrite !(Qcmult_comm k). apply Qcmult_lt_compat_r; assumption.
  - rewrite (proj1 (Qcgt_alt x y) H). apply (proj1 (Qcgt_alt _ _)). rewrite !(Qcmult_comm k). apply Qcmult_lt_compat_r; assumption.
  - subst y. rewrite !(proj1 (Qceq_alt _ _)) by reflexivity. reflexivity.
Qed.
Lemma shift_compare x y c : ((x + c ?= y + c) = (x ?= y))%Qc.
Proof.
  destruct (Qc_dec x y) as [[H|H]|H].
  - rewrite (proj1 (Qclt_alt x y) H). apply (proj1 (Qclt_alt _ _)). qcl.
  - rewrite (proj1 (Qcgt_alt x y) H). apply (proj1 (Qcgt_alt _ _)). qcl.
  - subst y. rewrite !(proj1 (Qceq_alt _ _)) by reflexivity. reflexivity.
Qed.
Lemma move_compare c x y : ((move_scalar k c x ?= move_scalar k c y) = (x ?= y))%Qc.
Proof. unfold move_scalar. rewrite shift_compare. apply scale_compare. Qed.
Lemma mv_qltb c x y : qltb (move_scalar k c x) (move_scalar k c y) = qltb x y.
Proof. unfold qltb. rewrite move_compare. reflexivity. Qed.
Lemma mv_qleb c x y : qleb (move_scalar k c x) (move_scalar k c y) = qleb x y.
Proof. unfold qleb. rewrite move_compare. reflexivity. Qed.
Lemma mv_qeqb c x y : qeqb (move_scalar k c x) (move_scalar k c y) = qeqb x y.
Proof. unfold qeqb. rewrite move_compare. reflexivity. Qed.
Lemma mv_qmin c x y : qmin (move_scalar k c x) (move_scalar k c y) = move_scalar k c (qmin x y).
Proof. unfold qmin. rewrite mv_qltb. destruct (qltb y x); reflexivity. Qed.
Lemma mv_qmax c x y : qmax (move_scalar k c x) (move_scalar k c y) = move_scalar k c (qmax x y).
Proof. unfold qmax. rewrite mv_qltb. destruct (qltb x y); reflexivity. Qed.
Lemma sc_qltb x y : qltb (k * x) (k * y) = qltb x y.
Proof. unfold qltb. rewrite scale_compare. reflexivity. Qed.
Lemma sc_qmin x y : qmin (k * x) (k * y) = (k * qmin x y)%Qc.
Proof. unfold qmin. rewrite sc_qltb. destruct (qltb y x); reflexivity. Qed.
Lemma mv_point_eqb p q : point_eqb (f p) (f q) = point_eqb p q.
Proof. unfold point_eqb, f, move_point. cbn [px py]. rewrite !mv_qeqb. reflexivity. Qed.
Lemma mv_point_leb p q : point_leb (f p) (f q) = point_leb p q.
Proof. unfold point_leb, f, move_point. cbn [px py]. rewrite mv_qeqb, mv_qltb, mv_qleb. reflexivity. Qed.
Lemma mv_point_ltb p q : point_ltb (f p) (f q) = point_ltb p q.
Proof. unfold point_ltb, f, move_point. cbn [px py]. rewrite mv_qeqb, !mv_qltb. reflexivity. Qed.
Lemma mv_vertical_leb p q : vertical_leb (f p) (f q) = vertical_leb p q.
Proof. unfold vertical_leb, f, move_point. cbn [px py]. rewrite mv_qeqb, mv_qltb, mv_qleb. reflexivity. Qed.
Lemma mv_cross o p q : cross (f o) (f p) (f q) = (k * (k * cross o p q))%Qc.
Proof. unfold cross, f, move_point, move_scalar. cbn [px py]. ring. Qed.
Lemma mul_zero x : ((k * x ?= 0) = (x ?= 0))%Qc.
Proof. replace 0%Qc with (k * 0)%Qc at 1 by ring. apply scale_compare. Qed.
Lemma mv_orientation o p q : angle_orientation (f o) (f p) (f q) = angle_orientation o p q.
Proof. unfold angle_orientation. rewrite mv_cross, !mul_zero. reflexivity. Qed.
Lemma mv_incircle p x y z : incircle (f p) (f x) (f y) (f z) = (k * (k * (k * (k * incircle p x y z))))%Qc.
Proof. unfold incircle, f, move_point, move_scalar. cbn [px py]. cbv zeta. ring. Qed.
Lemma zero_qltb x : qltb 0 (k * x) = qltb 0 x.
Proof. replace 0%Qc with (k * 0)%Qc at 1 by ring. apply sc_qltb. Qed.
Lemma mv_interior p x y z : in_circle_interior (f p) (f x) (f y) (f z) = in_circle_interior p x y z.
Proof. unfold in_circle_interior. rewrite mv_incircle, !zero_qltb. reflexivity. Qed.
Lemma mv_contour_segments vs : contour_segments (map f vs) = map fs (contour_segments vs).
Proof. apply zip_with_prev_map. reflexivity. Qed.
Lemma mv_contour_edges vs : contour_vertices_to_edges (map f vs) = map fs (contour_vertices_to_edges vs).
Proof. apply zip_with_prev_map. reflexivity. Qed.
Lemma mv_cross_overlap s t : segments_cross_or_overlap (fs s) (fs t) = segments_cross_or_overlap s t.
Proof.
  unfold segments_cross_or_overlap, fs, move_segment. cbn [seg_start seg_end]. fold f. rewrite !mv_orientation.
  destruct (angle_orientation (seg_start s) (seg_end s) (seg_start t)), (angle_orientation (seg_start s) (seg_end s) (seg_end t)); try reflexivity.
  assert (E : forall p q, (if point_leb (f p) (f q) then f p else f q) = f (if point_leb p q then p else q)) by (intros p q; rewrite mv_point_leb; destruct (point_leb p q); reflexivity).
  assert (E' : forall p q, (if point_leb (f p) (f q) then f q else f p) = f (if point_leb p q then q else p)) by (intros p q; rewrite mv_point_leb; destruct (point_leb p q); reflexivity).
  rewrite ?E, ?E', ?E, ?E', mv_point_ltb. reflexivity.
Qed.
Lemma mv_some_cross l : some_segments_cross_or_overlap (map fs l) = some_segments_cross_or_overlap l.
Proof. induction l as [|s l IH]; cbn [map some_segments_cross_or_overlap]; [reflexivity|]. rewrite IH. f_equal. apply existsb_map_eq. intros t. apply mv_cross_overlap. Qed.
Lemma mv_segments_ok l : are_segments_non_crossing_non_overlapping (map fs l) = are_segments_non_crossing_non_overlapping l.
Proof. unfold are_segments_non_crossing_non_overlapping. rewrite mv_some_cross. reflexivity. Qed.
Lemma mv_contours_ok l : contours_do_not_cross_or_overlap (map (map f) l) = contours_do_not_cross_or_overlap l.
Proof. unfold contours_do_not_cross_or_overlap. rewrite <- (mv_segments_ok (flat_map contour_segments l)). f_equal. apply flat_map_map. exact mv_contour_segments. Qed.
Lemma mv_valid_size {A B} (g : A -> B) l mn mx : has_valid_size (map g l) mn mx = has_valid_size l mn mx.
Proof. unfold has_valid_size. rewrite lenZ_map. reflexivity. Qed.
Lemma mv_valid_sizes l mn mx cmn cmx : multicontour_has_valid_sizes (map (map f) l) mn mx cmn cmx = multicontour_has_valid_sizes l mn mx cmn cmx.
Proof. unfold multicontour_has_valid_sizes. rewrite mv_valid_size. f_equal. apply forallb_map_eq. intros c. apply mv_valid_size. Qed.
Lemma mv_horizontal s : is_segment_horizontal (fs s) = is_segment_horizontal s.
Proof. apply mv_qeqb. Qed.
Lemma mv_vertical s : is_segment_vertical (fs s) = is_segment_vertical s.
Proof. apply mv_qeqb. Qed.
Lemma mv_max_x s : segment_to_max_x (fs s) = fx (segment_to_max_x s).
Proof. apply mv_qmin. Qed.
Lemma mv_min_y s : segment_to_min_y (fs s) = fy (segment_to_min_y s).
Proof. apply mv_qmin. Qed.
Lemma mv_py_max (key : segment -> Qc) c l : (forall s, key (fs s) = move_scalar k c (key s)) -> forall x, py_max key (fs x) (map fs l) = fs (py_max key x l).
Proof.
  intros E. induction l as [|y l IH]; intros x; cbn [map py_max]; [reflexivity|]. rewrite !E, mv_qltb. destruct (qltb (key x) (key y)); apply IH.
Qed.
Lemma mv_lowermost l : has_horizontal_lowermost_segment (map fs l) = has_horizontal_lowermost_segment l.
Proof.
  destruct l as [|s l]; [reflexivity|]. unfold has_horizontal_lowermost_segment. change (map fs (s :: l)) with (fs s :: map fs l). cbv iota.
  rewrite (mv_py_max _ b l mv_min_y). cbv zeta. rewrite mv_horizontal. f_equal. f_equal.
  change (fs s :: map fs l) with (map fs (s :: l)). apply existsb_map_eq. intros t. rewrite mv_horizontal, !mv_min_y. unfold fy. rewrite mv_qeqb. reflexivity.
Qed.
Lemma mv_leftmost l : has_vertical_leftmost_segment (map fs l) = has_vertical_leftmost_segment l.
Proof.
  destruct l as [|s l]; [reflexivity|]. unfold has_vertical_leftmost_segment. change (map fs (s :: l)) with (fs s :: map fs l). cbv iota.
  rewrite (mv_py_max _ a l mv_max_x). cbv zeta. rewrite mv_vertical. f_equal. f_equal.
  change (fs s :: map fs l) with (map fs (s :: l)). apply existsb_map_eq. intros t. rewrite mv_vertical, !mv_max_x. unfold fx. rewrite mv_qeqb. reflexivity.
Qed.
Lemma mv_angle v p q c : angle_contains_point (f v) (f p) (f q) (f c) = angle_contains_point v p q c.
Proof. unfold angle_contains_point. rewrite !mv_orientation. reflexivity. Qed.
Lemma mv_orientations vs : to_contour_orientations (map f vs) = to_contour_orientations vs.
Proof.
  destruct vs as [|x vs]; [reflexivity|]. unfold to_contour_orientations. cbn [map]. change (f x :: map f vs) with (map f (x :: vs)).
  rewrite last_map. change (f (last (x :: vs) x) :: map f (x :: vs)) with (map f (last (x :: vs) x :: x :: vs)).
  change [f x] with (map f [x]). rewrite <- map_app, combine_map2, combine_map2, map_map. apply map_ext. intros ((u, v), w). apply mv_orientation.
Qed.
Lemma mv_non_convex vs : are_vertices_non_convex (map f vs) = are_vertices_non_convex vs.
Proof. unfold are_vertices_non_convex. rewrite mv_orientations. reflexivity. Qed.
Lemma mv_strict vs : are_vertices_strict (map f vs) = are_vertices_strict vs.
Proof. unfold are_vertices_strict. rewrite mv_orientations. reflexivity. Qed.
Lemma mv_collinear v p q : is_collinear (f v) (f p) (f q) = is_collinear v p q.
Proof. unfold is_collinear. rewrite mv_orientation. reflexivity. Qed.
Lemma mv_vget vs i : (- lenZ vs <= i < lenZ vs)%Z -> vget (map f vs) i = f (vget vs i).
Proof.
  intros H. unfold vget. rewrite py_get_map. destruct (py_get vs i) as [p|] eqn:E; [reflexivity|]. exfalso. revert E. unfold py_get, py_index. change (Z.of_nat (length vs)) with (lenZ vs).
  destruct (Z.leb_spec 0 i).
  - rewrite (proj2 (Z.ltb_lt _ _)) by lia. intros E. apply nth_error_None in E. unfold lenZ in *. lia.
  - rewrite (proj2 (Z.leb_le _ _)) by lia. intros E. apply nth_error_None in E. unfold lenZ in *. lia.
Qed.
Lemma mv_compress_down n i : (i < 0)%Z -> forall vs, compress_down n i (map f vs) = map f (compress_down n i vs).
Proof.
  intros Hi. induction n as [|n IH]; intros vs; cbn [compress_down]; [reflexivity|]. rewrite lenZ_map.
  destruct (Z.ltb_spec (Z.max 2 (- i)) (lenZ vs)); cbn [andb]; [|reflexivity].
  rewrite !mv_vget by lia. rewrite mv_collinear, py_del_map, IH. destruct (is_collinear _ _ _); reflexivity.
Qed.
Lemma mv_compress_phase1 n : forall vs, compress_phase1 n (map f vs) = map f (compress_phase1 n vs).
Proof. induction n as [|n IH]; intros vs; cbn [compress_phase1]; [reflexivity|]. rewrite map_length, mv_compress_down by lia. apply IH. Qed.
Lemma mv_compress_up n i : (0 <= i)%Z -> forall vs, compress_up n i (map f vs) = map f (compress_up n i vs).
Proof.
  intros Hi. induction n as [|n IH]; intros vs; cbn [compress_up]; [reflexivity|]. rewrite lenZ_map.
  destruct (Z.ltb_spec (Z.max 2 i) (lenZ vs)); cbn [andb]; [|reflexivity].
  rewrite !mv_vget by lia. rewrite mv_collinear, py_del_map, IH. destruct (is_collinear _ _ _); reflexivity.
Qed.
Lemma mv_compress_phase2 n : forall i vs, (0 <= i)%Z -> compress_phase2 n i (map f vs) = map f (compress_phase2 n i vs).
Proof.
  induction n as [|n IH]; intros i vs Hi; cbn [compress_phase2]; [reflexivity|]. rewrite lenZ_map, map_length, mv_compress_up by lia.
  rewrite IH by lia. destruct (i <? lenZ vs)%Z; reflexivity.
Qed.
Lemma mv_compress vs : compress_contour (map f vs) = map f (compress_contour vs).
Proof.
  unfold compress_contour. rewrite map_length, mv_compress_phase1, map_length, mv_compress_phase2 by lia. destruct vs; reflexivity.
Qed.
Lemma mv_reverse vs : reverse_vertices (map f vs) = map f (reverse_vertices vs).
Proof. destruct vs; cbn [map reverse_vertices]; [reflexivity|]. rewrite map_rev. reflexivity. Qed.
Lemma mv_pop r p : sub_hull_pop (map f r) (f p) = map f (sub_hull_pop r p).
Proof.
  induction r as [|x r IH]; cbn [map sub_hull_pop]; [reflexivity|]. destruct r as [|y r]; cbn [map] in *; [reflexivity|]. rewrite mv_orientation.
  destruct (orientation_eqb _ _); [exact IH|reflexivity].
Qed.
Lemma mv_sub_hull l : to_sub_hull (map f l) = map f (to_sub_hull l).
Proof.
  unfold to_sub_hull. rewrite map_rev. f_equal. change (@nil point) with (map f (@nil point)) at 1. generalize (@nil point). induction l as [|p l IH]; intros r; cbn [map fold_left]; [reflexivity|].
  rewrite mv_pop. change (f p :: map f (sub_hull_pop r p)) with (map f (p :: sub_hull_pop r p)). apply IH.
Qed.
Lemma mv_max_hull l : to_max_convex_hull (map f l) = map f (to_max_convex_hull l).
Proof. unfold to_max_convex_hull. rewrite (isort_map f point_leb point_leb l mv_point_leb). cbv zeta. rewrite <- map_rev, !mv_sub_hull, !removelast_map, map_app. reflexivity. Qed.
Lemma mv_mem p l : mem_point (f p) (map f l) = mem_point p l.
Proof. apply existsb_map_eq. intros q. apply mv_point_eqb. Qed.
Lemma mv_add p l : add_point (f p) (map f l) = map f (add_point p l).
Proof. unfold add_point. rewrite mv_mem. destruct (mem_point p l); reflexivity. Qed.
Lemma mv_set l : points_set (map f l) = map f (points_set l).
Proof. induction l as [|p l IH]; cbn [map points_set]; [reflexivity|]. rewrite IH. apply mv_add. Qed.
Lemma mv_sort_points h l : sort_points h (map f l) = map f (sort_points h l).
Proof. unfold sort_points. apply isort_map. intros x y. destruct h; [apply mv_point_leb|apply mv_vertical_leb]. Qed.
Lemma mv_touch h l : touch_predicate h (map fs l) = touch_predicate h l.
Proof. unfold touch_predicate. destruct h; [apply mv_leftmost|apply mv_lowermost]. Qed.
End G.
