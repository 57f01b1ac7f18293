(** Moving and rescaling: the subdivision, the triangulation and the carving in lockstep. *)
From Verif Require Import Base Prog Geometry Ctx QuadEdge Utils Contracts Triangulation Factories Strategies MoveSpec MoveBase LoopProofs.
Import List ListNotations.

Section H.
Context (k a b : Qc) (K : (0 < k)%Qc).
Let f := move_point k a b.
Let fs := move_segment k a b.

Record hr (h h' : heap) : Prop := Hr { hr_count : h_count h' = h_count h; hr_lfs : forall e, h_lfs h' e = h_lfs h e; hr_org : forall e, h_org h' e = f (h_org h e) }.
Definition ph {A} (x y : A * heap) : Prop := fst y = fst x /\ hr (snd x) (snd y).

Section Read.
Context (h h' : heap) (H : hr h h').
Lemma r_lfs e : left_from_start h' e = left_from_start h e.
Proof. apply H. Qed.
Lemma r_start e : start h' e = f (start h e).
Proof. apply H. Qed.
Lemma r_end e : end_ h' e = f (end_ h e).
Proof. apply H. Qed.
Lemma r_lfe e : left_from_end h' e = left_from_end h e.
Proof. unfold left_from_end. rewrite r_lfs. reflexivity. Qed.
Lemma r_rfe e : right_from_end h' e = right_from_end h e.
Proof. unfold right_from_end. rewrite r_lfs. reflexivity. Qed.
Lemma r_rfs e : right_from_start h' e = right_from_start h e.
Proof. unfold right_from_start. rewrite r_lfs. reflexivity. Qed.
Lemma r_orient e p : orientation_of h' e (f p) = orientation_of h e p.
Proof. unfold orientation_of. rewrite r_start, r_end. apply mv_orientation, K. Qed.
Lemma r_diag e : is_convex_quadrilateral_diagonal h' e = is_convex_quadrilateral_diagonal h e.
Proof. unfold is_convex_quadrilateral_diagonal. rewrite !r_rfs, !r_rfe, !r_lfs, !r_lfe, !r_end, !r_start, !r_orient. reflexivity. Qed.
Lemma r_ear e : is_ear h' e = is_ear h e.
Proof. unfold is_ear. rewrite !r_rfe, !r_lfs, !r_lfe, !r_end, !r_orient, !r_diag. reflexivity. Qed.
Lemma r_mouth e l : is_mouth h' e (map f l) = is_mouth h e l.
Proof. unfold is_mouth. rewrite r_start, r_lfs, r_end. unfold f. rewrite !mv_mem by exact K. reflexivity. Qed.
Lemma r_mouth_inc e : mouth_to_increment h' e = mouth_to_increment h e.
Proof. unfold mouth_to_increment. rewrite !r_rfs, !r_rfe, !r_lfs, !r_lfe, !r_end, !r_orient. reflexivity. Qed.
Lemma r_ear_inc e : ear_to_increment h' e = ear_to_increment h e.
Proof. unfold ear_to_increment. rewrite !r_rfs, !r_rfe, !r_end, !r_start, !r_orient. reflexivity. Qed.
Lemma r_neighbours e : to_edge_neighbours h' e = to_edge_neighbours h e.
Proof. unfold to_edge_neighbours. rewrite !r_rfe, !r_lfs, !r_end, !r_orient. reflexivity. Qed.
Lemma r_flippable l e : flippable h' (map f l) e = flippable h l e.
Proof. unfold flippable. rewrite !r_rfs, !r_end, !r_diag. unfold f. rewrite mv_mem by exact K. reflexivity. Qed.
Lemma r_starts l : map (start h') l = map f (map (start h) l).
Proof. rewrite map_map. apply map_ext. apply r_start. Qed.
End Read.

Ltac rd H := rewrite ?(r_rfs _ _ H), ?(r_rfe _ _ H), ?(r_lfe _ _ H), ?(r_lfs _ _ H), ?(r_start _ _ H), ?(r_end _ _ H), ?(r_orient _ _ H), ?(r_diag _ _ H), ?(r_ear _ _ H), ?(r_mouth _ _ H), ?(r_mouth_inc _ _ H), ?(r_ear_inc _ _ H), ?(r_neighbours _ _ H), ?(r_flippable _ _ H).

Lemma upd_same {B} (u v : edge -> B) e x : (forall y, u y = v y) -> forall y, upd u e x y = upd v e x y.
Proof. intros E y. unfold upd. rewrite E. reflexivity. Qed.
Lemma upd_moved (u v : edge -> point) e p : (forall y, u y = f (v y)) -> forall y, upd u e (f p) y = f (upd v e p y).
Proof. intros E y. unfold upd. rewrite E. destruct (edge_eqb y e); reflexivity. Qed.

Lemma w_empty p : hr (empty_heap p) (empty_heap (f p)).
Proof. split; reflexivity. Qed.
Lemma w_from h h' s e : hr h h' -> ph (from_endpoints h s e) (from_endpoints h' (f s) (f e)).
Proof.
  intros H. unfold from_endpoints. rewrite (hr_count _ _ H). split; [reflexivity|]. split; cbn [snd h_count h_lfs h_org]; [reflexivity| |].
  - do 4 apply upd_same. apply H.
  - apply upd_moved, upd_moved. apply H.
Qed.
Lemma w_swap h h' x y : hr h h' -> hr (swap_lfs h x y) (swap_lfs h' x y).
Proof.
  intros H. unfold swap_lfs. rewrite !(r_lfs _ _ H). split; cbn [h_count h_lfs h_org]; [apply H| |apply H]. do 2 apply upd_same. apply H.
Qed.
Lemma w_splice h h' x y : hr h h' -> hr (splice h x y) (splice h' x y).
Proof. intros H. unfold splice. rewrite !(r_lfs _ _ H). apply w_swap, w_swap, H. Qed.
Lemma w_connect h h' x y : hr h h' -> ph (connect h x y) (connect h' x y).
Proof.
  intros H. unfold connect. rd H. pose proof (w_from h h' (end_ h x) (start h y) H) as W.
  destruct (from_endpoints h (end_ h x) (start h y)) as (q & h1), (from_endpoints h' (f (end_ h x)) (f (start h y))) as (q' & h1'). destruct W as (E & W). cbn [fst snd] in *. subst q'.
  split; [reflexivity|]. cbn [snd]. rd W. apply w_splice, w_splice, W.
Qed.
Lemma w_delete h h' x : hr h h' -> hr (delete h x) (delete h' x).
Proof. intros H. unfold delete. rd H. pose proof (w_splice _ _ x (right_from_start h x) H) as W. rd W. apply w_splice, W. Qed.
Lemma w_set h h' x p : hr h h' -> hr (set_start h x p) (set_start h' x (f p)).
Proof. intros H. unfold set_start. split; cbn [h_count h_lfs h_org]; [apply H|apply H|]. apply upd_moved, H. Qed.
Lemma w_flip h h' x : hr h h' -> hr (flip h x) (flip h' x).
Proof.
  intros H. unfold flip. rd H. cbv zeta.
  pose proof (w_splice _ _ x (right_from_start h x) H) as W1.
  pose proof (w_splice _ _ (opposite x) (right_from_start h (opposite x)) W1) as W2. rd W2.
  pose proof (w_splice _ _ x (left_from_end (splice (splice h x (right_from_start h x)) (opposite x) (right_from_start h (opposite x))) (right_from_start h x)) W2) as W3. rd W3.
  match goal with |- context [splice (splice (splice (splice h' ?p ?q) ?r ?s) ?t ?u) ?v ?w] => pose proof (w_splice _ _ v w W3) as W4 end. rd W4.
  match goal with |- context [set_start ?m x (f ?p)] => match type of W4 with hr ?h4 _ => pose proof (w_set _ _ x p W4) as W5 end end. rd W5.
  apply w_set, W5.
Qed.

(** ** triangular.py *)
Lemma prod_eq_inv {A B} (x : A) (y : B) x' y' : (x, y) = (x', y') -> x = x' /\ y = y'.
Proof. intros E. injection E. auto. Qed.
Lemma w_tri_delete h h' t e : hr h h' -> rrel ph (tri_delete h t e) (tri_delete h' t e).
Proof.
  intros H. unfold tri_delete. rd H. apply (rrel_bind eq).
  - match goal with |- rrel eq ?x ?y => change y with x; destruct x; reflexivity end.
  - intros t1 t1' <-. rd H. apply (rrel_bind eq).
    + match goal with |- rrel eq ?x ?y => change y with x; destruct x; reflexivity end.
    + intros t2 t2' <-. split; [reflexivity|]. apply w_delete, H.
Qed.
Definition ehr (x y : edge * heap) : Prop := ph x y.
Lemma w_left n h h' e : hr h h' -> rrel ph (to_left_candidate n h e) (to_left_candidate n h' e).
Proof.
  intros H. unfold to_left_candidate. rd H. destruct (negb _); [split; [reflexivity|exact H]|].
  apply (while_rel ph); [|split; [reflexivity|exact H]]. clear h h' H. intros (r & h) (r' & h') (E & H). cbn [fst snd] in *. subst r'. rd H. unfold f. rewrite mv_interior by exact K. fold f.
  destruct (_ && _)%bool; (split; [reflexivity|]); cbn [snd]; [apply w_delete, H|exact H].
Qed.
Lemma w_right n h h' e : hr h h' -> rrel ph (to_right_candidate n h e) (to_right_candidate n h' e).
Proof.
  intros H. unfold to_right_candidate. rd H. destruct (negb _); [split; [reflexivity|exact H]|].
  apply (while_rel ph); [|split; [reflexivity|exact H]]. clear h h' H. intros (r & h) (r' & h') (E & H). cbn [fst snd] in *. subst r'. rd H. unfold f. rewrite mv_interior by exact K. fold f.
  destruct (_ && _)%bool; (split; [reflexivity|]); cbn [snd]; [apply w_delete, H|exact H].
Qed.
Lemma w_connect_step {R} (Rr : R -> R -> Prop) h h' x y : hr h h' ->
  rrel (fun x y => match x, y with inl u, inl u' => ph u u' | inr v, inr v' => Rr v v' | _, _ => False end)
    (let '(e, h3) := connect h x y in Ok (inl (e, h3))) (let '(e, h3) := connect h' x y in Ok (inl (e, h3))).
Proof. intros H. pose proof (w_connect h h' x y H) as W. destruct (connect h x y), (connect h' x y). exact W. Qed.
Lemma w_connect_parts n h h' e : hr h h' -> rrel hr (connect_parts n h e) (connect_parts n h' e).
Proof.
  intros H. unfold connect_parts. apply (while_rel ph); [|split; [reflexivity|exact H]]. clear h h' H e. intros (e & h) (e' & h') (E & H). cbn [fst snd] in *. subst e'.
  apply (rrel_bind ph); [apply w_left, H|]. intros (lc & h1) (lc' & h1') (E & H1). cbn [fst snd] in *. subst lc'.
  apply (rrel_bind ph); [apply w_right, H1|]. intros (rc & h2) (rc' & h2') (E & H2). cbn [fst snd] in *. subst rc'.
  destruct lc as [l|], rc as [r|]; try (apply w_connect_step, H2).
  - rd H2. unfold f. rewrite mv_interior by exact K. destruct (in_circle_interior _ _ _ _); apply w_connect_step, H2.
  - exact H2.
Qed.
Lemma w_find_base n h h' s o : hr h h' -> rrel ph (find_base_edge n h s o) (find_base_edge n h' s o).
Proof.
  intros H. unfold find_base_edge. apply (rrel_bind eq).
  - apply (while_rel eq); [|reflexivity]. intros (rs & ls) s' <-. rd H. destruct (orientation_eqb _ _); [reflexivity|]. destruct (orientation_eqb _ _); reflexivity.
  - intros (rs & ls) s' <-. pose proof (w_connect h h' (opposite ls) rs H) as W. destruct (connect h (opposite ls) rs) as (q & h1), (connect h' (opposite ls) rs) as (q' & h1').
    destruct W as (E & W). cbn [fst snd] in *. subst q'. rd W. unfold f. rewrite !mv_point_eqb by exact K. split; [reflexivity|exact W].
Qed.
Lemma w_merge n h h' s o : hr h h' -> rrel ph (merge n h s o) (merge n h' s o).
Proof.
  intros H. unfold merge. apply (rrel_bind ph); [apply w_find_base, H|]. intros (((e & s1) & o1) & h1) (x' & h1') (E & W). cbn [fst snd] in *. subst x'.
  apply (rrel_bind hr); [apply w_connect_parts, W|]. intros h2 h2' W2. split; [reflexivity|exact W2].
Qed.
Lemma w_two h h' p q : hr h h' -> ph (triangulate_two_points h p q) (triangulate_two_points h' (f p) (f q)).
Proof.
  intros H. unfold triangulate_two_points. pose proof (w_from _ _ p q H) as W. destruct (from_endpoints h p q) as (e & h1), (from_endpoints h' (f p) (f q)) as (e' & h1').
  destruct W as (E & W). cbn [fst snd] in *. subst e'. split; [reflexivity|exact W].
Qed.
Lemma w_three h h' p q r : hr h h' -> ph (triangulate_three_points h p q r) (triangulate_three_points h' (f p) (f q) (f r)).
Proof.
  intros H. unfold triangulate_three_points. pose proof (w_from _ _ p q H) as W. destruct (from_endpoints h p q) as (e & h1), (from_endpoints h' (f p) (f q)) as (e' & h1').
  destruct W as (E & W). cbn [fst snd] in *. subst e'. pose proof (w_from _ _ q r W) as W1. destruct (from_endpoints h1 q r) as (e1 & h2), (from_endpoints h1' (f q) (f r)) as (e1' & h2').
  destruct W1 as (E & W1). cbn [fst snd] in *. subst e1'. pose proof (w_splice _ _ (opposite e) e1 W1) as W2. rd W2.
  pose proof (w_connect _ _ e1 e W2) as W3. destruct (connect (splice h2 _ _) e1 e) as (e2 & h4), (connect (splice h2' _ _) e1 e) as (e2' & h4').
  destruct W3 as (E & W3). cbn [fst snd] in *. subst e2'. destruct (orientation_of _ _ _); (split; [reflexivity|]); assumption.
Qed.
Lemma w_initialize h h' l : hr h h' -> rrel ph (initialize_triangulation h l) (initialize_triangulation h' (map f l)).
Proof.
  intros H. destruct l as [|p [|q [|r [|]]]]; cbn [map initialize_triangulation rrel]; try reflexivity; [apply w_two, H|apply w_three, H].
Qed.
Lemma slices_map {A B} (g : A -> B) sizes : forall l, slices (map g l) sizes = map (map g) (slices l sizes).
Proof. induction sizes as [|n sizes IH]; intros l; cbn [slices map]; [reflexivity|]. rewrite firstn_map, skipn_map, IH. reflexivity. Qed.
Lemma w_initialize_all l : forall h h', hr h h' -> rrel ph (initialize_all h l) (initialize_all h' (map (map f) l)).
Proof.
  induction l as [|p l IH]; intros h h' H; cbn [map initialize_all]; [split; [reflexivity|exact H]|].
  apply (rrel_bind ph); [apply w_initialize, H|]. intros (t & h1) (t' & h1') (E & W). cbn [fst snd] in *. subst t'.
  apply (rrel_bind ph); [apply IH, W|]. intros (ts & h2) (ts' & h2') (E & W'). cbn [fst snd] in *. subst ts'. split; [reflexivity|exact W'].
Qed.
Lemma w_round n : forall m ts h h', (length ts <= m)%nat -> hr h h' -> rrel ph (merge_round n h ts) (merge_round n h' ts).
Proof.
  induction m as [|m IH]; intros [|t1 [|t2 ts]] h h' L H; cbn [merge_round length] in *; try (split; [reflexivity|exact H]); try lia.
  apply (rrel_bind ph); [apply w_merge, H|]. intros (t & h1) (t' & h1') (E & W). cbn [fst snd] in *. subst t'.
  apply (rrel_bind ph); [apply IH; [lia|exact W]|]. intros (us & h2) (us' & h2') (E & W'). cbn [fst snd] in *. subst us'. split; [reflexivity|exact W'].
Qed.
Lemma w_rounds n r : forall ts h h', hr h h' -> rrel ph (merge_rounds n r h ts) (merge_rounds n r h' ts).
Proof.
  induction r as [|r IH]; intros ts h h' H; cbn [merge_rounds]; [split; [reflexivity|exact H]|].
  apply (rrel_bind ph); [apply (w_round _ _ _ _ _ (le_n _)), H|]. intros (us & h1) (us' & h1') (E & W). cbn [fst snd] in *. subst us'. apply IH, W.
Qed.
Lemma w_initialize_nil h sizes : initialize_all h (slices [] sizes) = match sizes with [] => Ok ([], h) | _ => Raise KeyError end.
Proof. destruct sizes as [|[|n] sizes]; reflexivity. Qed.
Lemma w_delaunay ctx l : rrel ph (delaunay ctx l) (delaunay ctx (map f l)).
Proof.
  unfold delaunay. rewrite (isort_map f point_leb point_leb l (mv_point_leb k a b K)). rewrite map_length. destruct (isort point_leb l) as [|p s].
  - cbn [map hd]. rewrite !w_initialize_nil. destruct (ctx_coins ctx _); [|reflexivity]. cbn [rbind length].
    apply (rrel_bind (fun x y => fst x = [] /\ fst y = [])).
    + induction (Z.to_nat _) as [|r IH]; cbn [merge_rounds merge_round rbind]; [split; reflexivity|exact IH].
    + intros (ts & h) (ts' & h') (E & E'). cbn [fst] in *. subst. reflexivity.
  - cbn [map hd]. change (f p :: map f s) with (map f (p :: s)). rewrite slices_map.
    apply (rrel_bind ph); [apply w_initialize_all, w_empty|]. intros (ts & h) (ts' & h') (E & W). cbn [fst snd] in *. subst ts'.
    apply (rrel_bind ph); [apply w_rounds, W|]. intros (us & h1) (us' & h1') (E & W'). cbn [fst snd] in *. subst us'. destruct us as [|t us]; [reflexivity|]. split; [reflexivity|exact W'].
Qed.
Lemma w_boundary n h h' t : hr h h' -> rrel eq (to_boundary_edges n h t) (to_boundary_edges n h' t).
Proof.
  intros H. unfold to_boundary_edges. apply (rrel_bind eq); [|intros r r' <-; reflexivity]. apply (while_rel eq); [|reflexivity]. intros (c & acc) s' <-. rd H.
  destruct (edge_eqb _ _); reflexivity.
Qed.

(** ** factories.py: ordered sets of edges *)
Definition fk (x : key) : key := let '(w, s, e) := x in (w, f s, f e).
Definition fke (x : key * edge) : key * edge := (fk (fst x), snd x).
Definition fset (s : kset) : kset := map fke s.
Lemma fk_ltb x y : key_ltb (fk x) (fk y) = key_ltb x y.
Proof. destruct x as ((w & s) & e), y as ((w' & s') & e'). unfold key_ltb, fk, f. rewrite !mv_point_ltb, !mv_point_eqb by exact K. reflexivity. Qed.
Lemma fk_eqb x y : key_eqb (fk x) (fk y) = key_eqb x y.
Proof. destruct x as ((w & s) & e), y as ((w' & s') & e'). unfold key_eqb, fk, f. rewrite !mv_point_eqb by exact K. reflexivity. Qed.
Definition moves {A} (g : A -> A) (x y : A) : Prop := y = g x.
Lemma w_key n h h' e : hr h h' -> rrel (moves fk) (edge_key n h e) (edge_key n h' e).
Proof.
  intros H. unfold edge_key. apply (rrel_bind eq).
  - apply (while_rel eq); [|reflexivity]. intros (c & w) s' <-. rd H. apply rrel_assert; [reflexivity|]. destruct (edge_eqb _ _); reflexivity.
  - intros w w' <-. rd H. reflexivity.
Qed.
Lemma w_add n h h' s e : hr h h' -> rrel (moves fset) (kset_add n h s e) (kset_add n h' (fset s) e).
Proof.
  intros H. unfold kset_add. apply (rrel_bind (moves fk)); [apply w_key, H|]. intros x y ->. cbn [rrel]. unfold fset. rewrite (existsb_map_eq fke (fun ke => key_eqb (fst ke) x)).
  - unfold moves. destruct (existsb _ _); reflexivity.
  - intros ke. apply fk_eqb.
Qed.
Lemma w_max s : forall best, kset_max (fke best) (fset s) = fke (kset_max best s).
Proof.
  induction s as [|x s IH]; intros best; cbn [fset map kset_max]; [reflexivity|]. cbn [fke fst]. rewrite fk_ltb.
  destruct (key_ltb (fst best) (fst x)); apply IH.
Qed.
Lemma w_popmax s : kset_popmax (fset s) = rbind (kset_popmax s) (fun x => Ok (fst x, fset (snd x))).
Proof.
  destruct s as [|x s]; [reflexivity|]. unfold kset_popmax. change (fset (x :: s)) with (fke x :: fset s). cbv iota. rewrite w_max. destruct (kset_max x s) as (q & e) eqn:E.
  cbn [fke fst snd rbind]. f_equal. f_equal. change (fke x :: fset s) with (map fke (x :: s)). unfold fset. apply filter_map_eq. intros ke. cbn [fke fst]. rewrite fk_eqb. reflexivity.
Qed.
Lemma w_pop s : rrel (fun x y => y = (fst x, fset (snd x))) (kset_popmax s) (kset_popmax (fset s)).
Proof. rewrite w_popmax. destruct (kset_popmax s); reflexivity. Qed.
Definition fsets : list kset -> list kset := map fset.
Lemma set_nth_map {A B} (g : A -> B) l v : forall i, set_nth i (g v) (map g l) = map g (set_nth i v l).
Proof. induction l as [|x l IH]; intros [|i]; cbn [map set_nth]; try reflexivity. rewrite IH. reflexivity. Qed.
Lemma nth_sets sets i : nth i (fsets sets) [] = fset (nth i sets []).
Proof. exact (map_nth fset sets [] i). Qed.
Lemma w_increments n h h' sets i e : hr h h' -> rrel (moves fsets) (increments_add n h sets i e) (increments_add n h' (fsets sets) i e).
Proof.
  intros H. unfold increments_add, fsets. rewrite py_index_map. destruct (py_index sets i) as [j|]; [|reflexivity]. fold fsets. change (map fset sets) with (fsets sets). rewrite nth_sets.
  apply (rrel_bind (moves fset)); [apply w_add, H|]. intros s s' ->. cbn [rrel]. apply set_nth_map.
Qed.
Lemma w_fold n h h' g g' off es : hr h h' -> (forall e, g' h' e = g h e) -> forall sets,
  rrel (moves fsets) (fold_increments n h g off es sets) (fold_increments n h' g' off es (fsets sets)).
Proof.
  intros H E. induction es as [|e es IH]; intros sets; cbn [fold_increments]; [reflexivity|]. rewrite E.
  apply (rrel_bind (moves fsets)); [apply w_increments, H|]. intros s s' ->. apply IH.
Qed.
Lemma fsets_repeat n : repeat [] n = fsets (repeat [] n).
Proof. induction n as [|n IH]; cbn [repeat fsets map]; [reflexivity|]. f_equal. exact IH. Qed.
Lemma w_mouths n h h' es : hr h h' -> rrel (moves fsets) (to_mouths_increments n h es) (to_mouths_increments n h' es).
Proof. intros H. unfold to_mouths_increments. rewrite (fsets_repeat (Z.to_nat (MAX_MOUTH_INCREMENT + 1 + MAX_MOUTH_DECREMENT))) at 2. apply w_fold; [exact H|]. intros e. apply r_mouth_inc, H. Qed.
Lemma w_ears n h h' es : hr h h' -> rrel (moves fsets) (to_ears_increments n h es) (to_ears_increments n h' es).
Proof. intros H. unfold to_ears_increments. rewrite (fsets_repeat (Z.to_nat (MAX_EAR_INCREMENT + 1 + MAX_EAR_DECREMENT))) at 2. apply w_fold; [exact H|]. intros e. apply r_ear_inc, H. Qed.
Lemma w_best sets : forall i l best, best_increment (fsets sets) i l best = best_increment sets i l best.
Proof. induction sets as [|s sets IH]; intros i l best; cbn [fsets map best_increment]; [reflexivity|]. fold fsets. change (map fset sets) with (fsets sets). rewrite IH. destruct s; reflexivity. Qed.
Lemma fset_length s : length (fset s) = length s.
Proof. apply map_length. Qed.

(** ** factories.py: the carving *)
Definition neg_rel (x y : option (edge * Z * heap) * kset * list edge) : Prop :=
  let '(o, s, c) := x in let '(o', s', c') := y in
  match o, o' with None, None => True | Some u, Some u' => ph u u' | _, _ => False end /\ s' = fset s /\ c' = c.
Lemma rrel_same {A B} (Q : B -> B -> Prop) (x : res A) g g' : (forall v, rrel Q (g v) (g' v)) -> rrel Q (rbind x g) (rbind x g').
Proof. intros H. destruct x; [apply H|reflexivity]. Qed.
Lemma w_negative n h h' l : hr h h' -> forall s c, rrel neg_rel (negative_mouths n h l s c) (negative_mouths n h' (map f l) (fset s) c).
Proof.
  intros H. induction n as [|n IH]; intros s c; cbn [negative_mouths]; [cbn; auto|].
  apply (rrel_bind _ _ _ _ _ _ (w_pop s)). intros (q & s1) y ->. cbn [fst snd]. rd H. apply rrel_same. intros _. apply rrel_same. intros [|]; [|apply IH].
  destruct (flippable h l (left_from_end h q)).
  - pose proof (w_flip _ _ (left_from_end h q) H) as W. rd W. cbn. repeat split; try reflexivity; apply W.
  - apply rrel_same. intros c1. apply IH.
Qed.
Definition tm_rel (x y : option (edge * Z) * heap * list kset * list edge) : Prop :=
  let '(o, h, s, c) := x in let '(o', h', s', c') := y in o' = o /\ hr h h' /\ s' = fsets s /\ c' = c.
Lemma w_target n m t l : forall h h' s c, hr h h' -> rrel tm_rel (target_mouths n m t h l s c) (target_mouths n m t h' (map f l) (fsets s) c).
Proof.
  induction n as [|n IH]; intros h h' s c H; cbn [target_mouths]; [cbn; auto|]. rewrite nth_sets.
  apply (rrel_bind _ _ _ _ _ _ (w_pop _)). intros (q & s1) y ->. cbn [fst snd]. unfold fsets. rewrite set_nth_map. rd H. apply rrel_same. intros mo.
  destruct (_ && _)%bool; [apply rrel_same; intros c1; apply IH, H|].
  assert (W : hr (if mo then h else flip h (left_from_end h q)) (if mo then h' else flip h' (left_from_end h q))) by (destruct mo; [exact H|apply w_flip, H]).
  rd W. destruct (_ =? _)%Z; [cbn; auto|]. apply (rrel_bind (moves fsets)); [apply w_increments, W|]. intros s2 s2' ->. apply IH, W.
Qed.
Lemma w_register m h h' : hr h h' -> forall es c s, rrel (fun x y => y = (fst x, fsets (snd x))) (register_neighbours m h es c s) (register_neighbours m h' es c (fsets s)).
Proof.
  intros H. induction es as [|e es IH]; intros c s; cbn [register_neighbours]; [reflexivity|]. rd H.
  apply (rrel_bind (moves fsets)); [apply w_increments, H|]. intros s1 s1' ->. apply IH.
Qed.
Record vr (x y : vstate) : Prop := Vr { vr_heap : hr (vs_heap x) (vs_heap y); vr_tri : vs_tri y = vs_tri x; vr_points : vs_points y = map f (vs_points x);
  vr_sets : vs_sets y = fsets (vs_sets x); vr_cands : vs_cands y = vs_cands x; vr_left : vs_left y = vs_left x }.
Lemma w_remove m x y e i j : vr x y -> rrel vr (remove_mouth m x e i j) (remove_mouth m y e i j).
Proof.
  intros [H Et Ep Es Ec El]. unfold remove_mouth. rewrite Et, Ep, Es, Ec, El. rd H. apply rrel_same. intros _. apply rrel_same. intros mo. apply rrel_same. intros _. apply rrel_same. intros c.
  apply (rrel_bind ph); [apply w_tri_delete, H|]. intros (t & h1) (t' & h1') (E & W). cbn [fst snd] in *. subst t'.
  apply (rrel_bind _ _ _ _ _ _ (w_register _ _ _ W _ _ _)). intros (c1 & s1) z ->. split; cbn [vs_heap vs_tri vs_points vs_sets vs_cands vs_left fst snd]; try reflexivity; [exact W|]. apply (mv_add k a b K).
Qed.
Definition step_rel {S} (R : S -> S -> Prop) (x y : S + S) : Prop := match x, y with inl u, inl u' => R u u' | inr v, inr v' => R v v' | _, _ => False end.
Lemma w_mouth_step m x y : vr x y -> rrel (step_rel vr) (mouth_step m x) (mouth_step m y).
Proof.
  intros V. pose proof V as [H Et Ep Es Ec El]. unfold mouth_step. rewrite El. destruct (vs_left x >? 0)%Z; [|exact V]. rewrite Es, Ep, Ec, Et.
  unfold fsets at 1. rewrite skipn_map. change (map fset (skipn ?n ?l)) with (fsets (skipn n l)). rewrite w_best. destruct (best_increment _ _ _ _) as [t|].
  - rewrite nth_sets, fset_length. apply (rrel_bind tm_rel); [apply w_target, H|]. intros (((o & h1) & s1) & c1) (((o' & h1') & s1') & c1') (-> & W & -> & ->).
    destruct o as [(e & i)|].
    + apply (rrel_bind vr); [apply w_remove; split; auto|]. intros u u' Hu. exact Hu.
    + apply (rrel_bind (moves fsets)); [apply w_mouths, W|]. intros s2 s2' ->. split; auto.
  - rewrite nth_sets, fset_length. apply (rrel_bind neg_rel); [apply w_negative, H|]. intros ((o & s1) & c1) ((o' & s1') & c1') (O & -> & ->). unfold fsets. rewrite set_nth_map.
    destruct o as [((e & i) & h1)|], o' as [((e' & i') & h1')|]; try contradiction.
    + destruct O as (E & W). cbn [fst snd] in *. apply prod_eq_inv in E. destruct E as (-> & ->). apply (rrel_bind vr); [apply w_remove; split; auto|]. intros u u' Hu. exact Hu.
    + split; auto.
Qed.
Lemma w_target_ears n m t h h' : hr h h' -> forall s c, rrel (fun x y => y = (fst (fst x), fsets (snd (fst x)), snd x)) (target_ears n m t h s c) (target_ears n m t h' (fsets s) c).
Proof.
  intros H. induction n as [|n IH]; intros s c; cbn [target_ears]; [reflexivity|]. rewrite nth_sets.
  apply (rrel_bind _ _ _ _ _ _ (w_pop _)). intros (q & s1) y ->. cbn [fst snd]. unfold fsets. rewrite set_nth_map. rd H.
  destruct (negb _); [apply rrel_same; intros c1; apply IH|]. destruct (_ =? _)%Z; [reflexivity|]. apply (rrel_bind (moves fsets)); [apply w_increments, H|]. intros s2 s2' ->. apply IH.
Qed.
Lemma w_flip_fan m h h' e : hr h h' -> rrel hr (flip_fan m h e) (flip_fan m h' e).
Proof.
  intros H. unfold flip_fan. apply (while_rel hr); [|exact H]. clear h h' H. intros h h' H. rd H. destruct (edge_eqb _ _); [exact H|]. apply w_flip, H.
Qed.
Lemma w_ear_step m x y : vr x y -> rrel (step_rel vr) (ear_step m x) (ear_step m y).
Proof.
  intros V. pose proof V as [H Et Ep Es Ec El]. unfold ear_step. rewrite El. destruct (vs_left x >? 0)%Z; [|exact V]. rewrite Es, Ep, Ec, Et.
  unfold fsets at 1. rewrite skipn_map. change (map fset (skipn ?n ?l)) with (fsets (skipn n l)). rewrite w_best. destruct (best_increment _ _ _ _) as [t|]; [|exact V].
  rewrite nth_sets, fset_length. apply (rrel_bind _ _ _ _ _ _ (w_target_ears _ _ _ _ _ H _ _)). intros ((o & s1) & c1) z ->. cbn [fst snd]. destruct o as [(e & i)|].
  - apply (rrel_bind hr); [apply w_flip_fan, H|]. intros h1 h1' W. apply rrel_same. intros _. apply rrel_same. intros c2. rd W.
    apply (rrel_bind ph); [apply w_tri_delete, W|]. intros (t1 & h2) (t' & h2') (E & W2). cbn [fst snd] in *. subst t'. rd W2. split; cbn [vs_heap vs_tri vs_points vs_sets vs_cands vs_left]; auto. apply w_flip, W2.
  - apply (rrel_bind (moves fsets)); [apply w_ears, H|]. intros s2 s2' ->. split; auto.
Qed.
Lemma w_border_vertices m h h' t : hr h h' -> rrel (moves (map f)) (triangulation_to_border_vertices m h t) (triangulation_to_border_vertices m h' t).
Proof.
  intros H. unfold triangulation_to_border_vertices. apply (rrel_bind eq); [apply w_boundary, H|]. intros es es' <-. cbn [rrel]. rewrite (r_starts _ _ H). apply mv_compress, K.
Qed.
Lemma w_vertex_sequence_ m h h' t es size : hr h h' -> rrel (moves (map f)) (to_vertex_sequence_ m h t es size) (to_vertex_sequence_ m h' t es size).
Proof.
  intros H. unfold to_vertex_sequence_. rewrite (r_starts _ _ H). unfold f. rewrite mv_compress, mv_set by exact K. fold f. rewrite lenZ_map. destruct (_ <? _)%Z; [reflexivity|].
  apply (rrel_bind (moves fsets)); [apply w_mouths, H|]. intros s s' ->. apply (rrel_bind vr).
  - apply (while_rel vr); [apply w_mouth_step|]. split; auto.
  - intros u u' U. pose proof U as [W Et Ep Es Ec El]. rewrite El, Et. apply (rrel_bind eq).
    + destruct (_ >? _)%Z; [apply w_boundary, W|reflexivity].
    + intros ears ears' <-. apply (rrel_bind (moves fsets)); [apply w_ears, W|]. intros s1 s1' ->. apply (rrel_bind vr).
      * apply (while_rel vr); [apply w_ear_step|]. split; auto.
      * intros v v' [W1 Et1 _ _ _ _]. rewrite Et1. apply w_border_vertices, W1.
Qed.
Lemma w_vertex_sequence ctx l size : rrel (moves (map f)) (to_vertex_sequence ctx l size) (to_vertex_sequence ctx (map f l) size).
Proof.
  unfold to_vertex_sequence. apply (rrel_bind ph); [apply w_delaunay|]. intros (t & h) (t' & h') (E & W). cbn [fst snd] in *. subst t'.
  apply (rrel_bind eq); [apply w_boundary, W|]. intros es es' <-. apply w_vertex_sequence_, W.
Qed.
Lemma w_multicontour_loop ctx sizes : forall choices prior l r,
  rrel (moves (map (map f))) (multicontour_loop ctx sizes choices prior l r) (multicontour_loop ctx sizes choices prior (map f l) (map (map f) r)).
Proof.
  induction sizes as [|size sizes IH]; intros [|c choices] prior l r; cbn [multicontour_loop]; try reflexivity.
  assert (E : (if match prior with Some k' => Bool.eqb c k' | None => false end then map f l else sort_points c (map f l)) = map f (if match prior with Some k' => Bool.eqb c k' | None => false end then l else sort_points c l)).
  { unfold f. rewrite mv_sort_points by exact K. destruct (match prior with Some _ => _ | None => _ end); reflexivity. }
  rewrite E. clear E. set (l1 := if match prior with Some k' => Bool.eqb c k' | None => false end then l else sort_points c l). rewrite py_take_map.
  apply (rrel_bind (moves (map f))); [apply w_vertex_sequence|]. intros vs vs' ->. rewrite lenZ_map. destruct (_ <=? _)%Z; [|apply IH].
  unfold f. rewrite mv_contour_segments, mv_touch by exact K. fold f. apply rrel_same. intros tc. rewrite py_drop_map. change [map f vs] with (map (map f) [vs]). rewrite <- map_app. apply IH.
Qed.
Lemma w_multicontour ctx l sizes choices : rrel (moves (map (map f))) (to_multicontour ctx l sizes choices) (to_multicontour ctx (map f l) sizes choices).
Proof. apply (w_multicontour_loop ctx sizes choices None l []). Qed.
Lemma w_fold_add l : forall acc, fold_left (fun acc p => add_point p acc) (map f l) (map f acc) = map f (fold_left (fun acc p => add_point p acc) l acc).
Proof. induction l as [|p l IH]; intros acc; cbn [map fold_left]; [reflexivity|]. unfold f. rewrite mv_add by exact K. apply IH. Qed.
Lemma w_hole_loop ctx sizes : forall choices prior l r bs,
  rrel (fun x y => y = (map (map f) (fst x), map f (snd x))) (hole_loop ctx sizes choices prior l r bs) (hole_loop ctx sizes choices prior (map f l) (map (map f) r) (map f bs)).
Proof.
  induction sizes as [|size sizes IH]; intros [|c choices] prior l r bs; cbn [hole_loop]; try reflexivity.
  assert (E : (if match prior with Some k' => Bool.eqb c k' | None => false end then map f l else sort_points c (map f l)) = map f (if match prior with Some k' => Bool.eqb c k' | None => false end then l else sort_points c l)).
  { unfold f. rewrite mv_sort_points by exact K. destruct (match prior with Some _ => _ | None => _ end); reflexivity. }
  rewrite E. clear E. set (l1 := if match prior with Some k' => Bool.eqb c k' | None => false end then l else sort_points c l). rewrite py_take_map.
  apply (rrel_bind (moves (map f))); [apply w_vertex_sequence|]. intros vs vs' ->. rewrite !lenZ_map. destruct (_ <=? _)%Z; [|apply IH].
  unfold f. rewrite mv_reverse. fold f. change [map f (reverse_vertices vs)] with (map (map f) [reverse_vertices vs]). rewrite <- map_app.
  apply rrel_assert; [apply mv_contours_ok, K|]. unfold f. rewrite mv_contour_segments, mv_touch by exact K. fold f. apply rrel_same. intros tc. rewrite py_drop_map, w_fold_add. apply IH.
Qed.
Definition follows_nearest (ctx : context) : Prop := forall l s, ctx_nearest ctx (map fs l) (fs s) = fs (ctx_nearest ctx l s).
Lemma w_detector ctx l s : follows_nearest ctx -> cross_or_overlap_holes ctx (map fs l) (fs s) = cross_or_overlap_holes ctx l s.
Proof.
  intros N. destruct l as [|x l]; [reflexivity|]. unfold cross_or_overlap_holes. change (map fs (x :: l)) with (fs x :: map fs l). cbv iota. change (fs x :: map fs l) with (map fs (x :: l)). rewrite N. apply mv_cross_overlap, K.
Qed.
Lemma w_polygon_mouth ctx l h h' bs e : follows_nearest ctx -> hr h h' -> polygon_is_mouth ctx (map fs l) h' (map f bs) e = polygon_is_mouth ctx l h bs e.
Proof.
  intros N H. unfold polygon_is_mouth. rd H. cbv zeta.
  change (Seg (f (start h e)) (f (end_ h (left_from_start h e)))) with (fs (Seg (start h e) (end_ h (left_from_start h e)))).
  change (Seg (f (end_ h e)) (f (end_ h (left_from_start h e)))) with (fs (Seg (end_ h e) (end_ h (left_from_start h e)))).
  rewrite !w_detector by exact N. unfold f. rewrite mv_mem by exact K. reflexivity.
Qed.
Lemma w_kset_of_list m h h' : hr h h' -> forall es s, rrel (moves fset) (kset_of_list m h es s) (kset_of_list m h' es (fset s)).
Proof. intros H. induction es as [|e es IH]; intros s; cbn [kset_of_list]; [reflexivity|]. apply (rrel_bind (moves fset)); [apply w_add, H|]. intros s1 s1' ->. apply IH. Qed.
Lemma w_add_neighbours m h h' : hr h h' -> forall es s d, rrel (fun x y => y = (fset (fst x), snd x)) (add_neighbours m h es s d) (add_neighbours m h' es (fset s) d).
Proof.
  intros H. induction es as [|e es IH]; intros s d; cbn [add_neighbours]; [reflexivity|]. rd H. apply (rrel_bind (moves fset)); [apply w_add, H|]. intros s1 s1' ->. apply IH.
Qed.
Record psr (x y : pstate) : Prop := Psr { psr_heap : hr (p_heap x) (p_heap y); psr_tri : p_tri y = p_tri x; psr_points : p_points y = map f (p_points x);
  psr_cands : p_cands y = fset (p_cands x); psr_neighbours : p_neighbours y = p_neighbours x; psr_size : p_size y = p_size x }.
Lemma w_border_step m ctx l size x y : follows_nearest ctx -> psr x y -> rrel (step_rel psr) (border_step m ctx l size x) (border_step m ctx (map fs l) size y).
Proof.
  intros N V. pose proof V as [H Et Ep Ec En El]. unfold border_step. rewrite El. destruct (p_size x <? size)%Z; [|exact V]. rewrite Ec, w_popmax.
  destruct (kset_popmax (p_cands x)) as [(e & cands)|ex]; cbn [rbind]; [|destruct ex; try reflexivity; exact V]. cbn [fst snd]. rewrite Ep, (w_polygon_mouth _ _ _ _ _ _ N H), Et, En. destruct (negb _).
  - split; auto.
  - rd H. apply (rrel_bind ph); [apply w_tri_delete, H|]. intros (t1 & h2) (t' & h2') (E & W2). cbn [fst snd] in *. subst t'. apply rrel_same. intros (ns & d).
    apply (rrel_bind _ _ _ _ _ _ (w_add_neighbours _ _ _ W2 _ _ _)). intros (c1 & d1) z ->. split; cbn [p_heap p_tri p_points p_cands p_neighbours p_size fst snd]; auto. apply (mv_add k a b K).
Qed.
Lemma w_polygon ctx l size sizes choices : follows_nearest ctx ->
  rrel (moves (move_polygon k a b)) (to_polygon ctx l size sizes choices) (to_polygon ctx (map f l) size sizes choices).
Proof.
  intros N. unfold to_polygon. apply (rrel_bind ph); [apply w_delaunay|]. intros (t & h) (t' & h') (E & W). cbn [fst snd] in *. subst t'.
  apply (rrel_bind eq); [apply w_boundary, W|]. intros es es' <-. rewrite (r_starts _ _ W). unfold f. rewrite !mv_set by exact K. fold f.
  rewrite (filter_map_eq f (fun p => negb (mem_point p (points_set (map (start h) es))))) by (intros p; unfold f; rewrite mv_mem by exact K; reflexivity).
  apply (rrel_bind _ _ _ _ _ _ (w_hole_loop ctx sizes choices None _ [] _)). intros (hs & bs) z ->. cbn [fst snd].
  assert (Eh : flat_map contour_segments (map (map f) hs) = map fs (flat_map contour_segments hs)) by (apply flat_map_map; apply mv_contour_segments).
  rewrite Eh.
  assert (Ed : map (fun e => (e, to_edge_neighbours h' e)) es = map (fun e => (e, to_edge_neighbours h e)) es) by (apply map_ext; intros e; rd W; reflexivity).
  rewrite Ed.
  assert (Ef : filter (polygon_is_mouth ctx (map fs (flat_map contour_segments hs)) h' (map f bs)) es = filter (polygon_is_mouth ctx (flat_map contour_segments hs) h bs) es) by (apply filter_ext; intros e; apply w_polygon_mouth; assumption).
  rewrite Ef. apply (rrel_bind (moves fset)); [apply (w_kset_of_list _ _ _ W _ [])|]. intros c c' ->. unfold f. rewrite mv_compress by exact K. fold f. rewrite lenZ_map.
  apply (rrel_bind psr).
  - apply (while_rel psr); [intros u u'; apply w_border_step, N|]. split; auto.
  - intros u u' [W1 Et1 _ _ _ _]. rewrite Et1. apply (rrel_bind (moves (map f))); [apply w_border_vertices, W1|]. intros vs vs' ->. rewrite lenZ_map. apply rrel_same. intros _. reflexivity.
Qed.
End H.
