(** A larger iteration bound changes nothing but [OutOfFuel]. *)
From Coq Require Import List Lia.
From Verif Require Import Base Geometry Ctx Utils QuadEdge Triangulation Factories LoopProofs TriProofs.
Import ListNotations.
Open Scope nat_scope.

(** [upto x y]: [x] is [y], unless it ran out of iterations. *)
Definition upto {A} (x y : res A) : Prop := x = Raise OutOfFuel \/ x = y.
Lemma upto_refl {A} (x : res A) : upto x x.
Proof. right. reflexivity. Qed.
Lemma upto_bind {A B} (x y : res A) (f g : A -> res B) : upto x y -> (forall a, upto (f a) (g a)) -> upto (rbind x f) (rbind y g).
Proof.
  intros [-> | ->] H; [left; reflexivity|]. destruct y as [a|e]; [apply H|apply upto_refl].
Qed.
Lemma upto_while {S R} n n' (f g : S -> res (S + R)) s : (n <= n')%positive -> (forall s, upto (f s) (g s)) -> upto (while_ n f s) (while_ n' g s).
Proof.
  intros Hn H. unfold while_. rewrite !loop_nloop. apply Pos2Nat.inj_le in Hn.
  revert s Hn. generalize (Pos.to_nat n') as k'. induction (Pos.to_nat n) as [|k IH]; intros k' s Hk; [left; reflexivity|].
  destruct k' as [|k']; [lia|]. cbn [nloop]. destruct (H s) as [-> | ->]; [left; reflexivity|]. destruct (g s) as [[s'|r]|e]; [apply IH; lia|apply upto_refl..].
Qed.

Create HintDb upto.
#[local] Hint Resolve upto_refl : upto.
Ltac up :=
  intros; cbv zeta;
  lazymatch goal with
  | |- upto (rbind _ _) (rbind _ _) => apply upto_bind; up
  | |- upto (while_ _ _ _) (while_ _ _ _) => apply upto_while; [assumption|up]
  | |- upto (match ?x with _ => _ end) _ =>
      first [ solve [auto with upto] | destruct x; up ]
  | |- upto _ _ => solve [auto with upto]
  end.

Section F.
Context (n n' : positive) (Hn : (n <= n')%positive).
Lemma upto_left h b : upto (to_left_candidate n h b) (to_left_candidate n' h b).
Proof. unfold to_left_candidate. up. Qed.
Lemma upto_right h b : upto (to_right_candidate n h b) (to_right_candidate n' h b).
Proof. unfold to_right_candidate. up. Qed.
#[local] Hint Resolve upto_left upto_right : upto.
Lemma upto_connect h b : upto (connect_parts n h b) (connect_parts n' h b).
Proof. unfold connect_parts. up. Qed.
Lemma upto_base h s o : upto (find_base_edge n h s o) (find_base_edge n' h s o).
Proof. unfold find_base_edge. up. Qed.
#[local] Hint Resolve upto_connect upto_base : upto.
Lemma upto_merge h s o : upto (merge n h s o) (merge n' h s o).
Proof. unfold merge. up. Qed.
#[local] Hint Resolve upto_merge : upto.
Lemma upto_round : forall k ts h, length ts <= k -> upto (merge_round n h ts) (merge_round n' h ts).
Proof.
  induction k as [|k IH]; intros ts h Hk; destruct ts as [|a [|b ts]]; cbn [merge_round length] in *; try apply upto_refl; try lia.
  apply upto_bind; [apply upto_merge|]. intros (t & h1). apply upto_bind; [apply IH; lia|]. up.
Qed.
Lemma upto_rounds r : forall ts h, upto (merge_rounds n r h ts) (merge_rounds n' r h ts).
Proof.
  induction r as [|r IH]; intros ts h; cbn [merge_rounds]; [apply upto_refl|].
  apply upto_bind; [apply (upto_round (length ts)); lia|]. intros (ts' & h'). apply IH.
Qed.
Lemma upto_boundary h t : upto (to_boundary_edges n h t) (to_boundary_edges n' h t).
Proof. unfold to_boundary_edges. up. Qed.
Lemma upto_key h e : upto (edge_key n h e) (edge_key n' h e).
Proof. unfold edge_key. up. Qed.
#[local] Hint Resolve upto_rounds upto_boundary upto_key : upto.
Lemma upto_add h s e : upto (kset_add n h s e) (kset_add n' h s e).
Proof. unfold kset_add. up. Qed.
#[local] Hint Resolve upto_add : upto.
Lemma upto_increments h s i e : upto (increments_add n h s i e) (increments_add n' h s i e).
Proof. unfold increments_add. up. Qed.
#[local] Hint Resolve upto_increments : upto.
Lemma upto_fold h f o es : forall s, upto (fold_increments n h f o es s) (fold_increments n' h f o es s).
Proof. induction es as [|e es IH]; intros s; cbn [fold_increments]; up. Qed.
#[local] Hint Resolve upto_fold : upto.
Lemma upto_mouths h es : upto (to_mouths_increments n h es) (to_mouths_increments n' h es).
Proof. unfold to_mouths_increments. up. Qed.
Lemma upto_ears h es : upto (to_ears_increments n h es) (to_ears_increments n' h es).
Proof. unfold to_ears_increments. up. Qed.
#[local] Hint Resolve upto_mouths upto_ears : upto.
Lemma upto_target_mouths k t : forall h p s c, upto (target_mouths k n t h p s c) (target_mouths k n' t h p s c).
Proof. induction k as [|k IH]; intros h p s c; cbn [target_mouths]; up. Qed.
Lemma upto_target_ears k t h : forall s c, upto (target_ears k n t h s c) (target_ears k n' t h s c).
Proof. induction k as [|k IH]; intros s c; cbn [target_ears]; up. Qed.
Lemma upto_register h es : forall c s, upto (register_neighbours n h es c s) (register_neighbours n' h es c s).
Proof. induction es as [|e es IH]; intros c s; cbn [register_neighbours]; up. Qed.
#[local] Hint Resolve upto_target_mouths upto_target_ears upto_register : upto.
Lemma upto_remove st c a t : upto (remove_mouth n st c a t) (remove_mouth n' st c a t).
Proof. unfold remove_mouth. up. Qed.
#[local] Hint Resolve upto_remove : upto.
Lemma upto_mouth_step st : upto (mouth_step n st) (mouth_step n' st).
Proof. unfold mouth_step. up. Qed.
Lemma upto_fan h c : upto (flip_fan n h c) (flip_fan n' h c).
Proof. unfold flip_fan. up. Qed.
#[local] Hint Resolve upto_mouth_step upto_fan : upto.
Lemma upto_ear_step st : upto (ear_step n st) (ear_step n' st).
Proof. unfold ear_step. up. Qed.
Lemma upto_vertices h t : upto (triangulation_to_border_vertices n h t) (triangulation_to_border_vertices n' h t).
Proof. unfold triangulation_to_border_vertices. up. Qed.
#[local] Hint Resolve upto_ear_step upto_vertices : upto.
Lemma upto_sequence_ h t es s : upto (to_vertex_sequence_ n h t es s) (to_vertex_sequence_ n' h t es s).
Proof. unfold to_vertex_sequence_. up. Qed.
Lemma upto_kset h es : forall s, upto (kset_of_list n h es s) (kset_of_list n' h es s).
Proof. induction es as [|e es IH]; intros s; cbn [kset_of_list]; up. Qed.
Lemma upto_neighbours h es : forall c d, upto (add_neighbours n h es c d) (add_neighbours n' h es c d).
Proof. induction es as [|e es IH]; intros c d; cbn [add_neighbours]; up. Qed.
End F.

(** The context with another bound. *)
Definition with_fuel (ctx : context) (n : positive) : context :=
  Context n (ctx_coins ctx) (ctx_hull ctx) (ctx_atan2 ctx) (ctx_nearest ctx).
Section C.
Context (ctx : context) (n : positive) (Hn : (ctx_fuel ctx <= n)%positive).
#[local] Hint Resolve upto_rounds upto_boundary upto_sequence_ upto_kset upto_vertices upto_neighbours : upto.
Lemma upto_delaunay l : upto (delaunay ctx l) (delaunay (with_fuel ctx n) l).
Proof. unfold delaunay, with_fuel. cbn [ctx_coins ctx_fuel]. up. Qed.
#[local] Hint Resolve upto_delaunay : upto.
Lemma upto_sequence l s : upto (to_vertex_sequence ctx l s) (to_vertex_sequence (with_fuel ctx n) l s).
Proof. unfold to_vertex_sequence. change (ctx_fuel (with_fuel ctx n)) with n. up. Qed.
#[local] Hint Resolve upto_sequence : upto.
Lemma upto_multicontour sizes : forall ch pr l r, upto (multicontour_loop ctx sizes ch pr l r) (multicontour_loop (with_fuel ctx n) sizes ch pr l r).
Proof. induction sizes as [|s sizes IH]; intros ch pr l r; destruct ch; cbn [multicontour_loop]; up. Qed.
Lemma upto_holes sizes : forall ch pr l hs bp, upto (hole_loop ctx sizes ch pr l hs bp) (hole_loop (with_fuel ctx n) sizes ch pr l hs bp).
Proof. induction sizes as [|s sizes IH]; intros ch pr l hs bp; destruct ch; cbn [hole_loop]; up. Qed.
#[local] Hint Resolve upto_holes : upto.
Lemma upto_border_step hes size st : upto (border_step (ctx_fuel ctx) ctx hes size st) (border_step n (with_fuel ctx n) hes size st).
Proof.
  unfold border_step. change (polygon_is_mouth (with_fuel ctx n)) with (polygon_is_mouth ctx). up.
Qed.
#[local] Hint Resolve upto_border_step : upto.
Lemma upto_polygon l s sizes ch : upto (to_polygon ctx l s sizes ch) (to_polygon (with_fuel ctx n) l s sizes ch).
Proof. unfold to_polygon. change (polygon_is_mouth (with_fuel ctx n)) with (polygon_is_mouth ctx). change (ctx_fuel (with_fuel ctx n)) with n. up. Qed.
End C.
Lemma bound_irrelevant ctx n : (ctx_fuel ctx <= n)%positive ->
  (forall l, delaunay ctx l <> Raise OutOfFuel -> delaunay (with_fuel ctx n) l = delaunay ctx l) /\
  (forall l s, to_vertex_sequence ctx l s <> Raise OutOfFuel -> to_vertex_sequence (with_fuel ctx n) l s = to_vertex_sequence ctx l s) /\
  (forall l s c, to_multicontour ctx l s c <> Raise OutOfFuel -> to_multicontour (with_fuel ctx n) l s c = to_multicontour ctx l s c) /\
  (forall l z s c, to_polygon ctx l z s c <> Raise OutOfFuel -> to_polygon (with_fuel ctx n) l z s c = to_polygon ctx l z s c).
Proof.
  intros Hn. split; [|split; [|split]].
  - intros l H. destruct (upto_delaunay ctx n Hn l) as [E|E]; [contradiction|symmetry; exact E].
  - intros l s H. destruct (upto_sequence ctx n Hn l s) as [E|E]; [contradiction|symmetry; exact E].
  - intros l s c H. unfold to_multicontour in *. destruct (upto_multicontour ctx n Hn s c None l []) as [E|E]; [contradiction|symmetry; exact E].
  - intros l z s c H. destruct (upto_polygon ctx n Hn l z s c) as [E|E]; [contradiction|symmetry; exact E].
Qed.
