(** The deterministic part of the code never raises [InvalidArgument]. *)
From Verif Require Import Base Geometry Ctx Utils QuadEdge Contracts Triangulation Factories Strategies ProgProofs LoopProofs.

Definition ni {A} (r : res A) : Prop := r <> Raise InvalidArgument.
Lemma ni_ok {A} (a : A) : ni (Ok a). Proof. discriminate. Qed.
Lemma ni_bind {A B} (m : res A) (f : A -> res B) : ni m -> (forall a, ni (f a)) -> ni (rbind m f).
Proof. intros H1 H2. destruct m as [a|e]; [apply H2|]. intros E. apply H1. cbn in E. injection E as ->. reflexivity. Qed.
Lemma ni_while {S R} n (body : S -> res (S + R)) s : (forall s, ni (body s)) -> ni (while_ n body s).
Proof.
  intros H. apply (while_inv (fun _ => True) (fun r => ni r)); [|discriminate|exact I].
  intros s0 _. specialize (H s0). destruct (body s0) as [[s'|r]|e]; [exact I|apply ni_ok|intros E; apply H; injection E as ->; reflexivity].
Qed.
Lemma ni_assert b : ni (assert_ b). Proof. destruct b; discriminate. Qed.
Lemma ni_mapM {A B} (f : A -> res B) l : (forall x, ni (f x)) -> ni (mapM f l).
Proof. intros H. induction l as [|x l IH]; [apply ni_ok|]. cbn [mapM]. apply ni_bind; [apply H|]. intros a. apply ni_bind; [exact IH|]. intros b. apply ni_ok. Qed.
Create HintDb ni.
Ltac ni_ := repeat (first
  [ apply ni_ok | apply ni_assert | solve [auto with ni] | apply ni_bind; [|intros ?] | apply ni_while; intros ?
  | apply ni_mapM; intros ?
  | progress cbv beta iota zeta
  | match goal with
    | |- ni (match ?x with _ => _ end) => destruct x
    | |- ni (Raise _) => discriminate
    end ]).
#[export] Hint Resolve ni_ok ni_assert : ni.

Lemma ni_is_prime v : ni (is_prime v).
Proof. unfold is_prime. ni_. Qed.
#[export] Hint Resolve ni_is_prime : ni.
Lemma ni_prior v : ni (to_prior_prime v). Proof. unfold to_prior_prime. ni_. Qed.
Lemma ni_next v : ni (to_next_prime v). Proof. unfold to_next_prime. ni_. Qed.
Lemma ni_leftmost l : ni (has_vertical_leftmost_segment l). Proof. unfold has_vertical_leftmost_segment. ni_. Qed.
Lemma ni_lowermost l : ni (has_horizontal_lowermost_segment l). Proof. unfold has_horizontal_lowermost_segment. ni_. Qed.
Lemma ni_convex vs : ni (are_vertices_non_convex vs). Proof. unfold are_vertices_non_convex. ni_. Qed.
#[export] Hint Resolve ni_prior ni_next ni_leftmost ni_lowermost ni_convex : ni.
Lemma ni_tri_delete h t e : ni (tri_delete h t e). Proof. unfold tri_delete. ni_. Qed.
Lemma ni_left fuel h b : ni (to_left_candidate fuel h b). Proof. unfold to_left_candidate. ni_. Qed.
Lemma ni_right fuel h b : ni (to_right_candidate fuel h b). Proof. unfold to_right_candidate. ni_. Qed.
#[export] Hint Resolve ni_tri_delete ni_left ni_right : ni.
Lemma ni_connect fuel h b : ni (connect_parts fuel h b). Proof. unfold connect_parts. ni_. Qed.
Lemma ni_base fuel h a b : ni (find_base_edge fuel h a b). Proof. unfold find_base_edge. ni_. Qed.
#[export] Hint Resolve ni_connect ni_base : ni.
Lemma ni_merge fuel h a b : ni (merge fuel h a b). Proof. unfold merge. ni_. Qed.
Lemma ni_init h l : ni (initialize_triangulation h l). Proof. unfold initialize_triangulation. ni_. Qed.
#[export] Hint Resolve ni_merge ni_init : ni.
Lemma ni_init_all l : forall h, ni (initialize_all h l). Proof. induction l; intros h; cbn [initialize_all]; ni_. Qed.
#[export] Hint Resolve ni_init_all : ni.
Lemma ni_round fuel n : forall h l, length l <= n -> ni (merge_round fuel h l).
Proof.
  induction n as [|n IH]; intros h l Hl; destruct l as [|a [|b l]]; cbn in Hl; try lia; cbn [merge_round]; ni_.
  apply IH. lia.
Qed.
Lemma ni_round' fuel h l : ni (merge_round fuel h l). Proof. eapply ni_round, le_n. Qed.
#[export] Hint Resolve ni_round' : ni.
Lemma ni_rounds fuel n : forall h l, ni (merge_rounds fuel n h l).
Proof. induction n as [|n IH]; intros h l; cbn [merge_rounds]; ni_. Qed.
#[export] Hint Resolve ni_rounds : ni.
Lemma ni_delaunay ctx l : ni (delaunay ctx l). Proof. unfold delaunay. ni_. Qed.
Lemma ni_boundary fuel h t : ni (to_boundary_edges fuel h t). Proof. unfold to_boundary_edges. ni_. Qed.
#[export] Hint Resolve ni_delaunay ni_boundary : ni.

Lemma ni_remove_edge e l : ni (remove_edge e l). Proof. unfold remove_edge. ni_. Qed.
Lemma ni_is_mouth h e l : ni (is_mouth h e l). Proof. unfold is_mouth. ni_. Qed.
Lemma ni_edge_key fuel h e : ni (edge_key fuel h e). Proof. unfold edge_key. ni_. Qed.
#[export] Hint Resolve ni_remove_edge ni_is_mouth ni_edge_key : ni.
Lemma ni_kset_add fuel h s e : ni (kset_add fuel h s e). Proof. unfold kset_add. ni_. Qed.
Lemma ni_popmax s : ni (kset_popmax s). Proof. unfold kset_popmax. ni_. Qed.
#[export] Hint Resolve ni_kset_add ni_popmax : ni.
Lemma ni_increments_add fuel h s i e : ni (increments_add fuel h s i e). Proof. unfold increments_add. ni_. Qed.
#[export] Hint Resolve ni_increments_add : ni.
Lemma ni_fold_increments fuel h f o es : forall s, ni (fold_increments fuel h f o es s).
Proof. induction es; intros s; cbn [fold_increments]; ni_. Qed.
#[export] Hint Resolve ni_fold_increments : ni.
Lemma ni_mouths fuel h es : ni (to_mouths_increments fuel h es). Proof. unfold to_mouths_increments. ni_. Qed.
Lemma ni_ears fuel h es : ni (to_ears_increments fuel h es). Proof. unfold to_ears_increments. ni_. Qed.
#[export] Hint Resolve ni_mouths ni_ears : ni.
Lemma ni_negative n : forall h points s cands, ni (negative_mouths n h points s cands).
Proof. induction n; intros; cbn [negative_mouths]; ni_. Qed.
Lemma ni_target_mouths n : forall fuel target h points sets cands, ni (target_mouths n fuel target h points sets cands).
Proof. induction n; intros; cbn [target_mouths]; ni_. Qed.
Lemma ni_register fuel h es : forall cands sets, ni (register_neighbours fuel h es cands sets).
Proof. induction es; intros; cbn [register_neighbours]; ni_. Qed.
#[export] Hint Resolve ni_negative ni_target_mouths ni_register : ni.
Lemma ni_remove_mouth fuel st c a t : ni (remove_mouth fuel st c a t). Proof. unfold remove_mouth. ni_. Qed.
#[export] Hint Resolve ni_remove_mouth : ni.
Lemma ni_mouth_step fuel st : ni (mouth_step fuel st). Proof. unfold mouth_step. ni_. Qed.
Lemma ni_target_ears n : forall fuel target h sets cands, ni (target_ears n fuel target h sets cands).
Proof. induction n; intros; cbn [target_ears]; ni_. Qed.
Lemma ni_flip_fan fuel h c : ni (flip_fan fuel h c). Proof. unfold flip_fan. ni_. Qed.
#[export] Hint Resolve ni_mouth_step ni_target_ears ni_flip_fan : ni.
Lemma ni_ear_step fuel st : ni (ear_step fuel st). Proof. unfold ear_step. ni_. Qed.
Lemma ni_border_vertices fuel h t : ni (triangulation_to_border_vertices fuel h t). Proof. unfold triangulation_to_border_vertices. ni_. Qed.
#[export] Hint Resolve ni_ear_step ni_border_vertices : ni.
Lemma ni_vertex_sequence_ fuel h t es size : ni (to_vertex_sequence_ fuel h t es size). Proof. unfold to_vertex_sequence_. ni_. Qed.
#[export] Hint Resolve ni_vertex_sequence_ : ni.
Lemma ni_vertex_sequence ctx l size : ni (to_vertex_sequence ctx l size). Proof. unfold to_vertex_sequence. ni_. Qed.
Lemma ni_touch k l : ni (touch_predicate k l). Proof. unfold touch_predicate. ni_. Qed.
#[export] Hint Resolve ni_vertex_sequence ni_touch : ni.
Lemma ni_multicontour_loop ctx sizes : forall choices prior l r, ni (multicontour_loop ctx sizes choices prior l r).
Proof. induction sizes; intros; cbn [multicontour_loop]; ni_. Qed.
#[export] Hint Resolve ni_multicontour_loop : ni.
Lemma ni_multicontour ctx l sizes choices : ni (to_multicontour ctx l sizes choices). Proof. unfold to_multicontour. ni_. Qed.
Lemma ni_hole_loop ctx sizes : forall choices prior l r b, ni (hole_loop ctx sizes choices prior l r b).
Proof. induction sizes; intros; cbn [hole_loop]; ni_. Qed.
Lemma ni_kset_of_list fuel h es : forall s, ni (kset_of_list fuel h es s).
Proof. induction es; intros; cbn [kset_of_list]; ni_. Qed.
Lemma ni_dict_pop d e : ni (dict_pop d e). Proof. unfold dict_pop. ni_. Qed.
Lemma ni_add_neighbours fuel h es : forall s d, ni (add_neighbours fuel h es s d).
Proof. induction es; intros; cbn [add_neighbours]; ni_. Qed.
#[export] Hint Resolve ni_hole_loop ni_kset_of_list ni_dict_pop ni_add_neighbours : ni.
Lemma ni_border_step fuel ctx hs n st : ni (border_step fuel ctx hs n st).
Proof.
  unfold border_step. destruct (_ <? _)%Z; [|apply ni_ok]. pose proof (ni_popmax (p_cands st)) as H.
  destruct (kset_popmax (p_cands st)) as [(e & c)|e]; [ni_|]. destruct e; try discriminate. exfalso. apply H. reflexivity.
Qed.
#[export] Hint Resolve ni_border_step : ni.
Lemma ni_polygon ctx l n sizes choices : ni (to_polygon ctx l n sizes choices). Proof. unfold to_polygon. ni_. Qed.
#[export] Hint Resolve ni_multicontour ni_polygon : ni.
Lemma ni_coordinate l i : ni (coordinate l i). Proof. unfold coordinate. ni_. Qed.
#[export] Hint Resolve ni_coordinate : ni.
Lemma ni_x_points g xs ys s : ni (x_indices_to_points g xs ys s). Proof. unfold x_indices_to_points. ni_. Qed.
Lemma ni_y_points g xs ys s : ni (y_indices_to_points g xs ys s). Proof. unfold y_indices_to_points. ni_. Qed.
Lemma ni_spread s m l : ni (spread_sizes s m l). Proof. unfold spread_sizes. ni_. Qed.
Lemma ni_blocks a l : ni (blocks_touch a l). Proof. unfold blocks_touch. ni_. Qed.
#[export] Hint Resolve ni_x_points ni_y_points ni_spread ni_blocks : ni.

Section Angles.
  Context (ctx : context) (Ha : forall y x, ctx_atan2 ctx y x <> Raise InvalidArgument).
  Lemma ni_atan2 y x : ni (ctx_atan2 ctx y x). Proof. apply Ha. Qed.
  Hint Resolve ni_atan2 : ni.
  Lemma ni_angle s e : ni (to_segment_angle ctx s e). Proof. unfold to_segment_angle. ni_. Qed.
  Hint Resolve ni_angle : ni.
  Lemma ni_centroid l : ni (region_centroid l). Proof. unfold region_centroid. ni_. Qed.
  Hint Resolve ni_centroid : ni.
  Lemma ni_star_step c r : ni (star_step ctx c r). Proof. unfold star_step. ni_. Qed.
  Hint Resolve ni_star_step : ni.
  Lemma ni_star l : ni (to_star_contour_vertices ctx l). Proof. unfold to_star_contour_vertices. ni_. Qed.
  Lemma ni_convex_sequence l bx by_ sh : ni (to_convex_vertex_sequence ctx l bx by_ sh).
  Proof. unfold to_convex_vertex_sequence. ni_. Qed.
End Angles.
