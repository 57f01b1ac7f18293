(** Moving and rescaling: the strategies and the public functions. *)
From Verif Require Import Base Prog Geometry Ctx Utils Contracts Factories Strategies Planar MoveSpec MoveBase MoveHeap MoveFactories.
Import List ListNotations.

Notation "p ~[ m ] q" := (prel (fun x y => y = m x) p q) (at level 70).

Section S.
Context (ctx : context) (k a b : Qc) (K : (0 < k)%Qc).
Let fx := move_scalar k a.
Let fy := move_scalar k b.
Let f := move_point k a b.
Let fs := move_segment k a b.
Let fp := move_polygon k a b.

Lemma m_scalar c s : draw_scalar s ~[ move_scalar k c ] draw_scalar (move_scalars k c s).
Proof.
  destruct s as [p|l]; cbn [draw_scalar move_scalars]; [|apply prel_sampled]. unfold pmap. induction p; cbn [bind]; constructor; auto.
Qed.
Lemma m_unique c s mn mx : unique_scalars s mn mx ~[ map (move_scalar k c) ] unique_scalars (move_scalars k c s) mn mx.
Proof.
  pose proof (m_scalar c s) as H. destruct s as [p|l]; cbn [unique_scalars move_scalars draw_scalar] in *.
  - apply prel_unique; [intros x y; apply mv_qeqb, K|exact H].
  - rewrite lenZ_map. destruct (_ <? _)%Z; [constructor|]. apply prel_unique; [intros x y; apply mv_qeqb, K|exact H].
Qed.

Section XY.
Context (xs : scalars) (ys ys' : option scalars).
Let xs' := move_scalars k a xs.
Context (Ey : or_else ys' xs' = move_scalars k b (or_else ys xs)).

Lemma m_pair c s : draw_sorted_pair s ~[ fun p => (move_scalar k c (fst p), move_scalar k c (snd p)) ] draw_sorted_pair (move_scalars k c s).
Proof.
  unfold draw_sorted_pair. apply (prel_bind _ _ _ _ _ _ (m_unique c s 2 (Some 2%Z))). intros l l' ->. destruct l as [|x [|y [|]]]; cbn [map]; constructor.
  unfold sort_pair. rewrite (mv_qltb k K c). destruct (qltb x y), (qltb y x); reflexivity.
Qed.
Lemma m_box : to_box_strategy xs ys ~[ move_box k a b ] to_box_strategy xs' ys'.
Proof.
  unfold to_box_strategy. rewrite Ey. apply (prel_bind _ _ _ _ _ _ (m_pair a xs)). intros (x1 & x2) p ->.
  apply (prel_bind _ _ _ _ _ _ (m_pair b _)). intros (y1 & y2) q ->. constructor. reflexivity.
Qed.
Lemma m_point : to_point_strategy xs ys ~[ f ] to_point_strategy xs' ys'.
Proof.
  unfold to_point_strategy. rewrite Ey. apply (prel_bind _ _ _ _ _ _ (m_scalar a xs)). intros x x' ->.
  apply (prel_bind _ _ _ _ _ _ (m_scalar b _)). intros y y' ->. constructor. reflexivity.
Qed.
Lemma m_points mn mx : to_unique_point_sequence_strategy xs ys mn mx ~[ map f ] to_unique_point_sequence_strategy xs' ys' mn mx.
Proof. apply prel_unique; [intros p q; apply mv_point_eqb, K|apply m_point]. Qed.
Lemma m_segment : to_segment_strategy xs ys ~[ fs ] to_segment_strategy xs' ys'.
Proof.
  unfold to_segment_strategy. apply (prel_bind (fun x y => y = (f (fst x), f (snd x)))).
  - apply prel_filter.
    + apply (prel_bind _ _ _ _ _ _ m_point). intros p p' ->. apply (prel_bind _ _ _ _ _ _ m_point). intros q q' ->. constructor. reflexivity.
    + intros p q ->. cbn [fst snd]. unfold f. rewrite mv_point_eqb by exact K. reflexivity.
  - intros (p & q) r ->. constructor. reflexivity.
Qed.
Lemma m_rectangle : to_rectangular_vertex_sequence_strategy xs ys ~[ map f ] to_rectangular_vertex_sequence_strategy xs' ys'.
Proof. apply (prel_pmap _ _ _ _ _ _ m_box). intros o o' ->. reflexivity. Qed.
Lemma m_ccw vs : to_counterclockwise_vertices (map f vs) = map f (to_counterclockwise_vertices vs).
Proof. destruct vs as [|p [|q [|r [|]]]]; try reflexivity. cbn [map to_counterclockwise_vertices]. unfold f. rewrite mv_orientation by exact K. destruct (orientation_eqb _ _); reflexivity. Qed.
Lemma m_triangle : to_triangular_vertex_sequence_strategy xs ys ~[ map f ] to_triangular_vertex_sequence_strategy xs' ys'.
Proof.
  unfold to_triangular_vertex_sequence_strategy. apply (prel_pmap (fun x y => y = map f x)); [|intros l l' ->; apply m_ccw].
  apply prel_filter; [apply prel_draw_n, m_point|]. intros l l' ->. apply mv_strict, K.
Qed.
Lemma m_coordinate c l i : rrel (moves (move_scalar k c)) (coordinate l i) (coordinate (map (move_scalar k c) l) i).
Proof. unfold coordinate. rewrite py_get_map. destruct (py_get l i); reflexivity. Qed.
Lemma m_xi n l m s : rrel (moves (map f)) (x_indices_to_points n l m s) (x_indices_to_points n (map fx l) (map fy m) s).
Proof.
  unfold x_indices_to_points. apply rrel_same. intros _. apply mapM_rel. intros i. apply (rrel_bind _ _ _ _ _ _ (m_coordinate a l i)). intros x x' ->.
  apply (rrel_bind _ _ _ _ _ _ (m_coordinate b m _)). intros y y' ->. reflexivity.
Qed.
Lemma m_yi n l m s : rrel (moves (map f)) (y_indices_to_points n l m s) (y_indices_to_points n (map fx l) (map fy m) s).
Proof.
  unfold y_indices_to_points. apply rrel_same. intros _. apply mapM_rel. intros i. apply (rrel_bind _ _ _ _ _ _ (m_coordinate a l _)). intros x x' ->.
  apply (rrel_bind _ _ _ _ _ _ (m_coordinate b m _)). intros y y' ->. reflexivity.
Qed.
Lemma m_grid mn mx : to_point_sequence_in_general_position_strategy xs ys mn mx ~[ map f ] to_point_sequence_in_general_position_strategy xs' ys' mn mx.
Proof.
  unfold to_point_sequence_in_general_position_strategy. rewrite Ey. apply prel_lift_same. intros lower. cbv zeta.
  apply (prel_bind _ _ _ _ _ _ (m_unique a xs _ _)). intros l l' ->. apply (prel_bind _ _ _ _ _ _ (m_unique b _ _ _)). intros m m' ->.
  rewrite (isort_map (move_scalar k a) qleb qleb _ (mv_qleb k K a)), (isort_map (move_scalar k b) qleb qleb _ (mv_qleb k K b)), !lenZ_map.
  apply prel_lift_same. intros n. apply prel_alt; apply prel_draw; intros s; apply prel_lift; [apply m_xi|apply m_yi].
Qed.

Section Follow.
Context (Fo : follows_motion ctx k a b).
Lemma m_convex mn mx : to_convex_vertex_sequence_strategy ctx xs ys mn mx ~[ map f ] to_convex_vertex_sequence_strategy ctx xs' ys' mn mx.
Proof.
  unfold to_convex_vertex_sequence_strategy. destruct (match mx with None => _ | Some _ => _ end); [apply m_triangle|]. cbv zeta.
  match goal with |- prel _ (if _ then alt _ ?p else ?p) (if _ then alt _ ?q else ?q) => assert (H : p ~[ map f ] q) end.
  { match goal with |- prel _ (if _ then alt _ ?p else ?p) (if _ then alt _ ?q else ?q) => assert (H : p ~[ map f ] q) end.
    { apply prel_filter; [|intros l l' ->; apply mv_valid_size]. apply (prel_bind _ _ _ _ _ _ (m_grid mn mx)). intros l l' ->. rewrite map_length.
      apply prel_draw. intros bx. apply prel_draw. intros by_. apply prel_draw. intros perm. apply prel_lift, mv_convex; assumption. }
    destruct (mn <=? 4)%Z; [apply prel_alt; [apply m_rectangle|exact H]|exact H]. }
  destruct (mn =? 3)%Z; [apply prel_alt; [apply m_triangle|exact H]|exact H].
Qed.
Lemma m_star mn mx : to_star_vertex_sequence_strategy ctx xs ys mn mx ~[ map f ] to_star_vertex_sequence_strategy ctx xs' ys' mn mx.
Proof.
  apply prel_filter; [|intros l l' ->; apply mv_valid_size]. apply (prel_bind _ _ _ _ _ _ (m_grid mn mx)). intros l l' ->. apply prel_lift, mv_star; [exact K|apply Fo].
Qed.
Lemma m_carved mn mx : to_carved_vertex_sequence_strategy ctx xs ys mn mx ~[ map f ] to_carved_vertex_sequence_strategy ctx xs' ys' mn mx.
Proof.
  apply prel_filter; [|intros l l' ->; apply mv_valid_size]. apply (prel_bind _ _ _ _ _ _ (m_grid mn mx)). intros l l' ->. rewrite lenZ_map.
  apply prel_draw. intros size. apply prel_lift, w_vertex_sequence, K.
Qed.
Lemma m_vertex_sequences mn mx : to_vertex_sequences_ ctx xs ys mn mx ~[ map f ] to_vertex_sequences_ ctx xs' ys' mn mx.
Proof. apply prel_alt; [apply m_star|apply m_carved]. Qed.
Lemma m_concave mn mx : to_concave_vertex_sequence_strategy ctx xs ys mn mx ~[ map f ] to_concave_vertex_sequence_strategy ctx xs' ys' mn mx.
Proof. apply prel_filter_res; [apply m_vertex_sequences|]. intros l l' ->. apply mv_non_convex, K. Qed.
Lemma m_vertex_sequence mn mx : to_vertex_sequence_strategy ctx xs ys mn mx ~[ map f ] to_vertex_sequence_strategy ctx xs' ys' mn mx.
Proof. apply prel_alt; [apply m_convex|apply m_vertex_sequences]. Qed.
Lemma m_multicontour mn mx cn cx : to_multicontour_strategy ctx xs ys mn mx cn cx ~[ map (map f) ] to_multicontour_strategy ctx xs' ys' mn mx cn cx.
Proof.
  unfold to_multicontour_strategy. apply prel_filter; [|intros l l' ->; apply mv_valid_sizes]. apply (prel_bind _ _ _ _ _ _ (m_grid _ _)). intros l l' ->. rewrite lenZ_map.
  apply prel_draw. intros size. apply prel_draw. intros sizes. apply prel_draw. intros choices. apply prel_lift, w_multicontour, K.
Qed.
Lemma m_hole_sizes l n x s : to_hole_sizes (map f l) n x s = to_hole_sizes l n x s.
Proof. unfold to_hole_sizes, f. rewrite mv_max_hull by exact K. rewrite !lenZ_map. reflexivity. Qed.
Lemma m_polygon mn mx cn cx hn hx : to_polygon_strategy ctx xs ys mn mx cn cx hn hx ~[ fp ] to_polygon_strategy ctx xs' ys' mn mx cn cx hn hx.
Proof.
  destruct Fo as (Hh & Hn & _). unfold to_polygon_strategy. apply prel_filter.
  - apply (prel_bind (fun x y => y = map f x)).
    + apply prel_filter; [apply m_grid|]. intros l l' ->. unfold f. rewrite Hh, mv_max_hull by exact K. rewrite !lenZ_map. reflexivity.
    + intros l l' ->. unfold f. rewrite Hh. fold f. rewrite !lenZ_map, m_hole_sizes. apply prel_draw. intros size. apply prel_draw. intros sizes. apply prel_draw. intros choices.
      apply prel_lift, w_polygon; [exact K|exact Hn].
  - intros p p' ->. unfold polygon_has_valid_sizes. cbn [border holes fp move_polygon]. f_equal; [apply mv_valid_size|apply mv_valid_sizes].
Qed.
End Follow.
End XY.

Context (Fo : follows_motion ctx k a b).
Lemma m_vertical x l : to_vertical_multisegment (fx x) (map fy l) = map fs (to_vertical_multisegment x l).
Proof. unfold to_vertical_multisegment, fy. rewrite (isort_map _ qleb qleb _ (mv_qleb k K b)), pairwise_map, !map_map. reflexivity. Qed.
Lemma m_horizontal l y : to_horizontal_multisegment (map fx l) (fy y) = map fs (to_horizontal_multisegment l y).
Proof. unfold to_horizontal_multisegment, fx. rewrite (isort_map _ qleb qleb _ (mv_qleb k K a)), pairwise_map, !map_map. reflexivity. Qed.
Lemma m_sub {A} (g : A -> A) l n : to_sub_sequence_strategy l n ~[ map g ] to_sub_sequence_strategy (map g l) n.
Proof.
  unfold to_sub_sequence_strategy. apply (prel_bind _ _ _ _ _ _ (prel_permutations g l)). intros m m' ->. rewrite lenZ_map. apply prel_draw. intros i. constructor.
  unfold cut. rewrite lenZ_map, py_take_map. destruct (_ <? _)%Z; reflexivity.
Qed.
Lemma m_segments xs ys ys' mn mx : or_else ys' (move_scalars k a xs) = move_scalars k b (or_else ys xs) ->
  to_segment_sequence_strategy ctx xs ys mn mx ~[ map fs ] to_segment_sequence_strategy ctx (move_scalars k a xs) ys' mn mx.
Proof.
  intros Ey. unfold to_segment_sequence_strategy. rewrite Ey. set (zs := or_else ys xs).
  assert (Hs : to_segment_strategy xs (Some zs) ~[ fs ] to_segment_strategy (move_scalars k a xs) (Some (move_scalars k b zs))) by (apply m_segment; reflexivity).
  destruct (match mx with None => false | Some m => (m <? 2)%Z end).
  - destruct mx as [[| |]|]; try (constructor; reflexivity); apply (prel_pmap _ _ _ _ _ _ Hs); intros s s' ->; reflexivity.
  - cbv zeta. apply prel_alt.
    + match goal with |- prel _ (if ?c then alt ?p ?q else ?p) (if ?c then alt ?p' ?q' else ?p') => assert (H : p ~[ map fs ] p') end.
      { apply prel_alt.
        - apply (prel_bind _ _ _ _ _ _ (m_scalar a xs)). intros x x' ->. apply (prel_bind _ _ _ _ _ _ (m_unique b zs _ _)). intros l l' ->. constructor. apply m_vertical.
        - apply (prel_bind _ _ _ _ _ _ (m_unique a xs _ _)). intros l l' ->. apply (prel_bind _ _ _ _ _ _ (m_scalar b zs)). intros y y' ->. constructor. apply m_horizontal. }
      destruct (match mx with None => true | Some m => (MIN_CONTOUR_SIZE <=? m)%Z end); [|exact H]. apply prel_alt; [exact H|].
      apply (prel_bind (fun x y => y = map f x)); [apply m_vertex_sequence; [reflexivity|exact Fo]|]. intros vs vs' ->. unfold f. rewrite mv_contour_edges. apply m_sub.
    + apply prel_filter; [apply prel_lists, Hs|]. intros l l' ->. apply mv_segments_ok, K.
Qed.

(** ** Slices. *)
Lemma m_sliced ax l xs ys : forall sx sy, sliced ax l xs ys = (sx, sy) ->
  sliced ax (map (match ax with AxisX => fx | AxisY => fy end) l) (move_scalars k a xs) (move_scalars k b ys) = (move_scalars k a sx, move_scalars k b sy).
Proof. intros sx sy E. destruct ax; cbn [sliced] in *; injection E as <- <-; reflexivity. Qed.
Lemma m_touch ax l : blocks_touch ax (map fs l) = blocks_touch ax l.
Proof. destruct ax; [apply mv_leftmost, K|apply mv_lowermost, K]. Qed.
Definition fax (ax : axis) : Qc -> Qc := match ax with AxisX => fx | AxisY => fy end.
Lemma fax_leb ax x y : qleb (fax ax x) (fax ax y) = qleb x y.
Proof. destruct ax; apply mv_qleb, K. Qed.
Section Multi.
Context (xs ys : scalars) (bn : Z) (bx : option Z) (cn : Z) (cx : option Z) (hn : Z) (hx : option Z) (n : Z).
Let xs' := move_scalars k a xs.
Let ys' := move_scalars k b ys.
Lemma m_slice_polygon ax l : slice_polygon ctx ax xs ys bn bx cn cx hn hx l ~[ fp ] slice_polygon ctx ax xs' ys' bn bx cn cx hn hx (map (fax ax) l).
Proof.
  unfold slice_polygon. destruct (sliced ax l xs ys) as (sx & sy) eqn:E. unfold fax, xs', ys'. rewrite (m_sliced ax l xs ys sx sy E). apply m_polygon; [reflexivity|exact Fo].
Qed.
Lemma m_multi_loop ax : forall left l st, multipolygon_loop ctx ax xs ys bn bx cn cx hn hx n left l st ~[ map fp ] multipolygon_loop ctx ax xs' ys' bn bx cn cx hn hx n left (map (fax ax) l) st.
Proof.
  induction left as [|left IH]; intros l st.
  - cbn [multipolygon_loop]. rewrite py_drop_map. apply (prel_bind _ _ _ _ _ _ (m_slice_polygon ax _)). intros p p' ->. constructor. reflexivity.
  - destruct left as [|left].
    + cbn [multipolygon_loop]. rewrite py_drop_map. apply (prel_bind _ _ _ _ _ _ (m_slice_polygon ax _)). intros p p' ->. constructor. reflexivity.
    + set (q := S left) in *. cbn [multipolygon_loop]. unfold q at 1 3. cbv iota. rewrite lenZ_map. apply prel_draw. intros c. apply prel_lift_same. intros pr. rewrite py_slice_map.
      apply (prel_bind _ _ _ _ _ _ (m_slice_polygon ax _)). intros p p' ->. unfold fp at 2. cbn [border move_polygon]. unfold move_contour. rewrite mv_contour_segments. rewrite m_touch.
      apply prel_lift_same. intros bl. apply (prel_bind _ _ _ _ _ _ (IH _ _)). intros r r' ->. constructor. reflexivity.
Qed.
Lemma m_coordinates_to_polygons ax mn mx l : coordinates_to_polygons ctx ax xs ys bn bx cn cx hn hx n mn mx l ~[ map fp ] coordinates_to_polygons ctx ax xs' ys' bn bx cn cx hn hx n mn mx (map (fax ax) l).
Proof. unfold coordinates_to_polygons. rewrite lenZ_map. apply prel_draw. intros size. rewrite (isort_map _ qleb qleb l (fax_leb ax)). apply m_multi_loop. Qed.
End Multi.
Lemma m_multipolygon xs ys ys' mn mx bn bx cn cx hn hx : or_else ys' (move_scalars k a xs) = move_scalars k b (or_else ys xs) ->
  to_multipolygon_strategy ctx xs ys mn mx bn bx cn cx hn hx ~[ map fp ] to_multipolygon_strategy ctx (move_scalars k a xs) ys' mn mx bn bx cn cx hn hx.
Proof.
  intros Ey. unfold to_multipolygon_strategy. rewrite Ey. set (zs := or_else ys xs). apply prel_lift_same. intros n. cbv zeta.
  match goal with |- prel _ (if _ then alt _ ?p else ?p) (if _ then alt _ ?p' else ?p') => assert (H : p ~[ map fp ] p') end.
  { apply prel_alt.
    - apply (prel_bind _ _ _ _ _ _ (m_unique a xs _ _)). intros l l' ->. apply (m_coordinates_to_polygons xs zs bn bx cn cx hn hx n AxisX).
    - apply (prel_bind _ _ _ _ _ _ (m_unique b zs _ _)). intros l l' ->. apply (m_coordinates_to_polygons xs zs bn bx cn cx hn hx n AxisY). }
  destruct (cn =? 0)%Z; [|exact H]. apply prel_alt; [|exact H].
  apply (prel_pmap (fun x y => y = map (map f) x)); [apply m_multicontour; reflexivity|]. intros l l' ->. rewrite !map_map. reflexivity.
Qed.

(** ** Mixes. *)
Section Mix.
Context (xs ys : scalars) (pn : Z) (px_ : option Z) (sn : Z) (sx_ : option Z) (gn : Z) (gx : option Z) (bn : Z) (bx : option Z) (cn : Z) (cx : option Z) (hn : Z) (hx : option Z) (n : Z).
Let xs' := move_scalars k a xs.
Let ys' := move_scalars k b ys.
Lemma m_draw_points ax l c : draw_points xs ys ax l c ~[ map f ] draw_points xs' ys' ax (map (fax ax) l) c.
Proof.
  unfold draw_points. rewrite py_take_map. destruct (sliced ax (py_take l c) xs ys) as (sx & sy) eqn:E. unfold fax, xs', ys'. rewrite (m_sliced ax _ xs ys sx sy E). apply m_points. reflexivity.
Qed.
Lemma m_draw_segments ax l c : draw_segments ctx xs ys ax l c ~[ map fs ] draw_segments ctx xs' ys' ax (map (fax ax) l) c.
Proof.
  unfold draw_segments. rewrite py_take_map. destruct (sliced ax (py_take l c) xs ys) as (sx & sy) eqn:E. unfold fax, xs', ys'. rewrite (m_sliced ax _ xs ys sx sy E). apply m_segments. reflexivity.
Qed.
Lemma m_draw_polygon ax l c : draw_polygon ctx xs ys bn bx cn cx hn hx ax l c ~[ fp ] draw_polygon ctx xs' ys' bn bx cn cx hn hx ax (map (fax ax) l) c.
Proof.
  unfold draw_polygon. apply prel_draw. intros i. rewrite py_take_map. destruct (sliced ax (py_take l i) xs ys) as (sx & sy) eqn:E. unfold fax, xs', ys'. rewrite (m_sliced ax _ xs ys sx sy E). apply m_polygon; [reflexivity|exact Fo].
Qed.
Definition f3 (x : list point * list segment * list polygon) : list point * list segment * list polygon := (map f (fst (fst x)), map fs (snd (fst x)), map fp (snd x)).
Lemma m_mix_loop ax : forall drawers l p s g, mix_loop ctx xs ys bn bx cn cx hn hx ax drawers l p s g ~[ f3 ] mix_loop ctx xs' ys' bn bx cn cx hn hx ax drawers (map (fax ax) l) (map f p) (map fs s) (map fp g).
Proof.
  induction drawers as [|(d & c) rest IH]; intros l p s g; cbn [mix_loop]; [constructor; reflexivity|]. apply (prel_bind (fun x y => y = f3 x)).
  - destruct d.
    + apply (prel_bind _ _ _ _ _ _ (m_draw_points ax l c)). intros u u' ->. constructor. unfold f3. cbn [fst snd]. rewrite map_app. reflexivity.
    + apply (prel_bind _ _ _ _ _ _ (m_draw_segments ax l c)). intros u u' ->. constructor. unfold f3. cbn [fst snd]. rewrite map_app. reflexivity.
    + apply (prel_bind _ _ _ _ _ _ (m_draw_polygon ax l c)). intros u u' ->. constructor. unfold f3. cbn [fst snd]. rewrite map_app. reflexivity.
  - intros ((p1 & s1) & g1) z ->. unfold f3 at 1. cbn [fst snd]. apply (prel_bind eq).
    + destruct rest as [|([] & c') rest]; try apply prel_same.
      * destruct d; try apply prel_same.
        -- rewrite m_touch. apply prel_same.
        -- change (Poly [] []) with (fp (Poly [] [])) at 2. rewrite last_map. unfold fp at 1. cbn [border move_polygon]. unfold move_contour. rewrite mv_contour_segments, m_touch. apply prel_same.
      * destruct d; try apply prel_same.
        -- rewrite m_touch. apply prel_same.
        -- change (Poly [] []) with (fp (Poly [] [])) at 2. rewrite last_map. unfold fp at 1. cbn [border move_polygon]. unfold move_contour. rewrite mv_contour_segments, m_touch. apply prel_same.
    + intros t t' <-. rewrite py_drop_map. apply IH.
Qed.
Lemma m_unpack {A} (g : A -> A) l : unpack (map g l) = move_part g (unpack l).
Proof. destruct l as [|x [|y l]]; reflexivity. Qed.
Lemma m_unpack_points l : unpack_points (map f l) = move_part f (unpack_points l).
Proof. destruct l; reflexivity. Qed.
Lemma m_coordinates_to_mix ax l : coordinates_to_mix ctx xs ys pn px_ sn sx_ gn gx bn bx cn cx hn hx n ax l ~[ move_mix k a b ]
  coordinates_to_mix ctx xs' ys' pn px_ sn sx_ gn gx bn bx cn cx hn hx n ax (map (fax ax) l).
Proof.
  unfold coordinates_to_mix. rewrite lenZ_map. apply prel_draw. intros ((c1 & c2) & c3). apply prel_draw. intros dr. rewrite (isort_map _ qleb qleb l (fax_leb ax)).
  apply (prel_bind _ _ _ _ _ _ (m_mix_loop ax dr _ [] [] [])). intros ((p & s) & g) z ->. unfold f3. cbn [fst snd]. constructor. rewrite m_unpack_points, !m_unpack. reflexivity.
Qed.
End Mix.
Lemma m_mix xs ys ys' pn px_ sn sx_ gn gx bn bx cn cx hn hx : or_else ys' (move_scalars k a xs) = move_scalars k b (or_else ys xs) ->
  to_mix_strategy ctx xs ys pn px_ sn sx_ gn gx bn bx cn cx hn hx ~[ move_mix k a b ] to_mix_strategy ctx (move_scalars k a xs) ys' pn px_ sn sx_ gn gx bn bx cn cx hn hx.
Proof.
  intros Ey. unfold to_mix_strategy. rewrite Ey. set (zs := or_else ys xs). apply prel_lift_same. intros n. cbv zeta. apply prel_alt.
  - apply (prel_bind _ _ _ _ _ _ (m_unique a xs _ _)). intros l l' ->. apply (m_coordinates_to_mix xs zs pn px_ sn sx_ gn gx bn bx cn cx hn hx n AxisX).
  - apply (prel_bind _ _ _ _ _ _ (m_unique b zs _ _)). intros l l' ->. apply (m_coordinates_to_mix xs zs pn px_ sn sx_ gn gx bn bx cn cx hn hx n AxisY).
Qed.
End S.

(** ** The public functions. *)
Section Api.
Context (ctx : context) (k a b : Qc) (K : (0 < k)%Qc) (xs : scalars) (ys : option scalars) (Hy : ys = None -> a = b).
Let xs' := move_scalars k a xs.
Let ys' := option_map (move_scalars k b) ys.
Lemma moved_ys : or_else ys' xs' = move_scalars k b (or_else ys xs).
Proof. unfold ys', xs'. destruct ys; cbn [option_map or_else]; [reflexivity|]. rewrite (Hy eq_refl). reflexivity. Qed.
Lemma moved_call {A} (m : A -> A) (w : res (list string)) p p' : p ~[ m ] p' -> moved m (rbind w (fun w => Ok (w, p))) (rbind w (fun w => Ok (w, p'))).
Proof. intros H. destruct w as [w|e]; [|reflexivity]. cbn [rbind moved]. split; [reflexivity|]. split; [apply prel_generates, H|apply (prel_raises _ _ _ H)]. Qed.
Lemma moved_bind {A B} (m : A -> A) (x : res B) g g' : (forall v, moved m (g v) (g' v)) -> moved m (rbind x g) (rbind x g').
Proof. intros H. destruct x; [apply H|reflexivity]. Qed.
Lemma moved_ok {A} (m : A -> A) w p p' : p ~[ m ] p' -> moved m (Ok (w, p)) (Ok (w, p')).
Proof. exact (moved_call m (Ok w) p p'). Qed.

Lemma points_moved : moved (move_point k a b) (points xs ys) (points xs' ys').
Proof. apply moved_ok, m_point, moved_ys. Qed.
Lemma multipoints_moved mn mx : moved (map (move_point k a b)) (multipoints xs ys mn mx) (multipoints xs' ys' mn mx).
Proof. apply moved_call, m_points; [exact K|apply moved_ys]. Qed.
Lemma segments_moved : moved (move_segment k a b) (segments xs ys) (segments xs' ys').
Proof. apply moved_ok, m_segment; [exact K|apply moved_ys]. Qed.
Lemma boxes_moved : moved (move_box k a b) (boxes xs ys) (boxes xs' ys').
Proof. apply moved_ok, m_box; [exact K|apply moved_ys]. Qed.
Lemma rectangular_moved : moved (move_contour k a b) (rectangular_contours xs ys) (rectangular_contours xs' ys').
Proof. apply moved_ok. apply m_rectangle; [exact K|apply moved_ys]. Qed.
Lemma triangular_moved : moved (move_contour k a b) (triangular_contours xs ys) (triangular_contours xs' ys').
Proof. apply moved_ok. apply m_triangle; [exact K|apply moved_ys]. Qed.
Context (Fo : follows_motion ctx k a b).
Lemma multisegments_moved mn mx : moved (map (move_segment k a b)) (multisegments ctx xs ys mn mx) (multisegments ctx xs' ys' mn mx).
Proof. apply moved_call, m_segments; [exact K|exact Fo|apply moved_ys]. Qed.
Lemma contours_moved mn mx : moved (move_contour k a b) (contours ctx xs ys mn mx) (contours ctx xs' ys' mn mx).
Proof. apply moved_call. apply m_vertex_sequence; [exact K|apply moved_ys|exact Fo]. Qed.
Lemma convex_moved mn mx : moved (move_contour k a b) (convex_contours ctx xs ys mn mx) (convex_contours ctx xs' ys' mn mx).
Proof. apply moved_call. apply m_convex; [exact K|apply moved_ys|exact Fo]. Qed.
Lemma concave_moved mn mx : moved (move_contour k a b) (concave_contours ctx xs ys mn mx) (concave_contours ctx xs' ys' mn mx).
Proof. apply moved_call. apply m_concave; [exact K|apply moved_ys|exact Fo]. Qed.
Lemma star_moved mn mx : moved (move_contour k a b) (star_contours ctx xs ys mn mx) (star_contours ctx xs' ys' mn mx).
Proof. apply moved_call. apply m_star; [exact K|apply moved_ys|exact Fo]. Qed.
Lemma multicontours_moved mn mx cn cx : moved (map (move_contour k a b)) (multicontours ctx xs ys mn mx cn cx) (multicontours ctx xs' ys' mn mx cn cx).
Proof. unfold multicontours. apply moved_bind. intros w1. apply moved_bind. intros w2. apply moved_ok. apply m_multicontour; [exact K|apply moved_ys]. Qed.
Lemma polygons_moved mn mx cn cx hn hx : moved (move_polygon k a b) (polygons ctx xs ys mn mx cn cx hn hx) (polygons ctx xs' ys' mn mx cn cx hn hx).
Proof. unfold polygons. do 3 (apply moved_bind; intros ?). apply moved_ok. apply m_polygon; [exact K|apply moved_ys|exact Fo]. Qed.
Lemma multipolygons_moved mn mx bn bx cn cx hn hx : moved (map (move_polygon k a b)) (multipolygons ctx xs ys mn mx bn bx cn cx hn hx) (multipolygons ctx xs' ys' mn mx bn bx cn cx hn hx).
Proof. unfold multipolygons. do 4 (apply moved_bind; intros ?). apply moved_ok. apply m_multipolygon; [exact K|exact Fo|apply moved_ys]. Qed.
Lemma mixes_moved pn px_ sn sx_ gn gx bn bx cn cx hn hx : moved (move_mix k a b) (mixes ctx xs ys pn px_ sn sx_ gn gx bn bx cn cx hn hx) (mixes ctx xs' ys' pn px_ sn sx_ gn gx bn bx cn cx hn hx).
Proof.
  unfold mixes. do 7 (apply moved_bind; intros ?). apply moved_ok.
  assert (H : forall u v t, to_mix_strategy ctx xs ys u px_ v sx_ t gx (Z.max bn MIN_CONTOUR_SIZE) bx (Z.max cn 0) cx (Z.max hn MIN_CONTOUR_SIZE) hx ~[ move_mix k a b ]
    to_mix_strategy ctx xs' ys' u px_ v sx_ t gx (Z.max bn MIN_CONTOUR_SIZE) bx (Z.max cn 0) cx (Z.max hn MIN_CONTOUR_SIZE) hx) by (intros; apply m_mix; [exact K|exact Fo|apply moved_ys]).
  destruct (may_have px_), (may_have sx_), (may_have gx); repeat apply prel_alt; apply H.
Qed.
End Api.
(** Translations need nothing of [math.atan2]. *)
Lemma translation_angles ctx : forall y x, ctx_atan2 ctx (1 * y)%Qc (1 * x)%Qc = ctx_atan2 ctx y x.
Proof. intros y x. rewrite !Qcmult_1_l. reflexivity. Qed.
