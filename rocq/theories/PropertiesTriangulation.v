(** C41-C44: the quad-edge structure and triangulations. *)
From Verif Require Import Base Geometry Ctx QuadEdge Triangulation Factories Spec QuadSpec QuadApiProofs CarveProofs
  MultiProofs Reference.

(** ** C41: on every structure built by any sequence of operations. *)
Theorem C41_rotated_order_four : forall e,
  rotated (rotated (rotated (rotated e))) = e /\ rotated e <> e /\ rotated (rotated e) <> e.
Proof. exact rotated_order. Qed.
Print Assumptions C41_rotated_order_four.
Theorem C41_left_from_start_bijective : forall h e, built h -> exists_in h e ->
  exists_in h (left_from_start h e) /\ exists_in h (right_from_start h e) /\
  right_from_start h (left_from_start h e) = e /\ left_from_start h (right_from_start h e) = e.
Proof. exact left_from_start_inverse. Qed.
Print Assumptions C41_left_from_start_bijective.
(** The compatibility with rotation (Guibas and Stolfi's axiom). *)
Theorem C41_rotation_compatible : forall h e, built h -> exists_in h e ->
  rotated (left_from_start h (rotated (left_from_start h e))) = e.
Proof. exact rotation_compatible. Qed.
Print Assumptions C41_rotation_compatible.
Theorem C41_navigation_primal : forall h e, built h -> directed_in h e ->
  directed_in h (opposite e) /\ directed_in h (left_from_start h e) /\ directed_in h (right_from_start h e) /\
  directed_in h (left_from_end h e) /\ directed_in h (right_from_end h e).
Proof. exact navigation_directed. Qed.
Print Assumptions C41_navigation_primal.
Theorem C41_splice_involutive : forall h a b, built h -> directed_in h a -> directed_in h b -> forall e,
  left_from_start (splice (splice h a b) a b) e = left_from_start h e /\
  start (splice (splice h a b) a b) e = start h e.
Proof. exact splice_involutive. Qed.
Print Assumptions C41_splice_involutive.
Theorem C41_connect_new_edge : forall h e o, built h -> directed_in h e -> directed_in h o ->
  start (snd (connect h e o)) (fst (connect h e o)) = end_ h e /\
  end_ (snd (connect h e o)) (fst (connect h e o)) = start h o /\
  ~ exists_in h (fst (connect h e o)) /\ directed_in (snd (connect h e o)) (fst (connect h e o)) /\
  forall x, exists_in h x -> start (snd (connect h e o)) x = start h x.
Proof. exact connect_ends. Qed.
Print Assumptions C41_connect_new_edge.
Theorem C41_connect_left_face : forall h e o, built h -> directed_in h e -> directed_in h o ->
  left_from_end (snd (connect h e o)) e = fst (connect h e o) /\
  left_from_end (snd (connect h e o)) (fst (connect h e o)) = o.
Proof. exact connect_face. Qed.
Print Assumptions C41_connect_left_face.
Theorem C41_delete_after_connect : forall h e o, built h -> directed_in h e -> directed_in h o ->
  forall x, exists_in h x ->
  left_from_start (delete (snd (connect h e o)) (fst (connect h e o))) x = left_from_start h x /\
  start (delete (snd (connect h e o)) (fst (connect h e o))) x = start h x.
Proof. exact connect_delete. Qed.
Print Assumptions C41_delete_after_connect.
Theorem C41_delete_isolates : forall h e, built h -> directed_in h e ->
  left_from_start (delete h e) e = e /\ left_from_start (delete h e) (opposite e) = opposite e.
Proof. exact delete_alone. Qed.
Print Assumptions C41_delete_isolates.
(** Everything else keeps its order around the starts. *)
Theorem C41_delete_others : forall h e x, built h -> directed_in h e -> directed_in h x ->
  x <> e -> x <> opposite e ->
  let next := left_from_start h in
  (next x <> e -> next x <> opposite e -> left_from_start (delete h e) x = next x) /\
  (next x = e -> next e <> opposite e -> left_from_start (delete h e) x = next e) /\
  (next x = opposite e -> next (opposite e) <> e -> left_from_start (delete h e) x = next (opposite e)).
Proof. exact delete_others. Qed.
Print Assumptions C41_delete_others.
Theorem C41_delete_undo : forall h e, built h -> directed_in h e ->
  let h1 := splice h e (right_from_start h e) in forall x,
  left_from_start (splice (splice (delete h e) (opposite e) (right_from_start h1 (opposite e)))
                          e (right_from_start h e)) x = left_from_start h x.
Proof. exact delete_undo. Qed.
Print Assumptions C41_delete_undo.

(** Five integer points and their triangulation with the reference services. *)
Definition ipt (x y : Z) : point := Pt (Qc_of_Z x) (Qc_of_Z y).
Definition five : list point := [ipt 0 0; ipt 4 0; ipt 4 4; ipt 0 4; ipt 2 1].
Definition five_tri : tri * heap :=
  match delaunay reference five with Ok th => th | Raise _ => (Tri (0, R0) (0, R0), empty_heap (ipt 0 0)) end.
Lemma five_delaunay : delaunay reference five = Ok five_tri.
Proof.
  assert (K : match delaunay reference five with Ok _ => true | Raise _ => false end = true) by (vm_compute; reflexivity).
  unfold five_tri. destruct (delaunay reference five); [reflexivity|discriminate K].
Qed.
(** Two triangles on a common edge, built with the operations. *)
Definition stage1 : heap := snd (from_endpoints (empty_heap (ipt 0 0)) (ipt 0 0) (ipt 2 (-1))).
Definition stage2 : heap := snd (from_endpoints stage1 (ipt 2 (-1)) (ipt 4 0)).
Definition stage3 : heap := splice stage2 (0, R2) (1, R0).
Definition stage4 : heap := snd (connect stage3 (1, R0) (0, R0)).
Definition stage5 : heap := snd (from_endpoints stage4 (ipt 4 0) (ipt 2 1)).
Definition stage6 : heap := splice stage5 (1, R2) (3, R0).
Definition two_triangles : heap := snd (connect stage6 (3, R0) (2, R2)).
Definition diagonal : edge := (2, R0).
Lemma two_triangles_drawn : drawn_built two_triangles.
Proof.
  assert (D : forall h e, Nat.ltb (fst e) (h_count h) = true -> snd e = R0 \/ snd e = R2 -> directed_in h e).
  { intros h e H1 H2. split; [apply Nat.ltb_lt, H1|exact H2]. }
  unfold two_triangles. apply drawn_connect; [|apply D; cbn; auto..].
  unfold stage6. apply drawn_splice; [|apply D; cbn; auto..|vm_compute; reflexivity].
  unfold stage5. apply drawn_from_endpoints.
  unfold stage4. apply drawn_connect; [|apply D; cbn; auto..].
  unfold stage3. apply drawn_splice; [|apply D; cbn; auto..|vm_compute; reflexivity].
  apply drawn_from_endpoints, drawn_from_endpoints, drawn_empty.
Qed.
Example C41_applies : built two_triangles /\ directed_in two_triangles diagonal /\
  left_from_start two_triangles diagonal <> diagonal.
Proof.
  split; [apply drawn_is_built, two_triangles_drawn|]. split; [split; [apply Nat.ltb_lt; reflexivity|left; reflexivity]|].
  vm_compute. discriminate.
Qed.

(** ** C42: on every structure in which splices join equal starts and convex diagonals are
    flipped, all edges of a ring have the same start, also after a flip. *)
Theorem C42_rings : forall h e, drawn_built h -> directed_in h e ->
  start h (left_from_start h e) = start h e /\ start h (right_from_start h e) = start h e /\
  start h (left_from_end h e) = end_ h e /\ start h (right_from_end h e) = end_ h e.
Proof. exact ring_start. Qed.
Print Assumptions C42_rings.
Theorem C42_flip : forall h e, drawn_built h -> directed_in h e -> is_convex_quadrilateral_diagonal h e = true ->
  start (flip h e) e = end_ h (right_from_start h e) /\ end_ (flip h e) e = end_ h (left_from_end h e) /\
  (forall x, x <> e -> x <> opposite e -> start (flip h e) x = start h x) /\
  forall x, directed_in (flip h e) x -> start (flip h e) (left_from_start (flip h e) x) = start (flip h e) x.
Proof. exact flip_diagonal. Qed.
Print Assumptions C42_flip.
Example C42_applies : is_convex_quadrilateral_diagonal two_triangles diagonal = true
  /\ start two_triangles diagonal = ipt 4 0 /\ end_ two_triangles diagonal = ipt 0 0
  /\ start (flip two_triangles diagonal) diagonal = ipt 2 1
  /\ end_ (flip two_triangles diagonal) diagonal = ipt 2 (-1).
Proof. vm_compute. auto 6. Qed.

(** ** C43: the boundary walk ends after at most one visit of each directed edge, and is a cycle;
    the flips are arbitrary. *)
Theorem C43_boundary_terminates : forall ctx pts t h fuel, triangulation_of any_flip ctx pts t h ->
  2 * h_count h < Pos.to_nat fuel -> exists es, to_boundary_edges fuel h t = Ok es.
Proof. exact boundary_terminates. Qed.
Print Assumptions C43_boundary_terminates.
Theorem C43_boundary_cycle : forall ctx pts t h fuel es, triangulation_of any_flip ctx pts t h ->
  to_boundary_edges fuel h t = Ok es ->
  edge_cycle (right_from_end h) es /\ nth_error es 0 = Some (left_side t) /\ forall e, In e es -> directed_in h e.
Proof. exact boundary_is_cycle. Qed.
Print Assumptions C43_boundary_cycle.
(** When convex diagonals are flipped, each edge starts where the previous one ends. *)
Theorem C43_boundary_joined : forall ctx pts t h fuel es, triangulation_of convex_flip ctx pts t h ->
  to_boundary_edges fuel h t = Ok es ->
  forall i e, nth_error es i = Some e ->
  exists e', nth_error es (S i mod length es) = Some e' /\ start h e' = end_ h e.
Proof. exact boundary_joined. Qed.
Print Assumptions C43_boundary_joined.
Example C43_applies : exists t h e t' h' es, delaunay reference five = Ok (t, h) /\ directed_in h e
  /\ tri_delete h t e = Ok (t', h') /\ triangulation_of convex_flip reference five t' h'
  /\ to_boundary_edges 100 h' t' = Ok es
  /\ map (start h') es = [ipt 0 0; ipt 2 1; ipt 4 0; ipt 4 4; ipt 0 4].
Proof.
  pose (e := left_side (fst five_tri)).
  assert (K : match tri_delete (snd five_tri) (fst five_tri) e with
              | Ok (t', h') => match to_boundary_edges 100 h' t' with Ok es => map (start h') es | Raise _ => [] end
              | Raise _ => [] end = [ipt 0 0; ipt 2 1; ipt 4 0; ipt 4 4; ipt 0 4]) by (vm_compute; reflexivity).
  assert (De : directed_in (snd five_tri) e).
  { split; [apply Nat.ltb_lt; vm_compute; reflexivity|right; vm_compute; reflexivity]. }
  exists (fst five_tri), (snd five_tri), e.
  assert (D : delaunay reference five = Ok (fst five_tri, snd five_tri)) by (rewrite <- surjective_pairing; apply five_delaunay).
  destruct (tri_delete (snd five_tri) (fst five_tri) e) as [(t' & h')|] eqn:Ed; [|discriminate K].
  destruct (to_boundary_edges 100 h' t') as [es|] eqn:Ee; [|discriminate K].
  exists t', h', es. split; [exact D|]. split; [exact De|]. split; [reflexivity|].
  split; [eapply triangulation_delete; [apply triangulation_delaunay, D|exact De|exact Ed]|]. split; assumption.
Qed.

(** ** C44 *)
Theorem C44_triangulation_points : forall ctx pts t h e, triangulation_of any_flip ctx pts t h -> directed_in h e ->
  In (start h e) pts /\ In (end_ h e) pts.
Proof. exact triangulation_points. Qed.
Print Assumptions C44_triangulation_points.
Theorem C44_contour_points : forall ctx pts size vs p, to_vertex_sequence ctx pts size = Ok vs -> In p vs -> In p pts.
Proof. exact to_vertex_sequence_in. Qed.
Print Assumptions C44_contour_points.
Theorem C44_multicontour_points : forall ctx pts sizes choices mc, (forall s, In s sizes -> (1 <= s)%Z) ->
  to_multicontour ctx pts sizes choices = Ok mc -> forall vs p, In vs mc -> In p vs -> In p pts.
Proof. exact multicontour_points. Qed.
Print Assumptions C44_multicontour_points.
Theorem C44_polygon_points : forall ctx pts size sizes choices poly, (forall s, In s sizes -> (1 <= s)%Z) ->
  to_polygon ctx pts size sizes choices = Ok poly ->
  (forall p, In p (border poly) -> In p pts) /\ forall vs p, In vs (holes poly) -> In p vs -> In p pts.
Proof. exact polygon_points. Qed.
Print Assumptions C44_polygon_points.
Example C44_applies : to_vertex_sequence reference five 5 = Ok [ipt 0 0; ipt 4 0; ipt 4 4; ipt 2 1; ipt 0 4].
Proof. vm_compute. reflexivity. Qed.
