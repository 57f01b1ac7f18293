(** No strategy asks for an empty range, an empty sample or an impossible list size. *)
From Coq Require Import Sorting.Sorted Znumtheory.
From Verif Require Import Base Prog Geometry Ctx Utils Contracts Spec Factories Strategies QcTac ProgProofs GeomProofs
  ListProofs SimpleProofs SeparationProofs PrimeProofs GridProofs ConvexProofs StarProofs MultiProofs SequenceProofs SliceProofs MultipolygonProofs MixProofs
  NoInvalid HullProofs ContourProofs GeometryApiProofs.
Open Scope Z_scope.

Definition pni {A} (p : prog A) : Prop := ~ can_raise p InvalidArgument.
Lemma pni_ret {A} (a : A) : pni (Ret a). Proof. intros H. apply raise_ret in H. exact H. Qed.
Lemma pni_lift {A} (r : res A) : ni r -> pni (lift r). Proof. intros H1 H. apply raise_lift in H. exact (H1 H). Qed.
Lemma pni_bind {A B} (m : prog A) (f : A -> prog B) : pni m -> (forall a, generates m a -> pni (f a)) -> pni (bind m f).
Proof. intros H1 H2 H. apply raise_bind in H. destruct H as [H|(a & Ha & H)]; [exact (H1 H)|exact (H2 a Ha H)]. Qed.
Lemma pni_pmap {A B} (f : A -> B) m : pni m -> pni (pmap f m).
Proof. intros H1 H. apply raise_pmap in H. exact (H1 H). Qed.
Lemma pni_pfilter {A} (f : A -> bool) m : pni m -> pni (pfilter f m).
Proof. intros H1 H. apply raise_pfilter in H. exact (H1 H). Qed.
Lemma pni_alt {A} (p q : prog A) : pni p -> pni q -> pni (alt p q).
Proof. intros H1 H2 H. apply raise_alt in H. destruct H as [H|H]; [exact (H1 H)|exact (H2 H)]. Qed.
Lemma pni_integers lo hi : (forall h, hi = Some h -> lo <= h) -> pni (integers lo hi).
Proof. intros H1 H. apply raise_integers in H. destruct H as (_ & h & E & H). specialize (H1 h E). lia. Qed.
Lemma pni_draw_n {A} n (p : prog A) : pni p -> pni (draw_n n p).
Proof. intros H1 H. apply raise_draw_n in H. exact (H1 H). Qed.
Lemma pni_sequence {A} (ps : list (prog A)) : (forall p, In p ps -> pni p) -> pni (sequence ps).
Proof. intros H1 H. apply raise_sequence in H. destruct H as (p & Hp & H). exact (H1 p Hp H). Qed.
Lemma pni_lists {A} (p : prog A) mn mx : 0 <= mn -> (forall m, mx = Some m -> mn <= m) -> pni p -> pni (lists p mn mx).
Proof.
  intros H0 Hm Hp H. apply raise_lists in H. destruct H as [(_ & [H|(m & E & H)])|H]; [lia| |exact (Hp H)].
  specialize (Hm m E). lia.
Qed.
Lemma pni_permutations {A} (l : list A) : pni (permutations l). Proof. apply raise_permutations. Qed.
Lemma pni_bits n : pni (bits n). Proof. apply raise_bits. Qed.

(** The strategy can give [n] different scalars as far as Hypothesis knows. *)
Definition enough (s : scalars) (n : Z) : Prop :=
  match s with Drawn p => pni p | Sampled l => n <= lenZ l end.
Lemma enough_le s n m : m <= n -> enough s n -> enough s m.
Proof. destruct s; cbn; [auto|lia]. Qed.
Lemma pni_scalar s n : 1 <= n -> enough s n -> pni (draw_scalar s).
Proof.
  intros Hn H. destruct s as [p|l]; [exact H|]. cbn [draw_scalar enough] in *. intros K. apply raise_sampled_from in K.
  destruct K as (_ & ->). cbn in H. lia.
Qed.
Lemma pni_unique_scalars s mn mx : 1 <= mn -> (forall m, mx = Some m -> mn <= m) -> enough s mn -> pni (unique_scalars s mn mx).
Proof.
  intros H0 Hm He. destruct s as [p|l]; cbn [unique_scalars enough] in *.
  - unfold unique_lists. apply pni_pfilter, pni_lists; [lia|exact Hm|exact He].
  - destruct (lenZ l <? mn) eqn:E; [apply Z.ltb_lt in E; lia|]. unfold unique_lists. apply pni_pfilter, pni_lists; [lia| |].
    + intros m Em. injection Em as <-. destruct mx as [m|]; [specialize (Hm m eq_refl); lia|lia].
    + change (pni (draw_scalar (Sampled l))). apply (pni_scalar _ mn); [exact H0|exact He].
Qed.
Lemma pni_point xs ys : enough xs 1 -> enough (ordinates xs ys) 1 -> pni (to_point_strategy xs ys).
Proof.
  intros Hx Hy. unfold to_point_strategy. change (or_else ys xs) with (ordinates xs ys).
  apply pni_bind; [apply (pni_scalar _ 1); [lia|exact Hx]|]. intros x _.
  apply pni_bind; [apply (pni_scalar _ 1); [lia|exact Hy]|]. intros y _. apply pni_ret.
Qed.
Lemma pni_points xs ys mn mx : 0 <= mn -> (forall m, mx = Some m -> mn <= m) -> enough xs 1 -> enough (ordinates xs ys) 1 ->
  pni (to_unique_point_sequence_strategy xs ys mn mx).
Proof.
  intros H0 Hm Hx Hy. unfold to_unique_point_sequence_strategy, unique_lists. apply pni_pfilter, pni_lists; [exact H0|exact Hm|].
  apply pni_point; assumption.
Qed.
Lemma pni_segment xs ys : enough xs 1 -> enough (ordinates xs ys) 1 -> pni (to_segment_strategy xs ys).
Proof.
  intros Hx Hy. unfold to_segment_strategy. apply pni_bind; [|intros (a & b) _; apply pni_ret]. apply pni_pfilter.
  apply pni_bind; [apply pni_point; assumption|]. intros a _. apply pni_bind; [apply pni_point; assumption|]. intros b _. apply pni_ret.
Qed.
Lemma pni_sorted_pair s : enough s 2 -> pni (draw_sorted_pair s).
Proof.
  intros H. unfold draw_sorted_pair. apply pni_bind.
  - apply pni_unique_scalars; [lia| |exact H]. intros m E. injection E as <-. lia.
  - intros l _. destruct l as [|a [|b [|c l]]]; try (intros K; apply raise_fail in K; discriminate). apply pni_ret.
Qed.
Lemma pni_box xs ys : enough xs 2 -> enough (ordinates xs ys) 2 -> pni (to_box_strategy xs ys).
Proof.
  intros Hx Hy. unfold to_box_strategy. change (or_else ys xs) with (ordinates xs ys).
  apply pni_bind; [apply pni_sorted_pair, Hx|]. intros (a & b) _. apply pni_bind; [apply pni_sorted_pair, Hy|]. intros (c & d) _. apply pni_ret.
Qed.
Lemma pni_triangle xs ys : enough xs 1 -> enough (ordinates xs ys) 1 -> pni (to_triangular_vertex_sequence_strategy xs ys).
Proof. intros Hx Hy. unfold to_triangular_vertex_sequence_strategy. apply pni_pmap, pni_pfilter, pni_draw_n, pni_point; assumption. Qed.

(** What the grid of at least [mn] points needs. *)
Definition grid_enough (xs : scalars) (ys : option scalars) (mn : Z) : Prop :=
  forall lower, to_next_prime mn = Ok lower -> enough xs lower /\ enough (ordinates xs ys) lower.
Lemma pni_grid xs ys mn mx : 3 <= mn -> grid_enough xs ys mn -> pni (to_point_sequence_in_general_position_strategy xs ys mn mx).
Proof.
  intros Hm Hg H. apply grid_raises in H; [|exact Hm]. destruct H as (lower & E & H). destruct (Hg lower E) as (Hx & Hy).
  apply to_next_prime_ge in E. cbv zeta in H.
  assert (K : forall m, match mx with None => None | Some m => Some (Z.max m lower) end = Some m -> lower <= m).
  { intros m Em. destruct mx; [injection Em as <-; lia|discriminate]. }
  destruct H as [H|H]; revert H; apply pni_unique_scalars; try assumption; lia.
Qed.
Lemma grid_enough_5 xs ys mn : 3 <= mn -> grid_enough xs ys mn -> enough xs 5 /\ enough (ordinates xs ys) 5.
Proof.
  intros Hm Hg. destruct (to_next_prime_spec mn Hm) as (p & E & _ & H5 & _). destruct (Hg p E) as (Hx & Hy).
  split; eapply enough_le; eassumption.
Qed.

Section Services.
  Context (ctx : context) (Ha : forall y x, ctx_atan2 ctx y x <> Raise InvalidArgument)
    (Hh : forall l, is_hull l (ctx_hull ctx l)).

  Lemma pni_convex_strategy xs ys mn mx : 3 <= mn -> grid_enough xs ys mn -> pni (to_convex_vertex_sequence_strategy ctx xs ys mn mx).
  Proof.
    intros Hm Hg. destruct (grid_enough_5 _ _ _ Hm Hg) as (Hx & Hy). unfold to_convex_vertex_sequence_strategy.
    assert (Ht : pni (to_triangular_vertex_sequence_strategy xs ys)) by (apply pni_triangle; eapply enough_le; try eassumption; lia).
    assert (Hr : pni (to_rectangular_vertex_sequence_strategy xs ys)).
    { unfold to_rectangular_vertex_sequence_strategy. apply pni_pmap, pni_box; eapply enough_le; try eassumption; lia. }
    destruct (match mx with None => false | Some m => m <? CONCAVE end); [exact Ht|].
    match goal with |- context [pfilter ?f ?p] => set (r := pfilter f p); assert (Hpr : pni r) end.
    { unfold r. apply pni_pfilter. apply pni_bind; [apply pni_grid; assumption|]. intros pts _.
      apply pni_bind; [apply pni_bits|]. intros b1 _. apply pni_bind; [apply pni_bits|]. intros b2 _.
      apply pni_bind; [apply pni_permutations|]. intros perm _. apply pni_lift, ni_convex_sequence, Ha. }
    clearbody r. cbv zeta. destruct (mn <=? 4), (mn =? 3); repeat apply pni_alt; assumption.
  Qed.
  Lemma pni_star_strategy xs ys mn mx : 3 <= mn -> grid_enough xs ys mn -> pni (to_star_vertex_sequence_strategy ctx xs ys mn mx).
  Proof.
    intros Hm Hg. unfold to_star_vertex_sequence_strategy. apply pni_pfilter.
    apply pni_bind; [apply pni_grid; assumption|]. intros pts _. apply pni_lift, ni_star, Ha.
  Qed.
  Lemma grid_at_least xs ys mn mx l : generates (to_point_sequence_in_general_position_strategy xs ys mn mx) l -> mn <= lenZ l /\ 5 <= lenZ l /\ NoDup l.
  Proof.
    intros H. apply grid_sound in H. destruct H as [H1 (lower & E & Hl) _ _ Hn _ _ _]. apply to_next_prime_ge in E.
    split; [lia|]. split; [lia|exact Hn].
  Qed.
  Lemma pni_carved_strategy xs ys mn mx : 3 <= mn -> (forall m, mx = Some m -> mn <= m) -> grid_enough xs ys mn ->
    pni (to_carved_vertex_sequence_strategy ctx xs ys mn mx).
  Proof.
    intros Hm Hx Hg. unfold to_carved_vertex_sequence_strategy. apply pni_pfilter.
    apply pni_bind; [apply pni_grid; assumption|]. intros pts Hp. apply grid_at_least in Hp. apply pni_bind.
    - apply pni_integers. intros h E. injection E as <-. unfold min_opt. destruct mx as [m|]; [specialize (Hx m eq_refl); lia|lia].
    - intros n _. apply pni_lift. auto with ni.
  Qed.
  Lemma pni_sequences xs ys mn mx : 3 <= mn -> (forall m, mx = Some m -> mn <= m) -> grid_enough xs ys mn ->
    pni (to_vertex_sequences_ ctx xs ys mn mx).
  Proof. intros Hm Hx Hg. unfold to_vertex_sequences_. apply pni_alt; [apply pni_star_strategy|apply pni_carved_strategy]; assumption. Qed.
  Lemma pni_concave_strategy xs ys mn mx : 3 <= mn -> (forall m, mx = Some m -> mn <= m) -> grid_enough xs ys mn ->
    pni (to_concave_vertex_sequence_strategy ctx xs ys mn mx).
  Proof.
    intros Hm Hx Hg. unfold to_concave_vertex_sequence_strategy, pfilter_res. apply pni_bind; [apply pni_sequences; assumption|].
    intros vs _. pose proof (ni_convex vs) as K. destruct (are_vertices_non_convex vs) as [[|]|e].
    - apply pni_ret.
    - intros C. apply raise_reject in C. exact C.
    - intros C. apply raise_fail in C. subst e. apply K. reflexivity.
  Qed.
  Lemma pni_contour_strategy xs ys mn mx : 3 <= mn -> (forall m, mx = Some m -> mn <= m) -> grid_enough xs ys mn ->
    pni (to_vertex_sequence_strategy ctx xs ys mn mx).
  Proof. intros Hm Hx Hg. unfold to_vertex_sequence_strategy. apply pni_alt; [apply pni_convex_strategy|apply pni_sequences]; assumption. Qed.

  (** Sequences of segments; with [min_size] at least 3 a contour is drawn too. *)
  Lemma pni_segments_strategy xs ys mn mx : 1 <= mn -> (forall m, mx = Some m -> mn <= m) ->
    enough xs (mn + 1) -> enough (ordinates xs ys) (mn + 1) ->
    ((forall m, mx = Some m -> 3 <= m) -> grid_enough xs ys (Z.max mn 3)) ->
    pni (to_segment_sequence_strategy ctx xs ys mn mx).
  Proof.
    intros Hm Hx Ex Ey Hg. unfold to_segment_sequence_strategy. change (or_else ys xs) with (ordinates xs ys).
    assert (Ex1 : enough xs 1) by (eapply enough_le; [|exact Ex]; lia).
    assert (Ey1 : enough (ordinates xs ys) 1) by (eapply enough_le; [|exact Ey]; lia).
    assert (Hs : pni (to_segment_strategy xs (Some (ordinates xs ys)))) by (apply pni_segment; assumption).
    destruct (match mx with None => false | Some m => m <? 2 end) eqn:E2.
    { destruct mx as [[| |]|]; try discriminate; try apply pni_ret; apply pni_pmap; exact Hs. }
    match goal with |- context [alt ?p ?q] => match p with bind (draw_scalar xs) _ => set (r := alt p q); assert (Hr : pni r) end end.
    { unfold r. apply pni_alt.
      - apply pni_bind; [apply (pni_scalar _ 1); [lia|exact Ex1]|]. intros x _. apply pni_bind; [|intros l _; apply pni_ret].
        apply pni_unique_scalars; [lia| |exact Ey]. intros m Em. destruct mx as [m'|]; [|discriminate]. injection Em as <-.
        specialize (Hx m' eq_refl). lia.
      - apply pni_bind; [|intros l _; apply pni_bind; [apply (pni_scalar _ 1); [lia|exact Ey1]|intros y _; apply pni_ret]].
        apply pni_unique_scalars; [lia| |exact Ex]. intros m Em. destruct mx as [m'|]; [|discriminate]. injection Em as <-.
        specialize (Hx m' eq_refl). lia. }
    clearbody r. cbv zeta. apply pni_alt.
    - destruct (match mx with None => true | Some m => MIN_CONTOUR_SIZE <=? m end) eqn:E3; [|exact Hr]. apply pni_alt; [exact Hr|].
      change MIN_CONTOUR_SIZE with 3 in *.
      assert (H3 : forall m, mx = Some m -> 3 <= m) by (intros m ->; apply Z.leb_le, E3).
      assert (Hx' : forall m, mx = Some m -> Z.max mn 3 <= m) by (intros m Em; specialize (H3 m Em); specialize (Hx m Em); lia).
      apply pni_bind; [apply pni_contour_strategy; [lia|exact Hx'|apply Hg, H3]|].
      intros vs Hv. unfold to_sub_sequence_strategy. apply pni_bind; [apply pni_permutations|]. intros l _.
      apply pni_bind; [|intros n _; apply pni_ret]. apply pni_integers. intros h Eh. injection Eh as <-.
      apply vertex_sequence_spec in Hv; [|exact Hh|lia|exact Hx']. destruct Hv as ((Hv & _) & _).
      change (contour_vertices_to_edges vs) with (contour_segments vs). unfold lenZ in *. rewrite EdgeProofs.segments_length. lia.
    - apply pni_pfilter, pni_lists; [lia|exact Hx|exact Hs].
  Qed.

  Lemma pni_sizes size mn limit : 0 <= size -> pni (to_sizes_ size mn limit).
  Proof.
    intros Hs. unfold to_sizes_. apply pni_bind; [apply pni_lift; auto with ni|]. intros l Hl. apply gen_lift in Hl.
    apply spread_sizes_spec in Hl. destruct Hl as (_ & Hl). apply pni_bind; [|intros r _; apply pni_permutations].
    apply pni_sequence. intros p Hp. apply in_map_iff in Hp. destruct Hp as (m & <- & Hm). apply pni_integers. intros h E. injection E as <-.
    apply Hl, Hm.
  Qed.
  Lemma pni_multicontour_strategy xs ys mn mx cmn cmx : 1 <= mn -> (forall m, mx = Some m -> mn <= m) -> 3 <= cmn ->
    grid_enough xs ys (mn * cmn) -> pni (to_multicontour_strategy ctx xs ys mn mx cmn cmx).
  Proof.
    intros Hm Hx Hc Hg. unfold to_multicontour_strategy. cbv zeta. apply pni_pfilter. apply pni_bind; [apply pni_grid; [nia|exact Hg]|].
    intros pts Hp. apply grid_at_least in Hp. destruct Hp as (Hp & _). apply pni_bind.
    - apply pni_integers. intros h E. injection E as <-. assert (mn <= lenZ pts / cmn) by (apply Z.div_le_lower_bound; lia).
      unfold min_opt. destruct mx as [m|]; [specialize (Hx m eq_refl); lia|assumption].
    - intros n Hn. apply gen_integers in Hn. destruct Hn as (Hn & _). apply pni_bind; [apply pni_sizes; lia|]. intros sizes _. apply pni_bind; [apply pni_bits|].
      intros ch _. apply pni_lift. auto with ni.
  Qed.

  Lemma pni_hole_sizes points hmn hmx smn : 0 <= hmn -> (forall m, hmx = Some m -> hmn <= m) -> 1 <= smn ->
    smn * hmn <= lenZ points - lenZ (to_max_convex_hull points) -> pni (to_hole_sizes points hmn hmx smn).
  Proof.
    intros Hm Hx Hs Hi. unfold to_hole_sizes. cbv zeta. destruct (_ <=? _); [|apply pni_ret]. apply pni_bind.
    - apply pni_integers. intros h E. injection E as <-.
      assert (hmn <= (lenZ points - lenZ (to_max_convex_hull points)) / smn) by (apply Z.div_le_lower_bound; lia).
      unfold min_opt. destruct hmx as [m|]; [specialize (Hx m eq_refl); lia|assumption].
    - intros n _. unfold to_hole_sizes_. destruct (n =? 0); [apply pni_ret|].
      apply pni_bind; [apply pni_lift; auto with ni|]. intros l Hl. apply gen_lift in Hl.
      apply spread_sizes_spec in Hl. destruct Hl as (_ & Hl). apply pni_bind; [apply pni_permutations|]. intros l' Hp. apply gen_permutations in Hp.
      apply pni_sequence. intros p Hin. apply in_map_iff in Hin. destruct Hin as (m & <- & Hin). apply pni_integers. intros h E. injection E as <-.
      apply Hl. eapply Permutation_in; [symmetry; exact Hp|exact Hin].
  Qed.
  Lemma pni_polygon_strategy xs ys mn mx hmn hmx smn smx : 3 <= mn -> (forall m, mx = Some m -> mn <= m) ->
    0 <= hmn -> (forall m, hmx = Some m -> hmn <= m) -> 1 <= smn -> grid_enough xs ys (mn + smn * hmn) ->
    pni (to_polygon_strategy ctx xs ys mn mx hmn hmx smn smx).
  Proof.
    intros Hm Hx Hhm Hhx Hs Hg. unfold to_polygon_strategy. cbv zeta. apply pni_pfilter.
    apply pni_bind; [apply pni_pfilter, pni_grid; [nia|exact Hg]|]. intros pts Hp. apply gen_pfilter in Hp. destruct Hp as (Hp & Hf).
    apply grid_at_least in Hp. destruct Hp as (Hp & H5 & Hn). apply andb_true_iff in Hf. destruct Hf as (Hf1 & Hf2). apply Z.leb_le in Hf2.
    assert (Hhull : lenZ (ctx_hull ctx pts) <= lenZ (to_max_convex_hull pts)).
    { unfold lenZ in *. apply inj_le, hull_at_most_max; [exact Hn|lia|apply Hh]. }
    apply pni_bind.
    - apply pni_integers. intros h E. injection E as <-. destruct mx as [m|]; [|lia]. apply Z.leb_le in Hf1. specialize (Hx m eq_refl). lia.
    - intros n _. apply pni_bind; [apply pni_hole_sizes; assumption|]. intros sizes _. apply pni_bind; [apply pni_bits|]. intros ch _.
      apply pni_lift. auto with ni.
  Qed.

  (** Slices of the coordinates along one axis. *)
  Section Slices.
    Context (a : axis) (xs ys : scalars) (mn : Z) (mx : option Z) (hmn : Z) (hmx : option Z) (smn : Z) (smx : option Z) (mpc : Z)
      (Hm : 3 <= mn) (Hx : forall m, mx = Some m -> mn <= m) (Hhm : 0 <= hmn) (Hhx : forall m, hmx = Some m -> hmn <= m) (Hs : 1 <= smn)
      (Hmpc : to_next_prime (mn + hmn * smn) = Ok mpc) (Exs : forall n, enough xs n) (Eys : forall n, enough ys n).
    Lemma mpc_prime : 5 <= mpc /\ prime mpc.
    Proof.
      destruct (to_next_prime_spec (mn + hmn * smn) ltac:(nia)) as (p & E & Hp & H5 & _). rewrite E in Hmpc. injection Hmpc as <-. auto.
    Qed.
    Lemma prior_keeps n : mpc <= n -> exists q, to_prior_prime n = Ok q /\ mpc <= q <= n.
    Proof.
      intros H. destruct mpc_prime as (H5 & Hp). destruct (to_prior_prime_spec n ltac:(lia)) as (q & E & _ & Hr & Hl).
      exists q. split; [exact E|]. split; [|lia]. apply Hl; assumption.
    Qed.
    Lemma sliced_enough l n : n <= lenZ l -> enough (fst (sliced a l xs ys)) n /\ enough (snd (sliced a l xs ys)) n.
    Proof. intros H. destruct a; cbn [sliced fst snd enough]; auto. Qed.
    Lemma pni_slice_polygon l : mpc <= lenZ l -> pni (slice_polygon ctx a xs ys mn mx hmn hmx smn smx l).
    Proof.
      intros H. unfold slice_polygon. destruct (sliced a l xs ys) as (sx & sy) eqn:E. apply pni_polygon_strategy; try assumption.
      intros lower El. replace (mn + smn * hmn) with (mn + hmn * smn) in El by lia. rewrite Hmpc in El. injection El as <-.
      cbn [ordinates]. pose proof (sliced_enough l mpc H) as K. rewrite E in K. exact K.
    Qed.
    Lemma drop_length {A} (l : list A) i : 0 <= i -> lenZ (py_drop l i) = Z.max 0 (lenZ l - i).
    Proof. intros H. rewrite drop_pos by lia. unfold lenZ. rewrite skipn_length. lia. Qed.
    Lemma slice_length {A} (l : list A) i n : 0 <= i -> 0 <= n -> i + n <= lenZ l -> lenZ (py_slice l i (i + n)) = n.
    Proof.
      intros Hi Hn H. unfold py_slice, lenZ in *. rewrite !py_bound_pos by lia. rewrite firstn_length, skipn_length. lia.
    Qed.
    Lemma pni_multipolygon_loop left : forall l start, 0 <= start -> Z.max 1 (Z.of_nat left) * mpc <= lenZ l - start ->
      pni (multipolygon_loop ctx a xs ys mn mx hmn hmx smn smx mpc left l start).
    Proof.
      destruct mpc_prime as (H5 & Hp).
      assert (Last : forall l start, 0 <= start -> mpc <= lenZ l - start ->
        pni (bind (slice_polygon ctx a xs ys mn mx hmn hmx smn smx (py_drop l start)) (fun p => Ret [p]))).
      { intros l start H0 H. apply pni_bind; [apply pni_slice_polygon; rewrite drop_length; lia|]. intros p _. apply pni_ret. }
      induction left as [|left IH]; intros l start H0 H; [apply Last; [exact H0|change (Z.max 1 (Z.of_nat 0)) with 1 in H; lia]|].
      destruct left as [|left]; [apply Last; [exact H0|change (Z.max 1 (Z.of_nat 1)) with 1 in H; lia]|].
      remember (S left) as left1 eqn:El. unfold multipolygon_loop; fold multipolygon_loop. subst left1.
      set (k := Z.of_nat (S (S left))) in *. assert (Hk : 2 <= k) by (unfold k; lia). rewrite Z.max_r in H by lia.
      assert (Hdiv : mpc <= (lenZ l - start) / k) by (apply Z.div_le_lower_bound; lia).
      assert (Hdiv' : k * ((lenZ l - start) / k) <= lenZ l - start) by (apply Z.mul_div_le; lia).
      apply pni_bind; [apply pni_integers; intros h E; injection E as <-; exact Hdiv|].
      intros count Hc. apply gen_integers in Hc. destruct Hc as (Hc1 & Hc2).
      destruct (prior_keeps count Hc1) as (q & Eq & Hq). rewrite Eq. apply pni_bind; [apply pni_ret|]. intros q' Eq'. apply gen_lift in Eq'.
      injection Eq' as <-.
      apply pni_bind; [apply pni_slice_polygon; rewrite slice_length; nia|]. intros p _. apply pni_bind; [apply pni_lift; auto with ni|].
      intros blocked _. apply pni_bind; [|intros r _; apply pni_ret]. pose proof (b2z_range (negb blocked)).
      apply IH; [lia|]. rewrite Z.max_r by lia. unfold k in *. nia.
    Qed.

    Lemma pni_multipolygons_along l sn sx : 1 <= sn -> (forall m, sx = Some m -> sn <= m) -> sn * mpc <= lenZ l ->
      pni (coordinates_to_polygons ctx a xs ys mn mx hmn hmx smn smx mpc sn sx l).
    Proof.
      intros Hn Hsx Hl. destruct mpc_prime as (H5 & _). unfold coordinates_to_polygons. apply pni_bind.
      - apply pni_integers. intros h E. injection E as <-. assert (sn <= lenZ l / mpc) by (apply Z.div_le_lower_bound; lia).
        unfold min_opt. destruct sx as [m|]; [specialize (Hsx m eq_refl); lia|assumption].
      - intros n Hg. apply gen_integers in Hg. destruct Hg as (Hg1 & Hg2).
        assert (lenZ (isort qleb l) = lenZ l) as El by (unfold lenZ; rewrite isort_length; reflexivity).
        assert (n <= lenZ l / mpc) by (unfold min_opt in Hg2; destruct sx; lia).
        assert (mpc * (lenZ l / mpc) <= lenZ l) by (apply Z.mul_div_le; lia).
        apply pni_multipolygon_loop; [lia|]. rewrite Z.max_r by lia. rewrite Z2Nat.id by lia. nia.
    Qed.

    (** The drawers of a mix. *)
    Context (Bertrand : forall n, 3 <= n -> exists q, to_next_prime n = Ok q /\ q <= 2 * n).
    Lemma pni_draw_points l count : 1 <= count <= lenZ l -> pni (draw_points xs ys a l count).
    Proof.
      intros H. unfold draw_points. destruct (sliced a (py_take l count) xs ys) as (sx & sy) eqn:E.
      assert (K : 1 <= lenZ (py_take l count)) by (rewrite py_take_length; lia). apply sliced_enough in K. rewrite E in K. destruct K as (K1 & K2).
      apply pni_points; [lia| |exact K1|exact K2]. intros m Em. injection Em as <-. lia.
    Qed.
    Lemma pni_draw_segments l size : 1 <= size -> 2 * size <= lenZ l -> pni (draw_segments ctx xs ys a l (2 * size)).
    Proof.
      intros H1 H2. unfold draw_segments. replace (2 * size / 2) with size by (rewrite Z.mul_comm, Z.div_mul; lia).
      destruct (sliced a (py_take l (2 * size)) xs ys) as (sx & sy) eqn:E.
      assert (K : forall n, n <= 2 * size -> enough sx n /\ enough sy n).
      { intros n Hn. assert (K : n <= lenZ (py_take l (2 * size))) by (rewrite py_take_length; lia). apply sliced_enough in K. rewrite E in K. exact K. }
      apply pni_segments_strategy; [exact H1|intros m Em; injection Em as <-; lia|apply K; lia|apply K; lia|].
      intros H3. specialize (H3 size eq_refl). rewrite Z.max_l by lia. intros lower El. destruct (Bertrand size H3) as (q & Eq & Hq).
      rewrite El in Eq. injection Eq as ->. apply K, Hq.
    Qed.
    Lemma pni_draw_polygon l count : mpc <= count <= lenZ l -> pni (draw_polygon ctx xs ys mn mx hmn hmx smn smx a l count).
    Proof.
      intros H. destruct mpc_prime as (H5 & _). unfold draw_polygon. apply pni_bind; [destruct a; [apply pni_lift; auto with ni|apply pni_ret]|].
      intros n Hn. change (pni (slice_polygon ctx a xs ys mn mx hmn hmx smn smx (py_take l n))).
      assert (N : mpc <= n <= count).
      { destruct (prior_keeps count ltac:(lia)) as (q & Eq & Hq). destruct a; [apply gen_lift in Hn; rewrite Eq in Hn; injection Hn as <-; lia|].
        apply gen_ret in Hn. subst n. lia. }
      apply pni_slice_polygon. rewrite py_take_length; lia.
    Qed.
    Definition count_fits (dc : drawer * Z) : Prop :=
      match fst dc with
      | DrawPoints => 1 <= snd dc
      | DrawSegments => exists size, 1 <= size /\ snd dc = 2 * size
      | DrawPolygon => mpc <= snd dc
      end.
    Lemma fits_pos dc : count_fits dc -> 1 <= snd dc.
    Proof. destruct mpc_prime as (H5 & _). destruct dc as ([| |] & c); unfold count_fits; cbn [fst snd]; [lia|intros (s & ? & ?); lia|lia]. Qed.
    Lemma pni_mix_loop drawers : forall l P S Q, (forall dc, In dc drawers -> count_fits dc) -> zsum (map snd drawers) <= lenZ l ->
      pni (mix_loop ctx xs ys mn mx hmn hmx smn smx a drawers l P S Q).
    Proof.
      induction drawers as [|(d, count) drawers IH]; intros l P S Q Hc Hl; [apply pni_ret|]. cbn [mix_loop].
      assert (F : count_fits (d, count)) by (apply Hc; left; reflexivity). pose proof (fits_pos _ F) as F1. cbn [snd] in F1.
      cbn [map snd zsum fold_right] in Hl. fold (zsum (map snd drawers)) in Hl.
      assert (Hp : 0 <= zsum (map snd drawers)).
      { assert (Hc' : forall dc, In dc drawers -> count_fits dc) by (intros dc Hin; apply Hc; right; exact Hin). clear - Hc' Hmpc Hm Hhm Hs.
        induction drawers as [|dc drawers IH]; [cbn; lia|]. cbn [map zsum fold_right]. fold (zsum (map snd drawers)).
        pose proof (fits_pos dc (Hc' dc (or_introl eq_refl))). specialize (IH (fun x Hx => Hc' x (or_intror Hx))). lia. }
      apply pni_bind.
      { destruct d; (apply pni_bind; [|intros r _; apply pni_ret]).
        - apply pni_draw_points. lia.
        - destruct F as (size & Hs1 & Hs2). cbn [snd] in Hs2. subst count. apply pni_draw_segments; lia.
        - apply pni_draw_polygon. unfold count_fits in F. cbn [fst snd] in F. lia. }
      intros ((P1 & S1) & Q1) _. apply pni_bind.
      { destruct drawers as [|([| |] & c) drawers]; try apply pni_ret; destruct d; try apply pni_ret; apply pni_pmap, pni_lift; auto with ni. }
      intros touch _. pose proof (b2z_range touch). apply IH; [intros dc Hin; apply Hc; right; exact Hin|]. rewrite drop_length by lia. lia.
    Qed.
    Lemma pni_partition v : 0 <= v -> pni (partition v).
    Proof.
      intros H. unfold partition. apply pni_bind; [apply pni_lift; auto with ni|]. intros u _. revert v H.
      assert (forall fuel v, 0 <= v -> pni (partition_loop fuel v)) as K; [|intros v Hv; apply K, Hv].
      induction fuel as [|fuel IH]; intros v Hv; cbn [partition_loop]; (destruct (Z.eqb_spec v 0); [apply pni_ret|]).
      - intros C. apply raise_fail in C. discriminate.
      - apply pni_bind; [apply pni_integers; intros h E; injection E as <-; lia|]. intros x Hx'. apply gen_integers in Hx'. destruct Hx' as (K1 & K2).
        apply pni_bind; [apply IH; lia|]. intros r _. apply pni_ret.
    Qed.
    Context (pmn : Z) (pmx : option Z) (smin : Z) (smax : option Z) (qmn : Z) (qmx : option Z)
      (Hpm : 0 <= pmn) (Hpx : forall m, pmx = Some m -> pmn <= m) (Hsm : 0 <= smin) (Hsx : forall m, smax = Some m -> smin <= m)
      (Hqm : 0 <= qmn) (Hqx : forall m, qmx = Some m -> qmn <= m).
    Lemma sum_le c : forall l : list Z, (forall x, In x l -> x <= c) -> zsum l <= lenZ l * c.
    Proof.
      induction l as [|x l IH]; intros H; [cbn; lia|]. cbn [zsum fold_right]. fold (zsum l). specialize (H x (or_introl eq_refl)) as Hx'.
      specialize (IH (fun y Hy => H y (or_intror Hy))). unfold lenZ in *. cbn [length]. lia.
    Qed.
    Lemma pni_mix_along l : pmn + 2 * smin + qmn * mpc <= lenZ l ->
      pni (coordinates_to_mix ctx xs ys pmn pmx smin smax qmn qmx mn mx hmn hmx smn smx mpc a l).
    Proof.
      intros Hl. destruct mpc_prime as (H5 & _). unfold coordinates_to_mix.
      assert (K : pni (to_point_counts pmn pmx smin smax qmn qmx mpc (lenZ l)) /\
          forall pc sc qc, generates (to_point_counts pmn pmx smin smax qmn qmx mpc (lenZ l)) (pc, sc, qc) ->
          (forall dc, In dc (map (pair DrawPoints) pc ++ map (pair DrawSegments) sc ++ map (pair DrawPolygon) qc) -> count_fits dc) /\
          zsum pc + zsum sc + zsum qc <= lenZ l).
      { set (total := lenZ l) in *. unfold to_point_counts. cbv zeta. set (mpt := total - pmn - 2 * smin).
        assert (Hmpt : qmn * mpc <= mpt) by (unfold mpt; lia). assert (Hm0 : 0 <= mpt) by nia.
        assert (Q0 : qmn <= mpt / mpc) by (apply Z.div_le_lower_bound; lia).
        assert (Q1 : mpc * (mpt / mpc) <= mpt) by (apply Z.mul_div_le; lia).
        (* the polygons fit *)
        assert (Hpol : forall n mpp qc, in_range qmn (Some (min_opt (mpt / mpc) qmx)) n ->
          generates (if n =? 0 then Ret 0 else lift (to_prior_prime (mpt / n))) mpp ->
          (n <> 0 -> mpc <= mpp) /\
          (generates (if n =? 0 then Ret [] else draw_n (Z.to_nat n) (integers mpc (Some mpp))) qc ->
           (forall x, In x qc -> mpc <= x) /\ 0 <= zsum qc <= mpt)).
        { intros n mpp qc (N1 & N2) Hmpp. assert (N3 : n <= mpt / mpc) by (unfold min_opt in N2; destruct qmx; lia).
          destruct (Z.eqb_spec n 0) as [-> |Hn].
          - split; [tauto|]. intros Hq. apply gen_ret in Hq. subst qc. split; [intros ? []|cbn; lia].
          - assert (mpc <= mpt / n) as D by (apply Z.div_le_lower_bound; nia).
            destruct (prior_keeps _ D) as (q & Eq & Hq). apply gen_lift in Hmpp. rewrite Eq in Hmpp. injection Hmpp as <-.
            split; [lia|]. intros Hqc. apply gen_draw_n in Hqc. destruct Hqc as (L & Hqc).
            assert (B : forall x, In x qc -> mpc <= x <= q).
            { intros x Hin. apply Hqc, gen_integers in Hin. destruct Hin as (B1 & B2). lia. }
            split; [intros x Hin; apply B, Hin|]. pose proof (sum_le q qc (fun x Hin => proj2 (B x Hin))) as U.
            assert (lenZ qc = n) as Ln by (unfold lenZ; rewrite L; lia). rewrite Ln in U.
            assert (n * (mpt / n) <= mpt) by (apply Z.mul_div_le; lia). split; [|nia].
            clear - B H5. assert (forall x, In x qc -> 0 <= x) as B' by (intros x Hin; specialize (B x Hin); lia). clear B.
            induction qc as [|x qc IH]; [cbn; lia|]. cbn [zsum fold_right]. fold (zsum qc).
            pose proof (B' x (or_introl eq_refl)). specialize (IH (fun y Hy => B' y (or_intror Hy))). lia. }
        (* the segments fit *)
        assert (Hseg : forall tp, 0 <= tp <= mpt -> exists hi,
          (match smax with None => total - tp - pmn | Some m => Z.min (total - tp - pmn) (2 * m) end - 2 * smin) / 2 = hi /\
          0 <= hi /\ 2 * smin + 2 * hi <= total - tp - pmn).
        { intros tp Htp. eexists. split; [reflexivity|]. set (z := _ - 2 * smin). assert (0 <= z <= total - tp - pmn - 2 * smin).
          { unfold z, mpt in *. destruct smax as [m|]; [specialize (Hsx m eq_refl)|]; lia. }
          assert (2 * (z / 2) <= z) by (apply Z.mul_div_le; lia). assert (0 <= z / 2) by (apply Z.div_pos; lia). lia. }
        split.
        - apply pni_bind.
          { apply pni_integers. intros h E. injection E as <-. unfold min_opt. destruct qmx as [m|]; [specialize (Hqx m eq_refl); lia|assumption]. }
          intros n Hn. apply gen_integers in Hn.
          apply pni_bind; [destruct (n =? 0); [apply pni_ret|apply pni_lift; auto with ni]|]. intros mpp Hmpp.
          apply pni_bind.
          { destruct (Z.eqb_spec n 0) as [|Hn0]; [apply pni_ret|]. apply pni_draw_n, pni_integers. intros h E. injection E as <-.
            destruct (Hpol n mpp [] Hn) as (K & _); [|exact (K Hn0)]. destruct (Z.eqb_spec n 0); [contradiction|exact Hmpp]. }
          intros qc Hqc. destruct (Hpol n mpp qc Hn Hmpp) as (_ & Hpc). specialize (Hpc Hqc). destruct Hpc as (_ & Hpc).
          fold (zsum qc). destruct (Hseg (zsum qc) Hpc) as (hi & Ehi & Hhi0 & Hhi). rewrite Ehi.
          apply pni_bind; [apply pni_integers; intros h E; injection E as <-; exact Hhi0|].
          intros half Hhalf. apply gen_integers in Hhalf. destruct Hhalf as (Hf1 & Hf2).
          apply pni_bind; [apply pni_partition; unfold min_opt; destruct pmx as [m|]; [specialize (Hpx m eq_refl)|]; lia|].
          intros pc _. apply pni_bind; [apply pni_partition, Z.div_pos; lia|]. intros sizes _. apply pni_ret.
        - intros pc sc qc H. apply gen_bind in H. destruct H as (n & Hn & H). apply gen_integers in Hn.
          apply gen_bind in H. destruct H as (mpp & Hmpp & H). apply gen_bind in H. destruct H as (qc' & Hqc & H).
          destruct (Hpol n mpp qc' Hn Hmpp) as (_ & Hpc). specialize (Hpc Hqc). destruct Hpc as (Hpc1 & Hpc).
          fold (zsum qc') in H. destruct (Hseg (zsum qc') Hpc) as (hi & Ehi & Hhi0 & Hhi). rewrite Ehi in H.
          apply gen_bind in H. destruct H as (half & Hhalf & H). apply gen_integers in Hhalf. destruct Hhalf as (Hf1 & Hf2).
          apply gen_bind in H. destruct H as (pc' & Hp' & H). apply partition_spec in Hp'. destruct Hp' as (P1 & P2).
          apply gen_bind in H. destruct H as (sizes & Hs' & H). apply partition_spec in Hs'. destruct Hs' as (S1 & S2).
          apply gen_ret in H. injection H as -> -> ->. split.
          + intros dc Hin. apply in_app_or in Hin. destruct Hin as [Hin|Hin]; [|apply in_app_or in Hin; destruct Hin as [Hin|Hin]];
              apply in_map_iff in Hin; destruct Hin as (x & <- & Hin); unfold count_fits; cbn [fst snd].
            * apply P1, Hin.
            * apply in_map_iff in Hin. destruct Hin as (y & <- & Hin). exists y. split; [apply S1, Hin|reflexivity].
            * apply Hpc1, Hin.
          + assert (zsum (map (Z.mul 2) sizes) = 2 * zsum sizes) as ->.
            { clear. induction sizes as [|x l IH]; [reflexivity|]. cbn [map zsum fold_right]. fold (zsum l) (zsum (map (Z.mul 2) l)). lia. }
            assert (2 * zsum sizes <= 2 * smin + 2 * half) by (rewrite S2; apply Z.mul_div_le; lia).
            rewrite P2. unfold min_opt. destruct pmx as [m|]; lia. }
      destruct K as (K1 & K2). apply pni_bind; [exact K1|]. intros ((pc & sc) & qc) Hg. specialize (K2 pc sc qc Hg). destruct K2 as (K2 & K3).
      apply pni_bind; [apply pni_permutations|]. intros drawers Hd. apply gen_permutations in Hd.
      apply pni_bind; [|intros ((P & S) & Q) _; apply pni_ret]. apply pni_mix_loop.
      - intros dc Hin. apply K2. eapply Permutation_in; [symmetry; exact Hd|exact Hin].
      - rewrite <- (zsum_perm _ _ (Permutation_map snd Hd)). unfold lenZ at 1. rewrite isort_length. fold (lenZ l).
        rewrite !map_app, !zsum_app, !map_map. cbn [snd]. rewrite !map_id. lia.
    Qed.
  End Slices.
End Services.
