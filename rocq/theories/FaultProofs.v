(** Which exceptions drawing can raise. *)
From Verif Require Import Base Prog Geometry Ctx Utils Contracts Spec RangeSpec Factories Strategies Planar ProgProofs
  LoopProofs ListProofs PrimeProofs GridProofs PlanarProofs ConvexProofs StarProofs ContourProofs NoInvalid RangeProofs RangeApiProofs.
Open Scope Z_scope.

Section Allowed.
  Context (E : exn -> Prop).
  Definition only {A} (p : prog A) : Prop := forall e, can_raise p e -> E e.
  Lemma only_ret {A} (a : A) : only (Ret a). Proof. intros e H. apply raise_ret in H. tauto. Qed.
  Lemma only_lift {A} (r : res A) : (forall e, r = Raise e -> E e) -> only (lift r).
  Proof. intros H1 e H. apply raise_lift in H. exact (H1 e H). Qed.
  Lemma only_bind {A B} (m : prog A) (f : A -> prog B) : only m -> (forall a, generates m a -> only (f a)) -> only (bind m f).
  Proof. intros H1 H2 e H. apply raise_bind in H. destruct H as [H|(a & Ha & H)]; [exact (H1 e H)|exact (H2 a Ha e H)]. Qed.
  Lemma only_pmap {A B} (f : A -> B) m : only m -> only (pmap f m).
  Proof. intros H1 e H. apply raise_pmap in H. exact (H1 e H). Qed.
  Lemma only_pfilter {A} (f : A -> bool) m : only m -> only (pfilter f m).
  Proof. intros H1 e H. apply raise_pfilter in H. exact (H1 e H). Qed.
  Lemma only_alt {A} (p q : prog A) : only p -> only q -> only (alt p q).
  Proof. intros H1 H2 e H. apply raise_alt in H. destruct H as [H|H]; [exact (H1 e H)|exact (H2 e H)]. Qed.
  Lemma only_draw_n {A} n (p : prog A) : only p -> only (draw_n n p).
  Proof. intros H1 e H. apply raise_draw_n in H. exact (H1 e H). Qed.
  Lemma only_lists {A} (p : prog A) mn mx : 0 <= mn -> (forall m, mx = Some m -> mn <= m) -> only p -> only (lists p mn mx).
  Proof.
    intros H0 Hm Hp e H. apply raise_lists in H. destruct H as [(_ & [H|(m & E1 & H)])|H]; [lia| |exact (Hp e H)].
    specialize (Hm m E1). lia.
  Qed.
  Lemma only_permutations {A} (l : list A) : only (permutations l). Proof. intros e H. exfalso. exact (raise_permutations _ _ H). Qed.
  Lemma only_bits n : only (bits n). Proof. intros e H. exfalso. exact (raise_bits _ _ H). Qed.

  Lemma harmless_le s n m : m <= n -> harmless s n -> harmless s m.
  Proof. destruct s; cbn; [auto|lia]. Qed.
  Lemma only_scalar s n : 1 <= n -> harmless s n -> only (draw_scalar s).
  Proof.
    intros Hn H e K. exfalso. destruct s as [p|l]; [exact (H e K)|]. cbn [draw_scalar harmless] in *. apply raise_sampled_from in K.
    destruct K as (_ & ->). cbn in H. lia.
  Qed.
  Lemma only_unique_scalars s mn mx : 1 <= mn -> (forall m, mx = Some m -> mn <= m) -> harmless s mn -> only (unique_scalars s mn mx).
  Proof.
    intros H0 Hm He. destruct s as [p|l]; cbn [unique_scalars harmless] in *.
    - unfold unique_lists. apply only_pfilter, only_lists; [lia|exact Hm|]. intros e K. exfalso. exact (He e K).
    - destruct (lenZ l <? mn) eqn:El; [apply Z.ltb_lt in El; lia|]. unfold unique_lists. apply only_pfilter, only_lists; [lia| |].
      + intros m Em. injection Em as <-. destruct mx as [m|]; [specialize (Hm m eq_refl); lia|lia].
      + change (only (draw_scalar (Sampled l))). apply (only_scalar _ mn); [exact H0|exact He].
  Qed.
  Lemma only_point xs ys : harmless xs 1 -> harmless (ordinates xs ys) 1 -> only (to_point_strategy xs ys).
  Proof.
    intros Hx Hy. unfold to_point_strategy. change (or_else ys xs) with (ordinates xs ys).
    apply only_bind; [apply (only_scalar _ 1); [lia|exact Hx]|]. intros x _.
    apply only_bind; [apply (only_scalar _ 1); [lia|exact Hy]|]. intros y _. apply only_ret.
  Qed.
  Lemma only_points xs ys mn mx : 0 <= mn -> (forall m, mx = Some m -> mn <= m) -> harmless xs 1 -> harmless (ordinates xs ys) 1 ->
    only (to_unique_point_sequence_strategy xs ys mn mx).
  Proof.
    intros H0 Hm Hx Hy. unfold to_unique_point_sequence_strategy, unique_lists. apply only_pfilter, only_lists; [exact H0|exact Hm|].
    apply only_point; assumption.
  Qed.
  Lemma only_segment xs ys : harmless xs 1 -> harmless (ordinates xs ys) 1 -> only (to_segment_strategy xs ys).
  Proof.
    intros Hx Hy. unfold to_segment_strategy. apply only_bind; [|intros (a & b) _; apply only_ret]. apply only_pfilter.
    apply only_bind; [apply only_point; assumption|]. intros a _. apply only_bind; [apply only_point; assumption|]. intros b _. apply only_ret.
  Qed.
  Lemma only_sorted_pair s : harmless s 2 -> only (draw_sorted_pair s).
  Proof.
    intros H. unfold draw_sorted_pair. apply only_bind.
    - apply only_unique_scalars; [lia| |exact H]. intros m E1. injection E1 as <-. lia.
    - intros l Hl. assert (K : lenZ l = 2).
      { apply gen_unique_scalars in Hl. destruct Hl as (_ & _ & (H1 & H2) & _). specialize (H2 2 eq_refl). lia. }
      unfold lenZ in K. destruct l as [|a [|b [|c l]]]; cbn [List.length] in K; try lia. apply only_ret.
  Qed.
  Lemma only_box xs ys : harmless xs 2 -> harmless (ordinates xs ys) 2 -> only (to_box_strategy xs ys).
  Proof.
    intros Hx Hy. unfold to_box_strategy. change (or_else ys xs) with (ordinates xs ys).
    apply only_bind; [apply only_sorted_pair, Hx|]. intros (a & b) _. apply only_bind; [apply only_sorted_pair, Hy|]. intros (c & d) _. apply only_ret.
  Qed.
  Lemma only_triangle xs ys : harmless xs 1 -> harmless (ordinates xs ys) 1 -> only (to_triangular_vertex_sequence_strategy xs ys).
  Proof. intros Hx Hy. unfold to_triangular_vertex_sequence_strategy. apply only_pmap, only_pfilter, only_draw_n, only_point; assumption. Qed.

  Definition grid_harmless (xs : scalars) (ys : option scalars) (mn : Z) : Prop :=
    forall lower, to_next_prime mn = Ok lower -> harmless xs lower /\ harmless (ordinates xs ys) lower.
  Lemma only_grid xs ys mn mx : 3 <= mn -> grid_harmless xs ys mn -> only (to_point_sequence_in_general_position_strategy xs ys mn mx).
  Proof.
    intros Hm Hg e H. apply grid_raises in H; [|exact Hm]. destruct H as (lower & E1 & H). destruct (Hg lower E1) as (Hx & Hy).
    apply to_next_prime_ge in E1. cbv zeta in H.
    assert (K : forall m, match mx with None => None | Some m => Some (Z.max m lower) end = Some m -> lower <= m).
    { intros m Em. destruct mx; [injection Em as <-; lia|discriminate]. }
    destruct H as [H|H]; revert e H; apply only_unique_scalars; try assumption; lia.
  Qed.
  Lemma grid_harmless_5 xs ys mn : 3 <= mn -> grid_harmless xs ys mn -> harmless xs 5 /\ harmless (ordinates xs ys) 5.
  Proof.
    intros Hm Hg. destruct (to_next_prime_spec mn Hm) as (p & E1 & _ & H5 & _). destruct (Hg p E1) as (Hx & Hy).
    split; eapply harmless_le; eassumption.
  Qed.

  Section Services.
    Context (ctx : context) (Ha : forall y x e, ctx_atan2 ctx y x = Raise e -> E e).
    Lemma split_ends_some l : (2 <= List.length l)%nat -> exists x, split_ends l = Some x.
    Proof. intros H. destruct l as [|a [|b l]]; cbn in H; try lia. eexists. reflexivity. Qed.
    Lemma only_convex_sequence l bx by_ sh : (2 <= List.length l)%nat -> forall e, to_convex_vertex_sequence ctx l bx by_ sh = Raise e -> E e.
    Proof.
      intros Hl e H. unfold to_convex_vertex_sequence in H.
      destruct (split_ends_some (isort qleb (map px l))) as (((a & m) & b) & E1); [rewrite isort_length, map_length; exact Hl|].
      destruct (split_ends_some (isort qleb (map py l))) as (((a' & m') & b') & E2); [rewrite isort_length, map_length; exact Hl|].
      rewrite E1, E2 in H. cbv zeta in H. destruct (mapM _ _) as [k|e'] eqn:Ek; cbn [rbind] in H.
      - destruct (walk _ _ _ _ _) as (pairs & (mx & my)). discriminate.
      - injection H as ->. apply mapM_raise in Ek. destruct Ek as (x & _ & Ek). destruct (ctx_atan2 ctx _ _) eqn:E3; cbn [rbind] in Ek; [discriminate|].
        injection Ek as ->. exact (Ha _ _ _ E3).
    Qed.
    Lemma only_convex_strategy xs ys mn mx : 3 <= mn -> grid_harmless xs ys mn -> only (to_convex_vertex_sequence_strategy ctx xs ys mn mx).
    Proof.
      intros Hm Hg. destruct (grid_harmless_5 _ _ _ Hm Hg) as (Hx & Hy). unfold to_convex_vertex_sequence_strategy.
      assert (Ht : only (to_triangular_vertex_sequence_strategy xs ys)) by (apply only_triangle; eapply harmless_le; try eassumption; lia).
      assert (Hr : only (to_rectangular_vertex_sequence_strategy xs ys)).
      { unfold to_rectangular_vertex_sequence_strategy. apply only_pmap, only_box; eapply harmless_le; try eassumption; lia. }
      destruct (match mx with None => false | Some m => m <? CONCAVE end); [exact Ht|].
      match goal with |- context [pfilter ?f ?p] => set (r := pfilter f p); assert (Hpr : only r) end.
      { unfold r. apply only_pfilter. apply only_bind; [apply only_grid; assumption|]. intros pts Hpts.
        apply only_bind; [apply only_bits|]. intros b1 _. apply only_bind; [apply only_bits|]. intros b2 _.
        apply only_bind; [apply only_permutations|]. intros perm _. apply only_lift. apply only_convex_sequence.
        apply grid_at_least in Hpts. unfold lenZ in Hpts. lia. }
      clearbody r. cbv zeta. destruct (mn <=? 4), (mn =? 3); repeat apply only_alt; assumption.
    Qed.
    Lemma only_star l : E ZeroDivisionError -> ~ E OutOfFuel -> forall e, to_star_contour_vertices ctx l = Raise e -> E e.
    Proof.
      intros Hz Hf e H. assert (K : to_star_contour_vertices ctx l <> Raise OutOfFuel).
      { apply star_terminates. intros y x Hyx. apply Hf. exact (Ha _ _ _ Hyx). }
      revert H K. unfold to_star_contour_vertices. set (st := (_, _, _)). clearbody st.
      match goal with |- while_ ?n ?f ?s = _ -> _ => set (n0 := n); set (body := f) end.
      intros H K. assert (Q : forall e, while_ n0 body st = Raise e -> e = OutOfFuel \/ E e).
      { apply (while_inv (fun _ => True) (fun r => forall e, r = Raise e -> e = OutOfFuel \/ E e)).
        - intros ((c & r) & prev) _. unfold body. destruct (_ && _)%bool; [|intros e0 H0; discriminate].
          destruct (star_step ctx c r) as [(c' & r')|e'] eqn:Es; cbn [rbind]; [exact I|].
          intros e0 H0. injection H0 as <-. right. unfold star_step in Es. destruct (mapM _ r) as [keyed|e1] eqn:Ek; cbn [rbind] in Es.
          + destruct (2 <? _); [|discriminate]. unfold region_centroid in Es.
            destruct (qeqb _ _); cbn [rbind] in Es; [injection Es as <-; exact Hz|discriminate].
          + injection Es as <-. apply mapM_raise in Ek. destruct Ek as (x & _ & Ek). unfold to_segment_angle in Ek.
            destruct (ctx_atan2 ctx _ _) as [a|e2] eqn:E2; cbn [rbind] in Ek; [discriminate|]. injection Ek as <-. exact (Ha _ _ _ E2).
        - intros e0 H0. injection H0 as <-. left. reflexivity.
        - exact I. }
      destruct (Q e H) as [-> |K']; [contradiction|exact K'].
    Qed.
    Lemma only_star_strategy xs ys mn mx : E ZeroDivisionError -> ~ E OutOfFuel -> 3 <= mn -> grid_harmless xs ys mn ->
      only (to_star_vertex_sequence_strategy ctx xs ys mn mx).
    Proof.
      intros Hz Hf Hm Hg. unfold to_star_vertex_sequence_strategy. apply only_pfilter.
      apply only_bind; [apply only_grid; assumption|]. intros pts _. apply only_lift, only_star; assumption.
    Qed.
  End Services.
End Allowed.

Lemma harmless_both_le xs ys n m : m <= n -> harmless_both xs ys n -> harmless xs m /\ harmless (ordinates xs ys) m.
Proof.
  intros Hm (H1 & H2). split; [eapply harmless_le; [exact Hm|exact H1]|]. destruct ys as [s|]; cbn [ordinates].
  - eapply harmless_le; [exact Hm|apply H2; reflexivity].
  - eapply harmless_le; [exact Hm|exact H1].
Qed.
Lemma harmless_grid xs ys n m : 3 <= n -> 2 * n <= m -> harmless_both xs ys m -> grid_harmless xs ys n.
Proof.
  intros H1 H2 H lower E. destruct (next_prime_twice n H1) as (q & Eq & Hq). rewrite E in Eq. injection Eq as ->.
  eapply harmless_both_le; [|exact H]. lia.
Qed.

Lemma only_silent {A} (p : prog A) e : only (fun _ => False) p -> ~ can_raise p e.
Proof. intros H. exact (H e). Qed.

Section Api.
  Context (ctx : context) (xs : scalars) (ys : option scalars).
  Lemma silent_points w s e : harmless_both xs ys 1 -> points xs ys = Ok (w, s) -> ~ can_raise s e.
  Proof. intros Hs H. injection H as _ <-. destruct (harmless_both_le _ _ _ _ (Z.le_refl 1) Hs). apply only_silent, only_point; assumption. Qed.
  Lemma silent_multipoints mn mx w s e : harmless_both xs ys 1 -> multipoints xs ys mn mx = Ok (w, s) -> ~ can_raise s e.
  Proof.
    intros Hs H. unfold multipoints in H. validate; try discriminate. injection H as _ <-.
    destruct (harmless_both_le _ _ _ _ (Z.le_refl 1) Hs). unfold to_multipoint_strategy.
    apply only_silent, only_points; try assumption; [unfold MIN_MULTIPOINT_SIZE; lia|]. apply clamped_range. assumption.
  Qed.
  Lemma silent_segments w s e : harmless_both xs ys 1 -> segments xs ys = Ok (w, s) -> ~ can_raise s e.
  Proof. intros Hs H. injection H as _ <-. destruct (harmless_both_le _ _ _ _ (Z.le_refl 1) Hs). apply only_silent, only_segment; assumption. Qed.
  Lemma silent_boxes w s e : harmless_both xs ys 2 -> boxes xs ys = Ok (w, s) -> ~ can_raise s e.
  Proof. intros Hs H. injection H as _ <-. destruct (harmless_both_le _ _ _ _ (Z.le_refl 2) Hs). apply only_silent, only_box; assumption. Qed.
  Lemma silent_rectangular w s e : harmless_both xs ys 2 -> rectangular_contours xs ys = Ok (w, s) -> ~ can_raise s e.
  Proof.
    intros Hs H. injection H as _ <-. destruct (harmless_both_le _ _ _ _ (Z.le_refl 2) Hs).
    unfold to_rectangular_vertex_sequence_strategy. apply only_silent, only_pmap, only_box; assumption.
  Qed.
  Lemma silent_triangular w s e : harmless_both xs ys 1 -> triangular_contours xs ys = Ok (w, s) -> ~ can_raise s e.
  Proof. intros Hs H. injection H as _ <-. destruct (harmless_both_le _ _ _ _ (Z.le_refl 1) Hs). apply only_silent, only_triangle; assumption. Qed.
  Lemma convex_raises mn mx w s e : harmless_both xs ys (2 * Z.max mn 3) -> convex_contours ctx xs ys mn mx = Ok (w, s) ->
    can_raise s e -> exists y x, ctx_atan2 ctx y x = Raise e.
  Proof.
    intros Hs H. unfold convex_contours in H. validate; try discriminate. injection H as _ <-. change CONVEX with 3 in *.
    apply (only_convex_strategy (fun e => exists y x, ctx_atan2 ctx y x = Raise e)); [eauto|lia|]. eapply harmless_grid; [lia| |exact Hs]. lia.
  Qed.
  Lemma star_raises mn mx w s e : (forall y x e, ctx_atan2 ctx y x <> Raise e) -> harmless_both xs ys (2 * Z.max mn 3) ->
    star_contours ctx xs ys mn mx = Ok (w, s) -> can_raise s e -> e = ZeroDivisionError.
  Proof.
    intros Ha Hs H. unfold star_contours in H. validate; try discriminate. injection H as _ <-. change MIN_CONTOUR_SIZE with 3 in *.
    apply (only_star_strategy (fun e => e = ZeroDivisionError)); [|reflexivity|discriminate|lia|].
    - intros y x e0 K. exfalso. exact (Ha _ _ _ K).
    - eapply harmless_grid; [lia| |exact Hs]. lia.
  Qed.
End Api.
