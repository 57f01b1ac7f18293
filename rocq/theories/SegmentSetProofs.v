(** What multisegments can generate, exactly. *)
From Coq Require Import List Lia Permutation.
From Verif Require Import Base Prog Geometry Ctx Utils Contracts Planar Spec Factories Strategies QcTac ProgProofs PlanarProofs SimpleProofs SeparationProofs ContourProofs
  GeomProofs ListProofs HelperProofs GridProofs ConvexProofs SequenceProofs GeometryApiProofs SizeApiProofs.
Import List ListNotations.
Local Open Scope Z_scope.

Lemma sub_sequence_all {A} (l r rest : list A) mn : mn <= lenZ r -> Permutation l (r ++ rest) -> generates (to_sub_sequence_strategy l mn) r.
Proof.
  intros Hm P. unfold to_sub_sequence_strategy. apply gen_bind. exists (r ++ rest). split; [apply gen_permutations, P|].
  assert (El : lenZ l = lenZ r + lenZ rest) by (unfold lenZ; rewrite (Permutation_length P), app_length; lia).
  apply gen_bind. exists (lenZ r). split; [apply gen_integers; unfold in_range; rewrite El; unfold lenZ; split; [exact Hm|lia]|].
  apply gen_ret. unfold cut. replace (lenZ (r ++ rest)) with (lenZ r + lenZ rest) by (unfold lenZ; rewrite app_length; lia). destruct (Z.ltb_spec (lenZ r) (lenZ r + lenZ rest)) as [n|n].
  - unfold py_take. replace (py_bound (r ++ rest) (lenZ r)) with (length r).
    2:{ unfold py_bound, lenZ. rewrite app_length. rewrite (proj2 (Z.leb_le 0 _)) by lia. lia. }
    rewrite firstn_app, Nat.sub_diag, firstn_all. cbn [firstn]. rewrite app_nil_r. reflexivity.
  - destruct rest as [|x rest]; [rewrite app_nil_r; reflexivity|]. unfold lenZ in n. cbn [length] in n. lia.
Qed.

Lemma multisegments_exactly ctx xs ys mn mx w s l : (forall l, is_hull l (ctx_hull ctx l)) -> multisegments ctx xs ys mn mx = Ok (w, s) ->
  generates s l <-> size_ok (lenZ l) (Z.max mn 2) mx /\
    ((pairwise_apart l /\ forall t, In t l -> seg_start t <> seg_end t /\ drawable_point xs ys (seg_start t) /\ drawable_point xs ys (seg_end t)) \/
     exists w' s' vs rest, contours ctx xs ys (Z.max mn 3) mx = Ok (w', s') /\ generates s' vs /\ Permutation (contour_segments vs) (l ++ rest)).
Proof.
  intros Hull H. split.
  - intros G. destruct (multisegments_spec _ _ _ _ _ _ _ _ Hull H G) as (Sz & _ & Ap). split; [exact Sz|].
    unfold multisegments in H. validate_hyp; [discriminate|]. injection H as _ <-. change MIN_MULTISEGMENT_SIZE with 2 in *.
    unfold to_multisegment_strategy, to_segment_sequence_strategy in G.
    replace (match mx with Some m => (m <? 2) | None => false end) with false in G.
    2:{ destruct mx as [m|]; [|reflexivity]. destruct Sz as (S1 & S2). specialize (S2 m eq_refl). symmetry. apply Z.ltb_ge. lia. }
    cbv zeta in G. change (or_else ys xs) with (ordinates xs ys) in G. apply gen_alt in G. destruct G as [G|G].
    2:{ left. apply gen_pfilter in G. destruct G as (G & F). split; [apply no_cross_apart, F|]. apply gen_lists in G. destruct G as (_ & _ & G).
        intros t Ht. apply G, gen_segment in Ht. unfold drawable_point, ordinates in *. destruct ys; exact Ht. }
    assert (Base : generates (alt (let! x := draw_scalar xs in
           let! l := unique_scalars (ordinates xs ys) (Z.max mn 2 + 1) (match mx with None => None | Some m => Some (m + 1)%Z end) in
           Ret (to_vertical_multisegment x l))
          (let! l := unique_scalars xs (Z.max mn 2 + 1) (match mx with None => None | Some m => Some (m + 1)%Z end) in
           let! y := draw_scalar (ordinates xs ys) in
           Ret (to_horizontal_multisegment l y))) l ->
       pairwise_apart l /\ forall t, In t l -> seg_start t <> seg_end t /\ drawable_point xs ys (seg_start t) /\ drawable_point xs ys (seg_end t)).
    { clear. intros G. unfold drawable_point. apply gen_alt in G. destruct G as [G|G].
      - apply gen_bind in G. destruct G as (x & Hx & G). apply gen_bind in G. destruct G as (l' & Hl & G). apply gen_ret in G. subst l.
        apply gen_unique_scalars in Hl. destruct Hl as (D & _ & _ & Dr). split; [apply vertical_apart, D|].
        intros t Ht. unfold to_vertical_multisegment in Ht. apply in_map_iff in Ht. destruct Ht as ((a & b) & <- & Hin).
        destruct (pairwise_strict _ _ _ (isort_strict _ D) Hin) as (L & Ia & Ib). apply isort_in in Ia, Ib. cbn [seg_start seg_end px py fst snd].
        split; [intros E; injection E as ->; revert L; apply Qlt_irrefl|]. split; split; first [exact Hx|apply Dr; assumption].
      - apply gen_bind in G. destruct G as (l' & Hl & G). apply gen_bind in G. destruct G as (y & Hy & G). apply gen_ret in G. subst l.
        apply gen_unique_scalars in Hl. destruct Hl as (D & _ & _ & Dr). split; [apply horizontal_apart, D|].
        intros t Ht. unfold to_horizontal_multisegment in Ht. apply in_map_iff in Ht. destruct Ht as ((a & b) & <- & Hin).
        destruct (pairwise_strict _ _ _ (isort_strict _ D) Hin) as (L & Ia & Ib). apply isort_in in Ia, Ib. cbn [seg_start seg_end px py fst snd].
        split; [intros E; injection E as ->; revert L; apply Qlt_irrefl|]. split; split; first [exact Hy|apply Dr; assumption]. }
    change MIN_CONTOUR_SIZE with 3 in G. destruct (match mx with None => true | Some m => 3 <=? m end) eqn:E3; [|left; apply Base, G].
    apply gen_alt in G. destruct G as [G|G]; [left; apply Base, G|]. right. apply gen_bind in G. destruct G as (vs & Hv & G).
    change (contour_vertices_to_edges vs) with (contour_segments vs) in G. apply gen_sub_sequence in G; [|lia]. destruct G as (_ & rest & P).
    assert (V : ~ bad_sizes (Z.max mn 3) mx 3).
    { intros (m & -> & B). apply Z.leb_le in E3. destruct Sz as (S1 & S2). specialize (S2 m eq_refl). lia. }
    unfold contours. change MIN_CONTOUR_SIZE with 3. rewrite (validate_good _ _ _ _ V). cbn [rbind].
    eexists _, _, vs, rest. split; [reflexivity|]. split; [|exact P]. replace (Z.max (Z.max mn 3) 3) with (Z.max (Z.max mn 2) 3) by lia. destruct ys; exact Hv.
  - intros (Sz & [(Ap & D)|(w' & s' & vs & rest & Hc & G & P)]).
    + eapply multisegments_complete; eassumption.
    + destruct (contours_sizes _ _ _ _ _ _ _ _ Hull Hc G) as ((V1 & V2) & _).
      unfold multisegments in H. unfold contours in Hc. validate_hyp; try discriminate. injection H as _ <-. injection Hc as _ <-. change MIN_MULTISEGMENT_SIZE with 2 in *. change MIN_CONTOUR_SIZE with 3 in *.
      unfold to_multisegment_strategy, to_segment_sequence_strategy. change (or_else ys xs) with (ordinates xs ys).
      replace (match mx with Some m => (m <? 2) | None => false end) with false.
      2:{ destruct mx as [m|]; [|reflexivity]. specialize (V2 m eq_refl). symmetry. apply Z.ltb_ge. lia. }
      cbv zeta. cbv iota. change MIN_CONTOUR_SIZE with 3.
      replace (match mx with None => true | Some m => 3 <=? m end) with true.
      2:{ destruct mx as [m|]; [|reflexivity]. specialize (V2 m eq_refl). symmetry. apply Z.leb_le. lia. }
      apply gen_alt. left. apply gen_alt. right. apply gen_bind. exists vs. split.
      * replace (Z.max (Z.max mn 3) 3) with (Z.max (Z.max mn 2) 3) in G by lia. destruct ys; exact G.
      * apply (sub_sequence_all _ _ rest); [apply Sz|exact P].
Qed.
Lemma multisegments_parts ctx xs ys mn mx w s l l' rest : (forall l, is_hull l (ctx_hull ctx l)) -> multisegments ctx xs ys mn mx = Ok (w, s) ->
  generates s l -> Permutation l (l' ++ rest) -> Z.max mn 2 <= lenZ l' -> generates s l'.
Proof.
  intros Hull H G P L. apply (multisegments_exactly ctx xs ys mn mx w s l Hull H) in G. apply (multisegments_exactly ctx xs ys mn mx w s l' Hull H).
  destruct G as ((S1 & S2) & G). split; [split; [exact L|]|].
  - intros m Em. specialize (S2 m Em). pose proof (Permutation_length P) as Q. rewrite app_length in Q. unfold lenZ in *. lia.
  - destruct G as [(Ap & D)|(w' & s' & vs & rest' & Hc & G & P')]; [left|right].
    + split; [apply (apart_sub l l' rest Ap P)|]. intros t Ht. apply D. apply (Permutation_in _ (Permutation_sym P)), in_or_app. left. exact Ht.
    + exists w', s', vs, (rest ++ rest'). split; [exact Hc|]. split; [exact G|]. rewrite P', P, app_assoc. reflexivity.
Qed.
Lemma multisegments_pairs ctx xs ys mn w s l : (forall l, is_hull l (ctx_hull ctx l)) -> multisegments ctx xs ys mn (Some 2) = Ok (w, s) ->
  generates s l <-> exists a b c d, l = [Seg a b; Seg c d] /\ a <> b /\ c <> d /\ ~ interiors_meet (Seg a b) (Seg c d) /\
    drawable_point xs ys a /\ drawable_point xs ys b /\ drawable_point xs ys c /\ drawable_point xs ys d.
Proof.
  intros Hull H. rewrite (multisegments_exactly ctx xs ys mn (Some 2) w s l Hull H).
  assert (Hm : mn <= 2).
  { unfold multisegments in H. validate_hyp; [discriminate|]. destruct (Z_le_gt_dec mn 2) as [|gt]; [assumption|]. exfalso. match goal with B : ~ bad_sizes _ _ _ |- _ => apply B end. eexists. split; [reflexivity|]. lia. }
  split.
  - intros ((S1 & S2) & G). specialize (S2 2 eq_refl). destruct G as [(Ap & D)|(w' & s' & vs & rest & Hc & G & _)].
    2:{ destruct (contours_sizes _ _ _ _ _ _ _ _ Hull Hc G) as ((V1 & V2) & _). specialize (V2 2 eq_refl). lia. }
    destruct l as [|[a b] [|[c d] [|? l]]]; unfold lenZ in *; cbn [length] in *; try lia. exists a, b, c, d. split; [reflexivity|].
    destruct (D _ (or_introl eq_refl)) as (N1 & D1 & D2). destruct (D _ (or_intror (or_introl eq_refl))) as (N2 & D3 & D4). cbn [seg_start seg_end] in *.
    repeat (split; [assumption|]). split; [|auto]. apply (Ap 0%nat 1%nat); [reflexivity..|discriminate].
  - intros (a & b & c & d & -> & N1 & N2 & Ap & D1 & D2 & D3 & D4). split; [split; [unfold lenZ; cbn [length]; lia|intros m E; injection E as <-; unfold lenZ; cbn [length]; lia]|].
    left. split.
    + apply pairwise_apart_lt. intros i j t u Hi Hj L. destruct i as [|[|i]], j as [|[|j]]; try discriminate; try lia; try (destruct j; discriminate).
      injection Hi as <-. injection Hj as <-. exact Ap.
    + intros t [<-|[<-|[]]]; cbn [seg_start seg_end]; auto.
Qed.
