(** Contours and multisegments with inexact arithmetic: sizes, coordinates, ranges.  The proofs are
    those of ConvexProofs.v, StarProofs.v and SequenceProofs.v, without the parts that need exact
    predicates. *)
From Verif Require Import Base Prog Geometry Ctx Utils Contracts Factories Strategies Spec QcTac ProgProofs GeomProofs
  SimpleProofs GridProofs ListProofs LoopProofs CompressProofs EdgeProofs HelperProofs ConvexProofs StarProofs SegmentProofs
  SeparationProofs SliceProofs SequenceProofs CarveProofs RoughArith RoughFactories RoughCarve RoughStrategies.

Section Rough.
Context {ar : arith}.

(** ** Convex contours *)
Lemma gen_triangle_points xs ys vs : generates (to_triangular_vertex_sequence_strategy xs ys) vs ->
  length vs = 3 /\ forall p, In p vs -> drawable_point xs ys p.
Proof.
  unfold to_triangular_vertex_sequence_strategy. intros H. apply gen_pmap in H. destruct H as (l & H & ->).
  apply gen_pfilter in H. destruct H as (H & _). apply gen_draw_n in H. destruct H as (Hl & H).
  assert (K : forall p, In p l -> drawable_point xs ys p) by (intros p Hp; apply gen_point, H, Hp).
  destruct l as [|a [|b [|c [|d l]]]]; try discriminate. cbn [to_counterclockwise_vertices].
  destruct (orientation_eqb _ _); (split; [reflexivity|]).
  - exact K.
  - intros p Hp. apply K. cbn [In] in *. tauto.
Qed.
Lemma convex_sequence_spec ctx points bx by_ sh vs :
  to_convex_vertex_sequence ctx points bx by_ sh = Ok vs ->
  exists l, vs = ctx_hull ctx l /\ forall p, In p l ->
    (exists q1 q2, In q1 points /\ In q2 points /\ (px q1 <= px p)%Qc /\ (px p <= px q2)%Qc)
    /\ (exists q1 q2, In q1 points /\ In q2 points /\ (py q1 <= py p)%Qc /\ (py p <= py q2)%Qc).
Proof.
  unfold to_convex_vertex_sequence.
  destruct (split_ends (isort qleb (map px points))) as [((x0, xm), x1)|] eqn:Ex; [|discriminate].
  destruct (split_ends (isort qleb (map py points))) as [((y0, ym), y1)|] eqn:Ey; [|discriminate].
  destruct (mapM _ _) as [keyed|e]; cbn [rbind]; [|discriminate].
  destruct (walk _ 0 0 0 0) as (pairs & mx & my). intros H. injection H as <-.
  eexists. split; [reflexivity|]. intros p Hp. apply in_map_iff in Hp. destruct Hp as ((u & v) & <- & _). cbn [px py fst snd].
  apply split_ends_in in Ex, Ey. rewrite !isort_in, !in_map_iff in Ex, Ey.
  destruct Ex as ((q0 & <- & Hq0) & (q1 & <- & Hq1)). destruct Ey as ((r0 & <- & Hr0) & (r1 & <- & Hr1)).
  split.
  - destruct (clamp_range (radd u (rsub (px q0) mx)) (px q0) (px q1)) as (lo & hi & Hlo & Hhi & H1 & H2).
    exists (if Qc_eq_dec lo (px q0) then q0 else q1), (if Qc_eq_dec hi (px q0) then q0 else q1).
    destruct (Qc_eq_dec lo (px q0)) as [-> |]; destruct (Qc_eq_dec hi (px q0)) as [-> |];
    repeat split; try assumption; try (destruct Hlo; [contradiction|subst lo; assumption]);
    try (destruct Hhi; [contradiction|subst hi; assumption]).
  - destruct (clamp_range (radd v (rsub (py r0) my)) (py r0) (py r1)) as (lo & hi & Hlo & Hhi & H1 & H2).
    exists (if Qc_eq_dec lo (py r0) then r0 else r1), (if Qc_eq_dec hi (py r0) then r0 else r1).
    destruct (Qc_eq_dec lo (py r0)) as [-> |]; destruct (Qc_eq_dec hi (py r0)) as [-> |];
    repeat split; try assumption; try (destruct Hlo; [contradiction|subst lo; assumption]);
    try (destruct Hhi; [contradiction|subst hi; assumption]).
Qed.
Lemma convex_strategy_spec ctx xs ys mn mx vs : (forall l, incl (ctx_hull ctx l) l) -> (3 <= mn)%Z ->
  (forall m, mx = Some m -> (mn <= m)%Z) ->
  generates (to_convex_vertex_sequence_strategy ctx xs ys mn mx) vs ->
  size_ok (lenZ vs) mn mx
  /\ forall p, In p vs -> in_drawable_range xs (px p) /\ in_drawable_range (ordinates xs ys) (py p).
Proof.
  intros Hhull Hmn Hmx H.
  assert (Htri : generates (to_triangular_vertex_sequence_strategy xs ys) vs ->
    lenZ vs = 3%Z
    /\ forall p, In p vs -> in_drawable_range xs (px p) /\ in_drawable_range (ordinates xs ys) (py p)).
  { intros Ht. apply gen_triangle_points in Ht. destruct Ht as (Hl & Hd).
    split; [unfold lenZ; rewrite Hl; reflexivity|].
    intros p Hp. destruct (Hd p Hp); split; apply drawable_in_range; assumption. }
  unfold to_convex_vertex_sequence_strategy in H.
  destruct (match mx with None => false | Some m => (m <? CONCAVE)%Z end) eqn:Emx.
  { destruct mx as [m|]; [|discriminate]. apply Z.ltb_lt in Emx. unfold CONCAVE in Emx. specialize (Hmx m eq_refl).
    destruct (Htri H) as (H2 & H3). split; [|exact H3]. rewrite H2. split; [lia|].
    intros m' Em. injection Em as <-. lia. }
  assert (H4 : forall m, mx = Some m -> (4 <= m)%Z).
  { intros m ->. apply Z.ltb_ge in Emx. exact Emx. }
  match type of H with context [pfilter ?f ?p] => set (res := pfilter f p) in H end.
  assert (Hres : generates res vs -> size_ok (lenZ vs) mn mx
    /\ forall p, In p vs -> in_drawable_range xs (px p) /\ in_drawable_range (ordinates xs ys) (py p)).
  { clear H. intros H. apply gen_pfilter in H. destruct H as (H & Hs). apply size_valid in Hs.
    apply gen_bind in H. destruct H as (points & Hp & H). apply gen_bind in H. destruct H as (bx & _ & H).
    apply gen_bind in H. destruct H as (by_ & _ & H). apply gen_bind in H. destruct H as (perm & _ & H).
    apply gen_lift in H. apply convex_sequence_spec in H. destruct H as (l & -> & Hl).
    split; [exact Hs|].
    intros p Hpin. apply Hhull in Hpin. destruct (Hl p Hpin) as ((q1 & q2 & A1 & A2 & A3 & A4) & (r1 & r2 & B1 & B2 & B3 & B4)).
    apply grid_sound in Hp. split.
    + exists (px q1), (px q2). repeat split; auto; apply (grid_drawable _ _ _ _ _ Hp); assumption.
    + exists (py r1), (py r2). repeat split; auto; apply (grid_drawable _ _ _ _ _ Hp); assumption. }
  assert (Hrec : generates (to_rectangular_vertex_sequence_strategy xs ys) vs -> (mn <= 4)%Z ->
    size_ok (lenZ vs) mn mx
    /\ forall p, In p vs -> in_drawable_range xs (px p) /\ in_drawable_range (ordinates xs ys) (py p)).
  { intros Hr Hle. apply gen_rectangle in Hr. destruct Hr as (x1 & x2 & y1 & y2 & -> & Hx & Hy & D1 & D2 & D3 & D4).
    split; [split; [cbn; lia|intros m Em; apply H4 in Em; cbn; lia]|].
    intros p Hp. destruct Hp as [<-|[<-|[<-|[<-|[]]]]]; cbn [px py]; split; apply drawable_in_range; assumption. }
  destruct (mn =? 3)%Z eqn:E3.
  - apply gen_alt in H. destruct H as [H|H].
    + destruct (Htri H) as (H2 & H3). split; [|exact H3]. rewrite H2. apply Z.eqb_eq in E3.
      split; [lia|]. intros m Em. apply H4 in Em. lia.
    + destruct (mn <=? 4)%Z eqn:E4; [|apply Hres, H]. apply Z.leb_le in E4.
      apply gen_alt in H. destruct H as [H|H]; [apply Hrec; assumption|apply Hres, H].
  - destruct (mn <=? 4)%Z eqn:E4; [|apply Hres, H]. apply Z.leb_le in E4.
    apply gen_alt in H. destruct H as [H|H]; [apply Hrec; assumption|apply Hres, H].
Qed.

(** ** Star contours *)
Lemma drop_subsequence fuel : forall i c vs, subsequence (drop_bad_angles fuel i c vs) vs.
Proof.
  induction fuel as [|fuel IH]; intros i c vs; cbn [drop_bad_angles]; [apply subsequence_refl|].
  destruct (Z.max i 2 <? lenZ vs)%Z; [|apply subsequence_refl].
  destruct (angle_contains_point _ _ _ _).
  - apply IH.
  - eapply subsequence_trans; [apply IH|apply py_del_subsequence].
Qed.
Lemma grouped_spec ctx c result keyed :
  mapM (fun p => let* a := to_segment_angle ctx c p in Ok (a, p)) result = Ok keyed ->
  let r := last_of_groups (isort angle_point_leb keyed) in
  incl r result /\ length r <= length result /\ (NoDup result -> NoDup r).
Proof.
  intros H r. pose proof (mapM_snd _ _ _ H) as E.
  pose proof (last_of_groups_subsequence (isort angle_point_leb keyed)) as Hs. fold r in Hs.
  assert (Hp : Permutation result (map snd (isort angle_point_leb keyed))).
  { rewrite <- E. apply Permutation_map, isort_perm. }
  split; [|split].
  - intros p Hp'. apply (subsequence_incl _ _ Hs) in Hp'. apply (Permutation_in _ (Permutation_sym Hp)). exact Hp'.
  - apply subsequence_length in Hs. rewrite (Permutation_length Hp). exact Hs.
  - intros Hd. apply (subsequence_nodup _ _ Hs). apply (Permutation_NoDup Hp Hd).
Qed.
Lemma star_step_spec ctx c0 result c r : NoDup result ->
  star_step ctx c0 result = Ok (c, r) -> incl r result /\ NoDup r.
Proof.
  intros Hd. unfold star_step.
  destruct (mapM _ result) as [keyed|e] eqn:Ek; cbn [rbind]; [|discriminate].
  destruct (grouped_spec ctx c0 result keyed Ek) as (Hi & _ & Hn). specialize (Hn Hd).
  set (r1 := last_of_groups (isort angle_point_leb keyed)) in *.
  destruct (Z.ltb_spec 2 (lenZ r1)) as [Hlt|Hge].
  - destruct (region_centroid r1) as [c1|e] eqn:Ec; cbn [rbind]; [|discriminate].
    pose proof (drop_subsequence (S (length r1)) 0 c1 r1) as Hs.
    remember (drop_bad_angles (S (length r1)) 0 c1 r1) as r2 eqn:Er2.
    intros H. injection H as <- <-.
    pose proof (compress_subsequence r2) as Hc. split.
    + intros p Hp. apply Hi. apply (subsequence_incl _ _ Hs). apply (subsequence_incl _ _ Hc). exact Hp.
    + apply (subsequence_nodup _ _ Hc). apply (subsequence_nodup _ _ Hs Hn).
  - intros H. injection H as <- <-. auto.
Qed.
Lemma star_spec ctx points vs : NoDup points -> to_star_contour_vertices ctx points = Ok vs ->
  incl vs points /\ NoDup vs.
Proof.
  intros Hd. unfold to_star_contour_vertices.
  apply (while_ok (fun st : point * list point * Z => let '(c, r, prev) := st in incl r points /\ NoDup r)
    (fun vs => incl vs points /\ NoDup vs)).
  - intros ((c, r), prev) (H1 & H2).
    destruct (_ && _)%bool; [|split; assumption].
    destruct (star_step ctx c r) as [(c', r')|e] eqn:E; cbn [rbind]; [|exact I].
    apply (star_step_spec ctx c r c' r' H2) in E. destruct E as (E1 & E2).
    split; [eapply incl_tran; eassumption|exact E2].
  - split; [apply incl_refl|exact Hd].
Qed.
Lemma star_strategy_spec ctx xs ys mn mx vs :
  generates (to_star_vertex_sequence_strategy ctx xs ys mn mx) vs ->
  size_ok (lenZ vs) mn mx /\ NoDup vs /\ (forall p, In p vs -> drawable_point xs ys p).
Proof.
  intros H. unfold to_star_vertex_sequence_strategy in H.
  apply gen_pfilter in H. destruct H as (H & Hs). apply size_valid in Hs.
  apply gen_bind in H. destruct H as (points & Hp & H). apply gen_lift in H. apply grid_sound in Hp.
  apply star_spec in H; [|apply (grid_nodup _ _ _ _ _ Hp)]. destruct H as (Hi & Hd).
  split; [exact Hs|]. split; [exact Hd|]. intros p Hpi; apply (grid_drawable _ _ _ _ _ Hp), Hi, Hpi.
Qed.

(** ** Carved contours, concave contours *)
Lemma carved_strategy_spec ctx xs ys mn mx vs :
  generates (to_carved_vertex_sequence_strategy ctx xs ys mn mx) vs ->
  size_ok (lenZ vs) mn mx /\ (forall p, In p vs -> drawable_point xs ys p).
Proof.
  intros H. unfold to_carved_vertex_sequence_strategy in H. apply gen_pfilter in H. destruct H as (H & Hv).
  apply size_valid in Hv. split; [exact Hv|].
  apply gen_bind in H. destruct H as (points & Hp & H). apply gen_bind in H. destruct H as (size & _ & H).
  apply gen_lift in H. apply grid_sound in Hp.
  intros p Hin. apply Hp. eapply to_vertex_sequence_in; eassumption.
Qed.
Lemma vertex_sequences_spec ctx xs ys mn mx vs :
  generates (to_vertex_sequences_ ctx xs ys mn mx) vs ->
  size_ok (lenZ vs) mn mx /\ (forall p, In p vs -> drawable_point xs ys p).
Proof.
  intros H. apply gen_alt in H. destruct H as [H|H]; [|apply carved_strategy_spec with ctx; assumption].
  apply star_strategy_spec in H. destruct H as (H1 & _ & H3). auto.
Qed.
Lemma vertex_sequence_spec ctx xs ys mn mx vs : (forall l, incl (ctx_hull ctx l) l) -> (3 <= mn)%Z ->
  (forall m, mx = Some m -> (mn <= m)%Z) ->
  generates (to_vertex_sequence_strategy ctx xs ys mn mx) vs ->
  size_ok (lenZ vs) mn mx
  /\ (forall p, In p vs -> in_drawable_range xs (px p) /\ in_drawable_range (ordinates xs ys) (py p)).
Proof.
  intros Hh Hm Hx H. apply gen_alt in H. destruct H as [H|H].
  - apply convex_strategy_spec in H; assumption.
  - apply vertex_sequences_spec in H. destruct H as (H1 & H2).
    split; [exact H1|]. intros p Hp. destruct (H2 p Hp). split; apply drawable_in_range; assumption.
Qed.
Lemma concave_strategy_spec ctx xs ys mn mx vs :
  generates (to_concave_vertex_sequence_strategy ctx xs ys mn mx) vs ->
  size_ok (lenZ vs) mn mx /\ (forall p, In p vs -> drawable_point xs ys p).
Proof.
  intros H. unfold to_concave_vertex_sequence_strategy in H. apply gen_pfilter_res in H. destruct H as (H & _).
  apply vertex_sequences_spec in H. exact H.
Qed.

(** ** Sequences of segments *)
Lemma segment_sequence_spec ctx xs ys mn mx l : (forall l, incl (ctx_hull ctx l) l) -> (0 <= mn)%Z ->
  (forall m, mx = Some m -> (mn <= m)%Z) ->
  generates (to_segment_sequence_strategy ctx xs ys mn mx) l ->
  size_ok (lenZ l) mn mx
  /\ (forall s, In s l ->
        in_drawable_range xs (px (seg_start s)) /\ in_drawable_range xs (px (seg_end s))
        /\ in_drawable_range (ordinates xs ys) (py (seg_start s)) /\ in_drawable_range (ordinates xs ys) (py (seg_end s))).
Proof.
  intros Hh Hm Hx H. unfold to_segment_sequence_strategy in H. change (or_else ys xs) with (ordinates xs ys) in H.
  set (zs := ordinates xs ys) in *. clearbody zs.
  assert (G1 : forall s, generates (to_segment_strategy xs (Some zs)) s -> 
        in_drawable_range xs (px (seg_start s)) /\ in_drawable_range xs (px (seg_end s))
        /\ in_drawable_range zs (py (seg_start s)) /\ in_drawable_range zs (py (seg_end s))).
  { intros s Hs. apply gen_segment in Hs. destruct Hs as (N & (D1 & D2) & (D3 & D4)).
    repeat split; apply drawable_in_range; assumption. }
  destruct (match mx with None => false | Some m => m <? 2 end)%Z eqn:E2.
  { destruct mx as [m|]; [|discriminate]. apply Z.ltb_lt in E2. pose proof (Hx m eq_refl) as Hx'.
    assert (Hc : m = 0%Z \/ m = 1%Z) by lia. destruct Hc as [-> | ->].
    - apply gen_ret in H. subst l. split; [split; [cbn; lia|intros m E; injection E as <-; cbn; lia]|].
      intros s [].
    - apply gen_pmap in H. destruct H as (s & Hs & ->).
      split; [split; [cbn; lia|intros m E; injection E as <-; cbn; lia]|].
      intros t [<-|[]]; apply G1, Hs. }
  assert (G2 : forall l', generates (unique_scalars xs (mn + 1) (match mx with None => None | Some m => Some (m + 1)%Z end)) l' \/
                          generates (unique_scalars zs (mn + 1) (match mx with None => None | Some m => Some (m + 1)%Z end)) l' ->
     NoDup l' /\ size_ok (Z.of_nat (length l' - 1)) mn mx).
  { assert (G3 : forall s l', generates (unique_scalars s (mn + 1) (match mx with None => None | Some m => Some (m + 1)%Z end)) l' ->
      NoDup l' /\ size_ok (Z.of_nat (length l' - 1)) mn mx).
    { intros s l' G. apply gen_unique_scalars in G. destruct G as (D & _ & (S1 & S2) & _). split; [exact D|]. unfold lenZ in *.
      split; [lia|]. intros m ->. specialize (S2 _ eq_refl). lia. }
    intros l' [G|G]; eapply G3, G. }
  apply gen_alt in H. destruct H as [H|H].
  2: { apply gen_pfilter in H. destruct H as (H & Hf). apply gen_lists in H. destruct H as (_ & H1 & H2).
       split; [exact H1|]. intros s Hs; apply G1, H2, Hs. }
  assert (Base : generates (alt (let! x := draw_scalar xs in
           let! l := unique_scalars zs (mn + 1) (match mx with None => None | Some m => Some (m + 1)%Z end) in
           Ret (to_vertical_multisegment x l))
          (let! l := unique_scalars xs (mn + 1) (match mx with None => None | Some m => Some (m + 1)%Z end) in
           let! y := draw_scalar zs in
           Ret (to_horizontal_multisegment l y))) l ->
    size_ok (lenZ l) mn mx
    /\ (forall s, In s l -> 
        in_drawable_range xs (px (seg_start s)) /\ in_drawable_range xs (px (seg_end s))
        /\ in_drawable_range zs (py (seg_start s)) /\ in_drawable_range zs (py (seg_end s)))).
  { clear H. intros H. apply gen_alt in H. destruct H as [H|H].
    - apply gen_bind in H. destruct H as (x & Hdx & H). apply gen_bind in H. destruct H as (l' & Hl & H). apply gen_ret in H. subst l.
      destruct (G2 l' (or_intror Hl)) as (D & S). apply gen_unique_scalars in Hl. destruct Hl as (_ & _ & _ & Dr).
      split.
      + unfold lenZ, to_vertical_multisegment. rewrite map_length, pairwise_length, isort_length. exact S.
      + intros s Hs. unfold to_vertical_multisegment in Hs. apply in_map_iff in Hs. destruct Hs as ((a & b) & <- & Hin).
        destruct (pairwise_strict _ _ _ (isort_strict _ D) Hin) as (L & Ia & Ib). apply isort_in in Ia, Ib. cbn.
        repeat split; apply drawable_in_range; first [exact Hdx|apply Dr; assumption].
    - apply gen_bind in H. destruct H as (l' & Hl & H). apply gen_bind in H. destruct H as (y & Hdy & H). apply gen_ret in H. subst l.
      destruct (G2 l' (or_introl Hl)) as (D & S). apply gen_unique_scalars in Hl. destruct Hl as (_ & _ & _ & Dr).
      split.
      + unfold lenZ, to_horizontal_multisegment. rewrite map_length, pairwise_length, isort_length. exact S.
      + intros s Hs. unfold to_horizontal_multisegment in Hs. apply in_map_iff in Hs. destruct Hs as ((a & b) & <- & Hin).
        destruct (pairwise_strict _ _ _ (isort_strict _ D) Hin) as (L & Ia & Ib). apply isort_in in Ia, Ib. cbn.
        repeat split; apply drawable_in_range; first [exact Hdy|apply Dr; assumption]. }
  change MIN_CONTOUR_SIZE with 3%Z in H.
  destruct (match mx with None => true | Some m => 3 <=? m end)%Z eqn:E3.
  2: { exact (Base H). }
  apply gen_alt in H. destruct H as [H|H]; [exact (Base H)|].
  clear Base G1 G2. apply gen_bind in H. destruct H as (vs & Hv & H).
  change (contour_vertices_to_edges vs) with (contour_segments vs) in H.
  apply gen_sub_sequence in H; [|exact Hm]. destruct H as ((S1 & S2) & rest & P). specialize (S2 _ eq_refl).
  assert (Hx3 : forall m, mx = Some m -> (Z.max mn 3 <= m)%Z).
  { intros m ->. specialize (Hx m eq_refl). apply Z.leb_le in E3. lia. }
  destruct (vertex_sequence_spec ctx xs (Some zs) (Z.max mn 3) mx vs Hh ltac:(lia) Hx3 Hv) as ((V1 & V2) & V3).
  assert (El : lenZ (contour_segments vs) = lenZ vs) by (unfold lenZ; rewrite segments_length; reflexivity).
  split; [split; [exact S1|]|].
  - intros m Em. specialize (V2 m Em). lia.
  - intros s Hs. assert (Hin : In s (contour_segments vs)) by (apply (Permutation_in _ (Permutation_sym P)), in_or_app; left; exact Hs).
    destruct s as [a b]. apply segments_edge in Hin. cbn [seg_start seg_end].
    destruct (edge_in _ _ _ Hin) as (Ia & Ib). destruct (V3 a Ia), (V3 b Ib). auto.
Qed.
End Rough.
