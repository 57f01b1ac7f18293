(** Convex contours. *)
From Verif Require Import Base Geometry Ctx Utils Contracts Factories Prog Strategies Spec QcTac ProgProofs
  GeomProofs CyclicProofs ListProofs SegmentProofs SimpleProofs GridProofs.
From Coq Require Import Lqa.

(** ** Consequences of [convex_ccw]. *)
Lemma edge_in (vs : contour) a b : contour_edge vs a b -> In a vs /\ In b vs.
Proof. intros (i & Ha & Hb). split; [apply (nth_error_In _ _ Ha)|apply (nth_error_In _ _ Hb)]. Qed.
Lemma edge_neq (vs : contour) a b : NoDup vs -> 2 <= length vs -> contour_edge vs a b -> a <> b.
Proof.
  intros Hd Hl (i & Ha & Hb) E. subst b. rewrite <- Ha in Hb.
  assert (Hi : i < length vs) by (apply nth_error_Some; congruence).
  rewrite NoDup_nth_error in Hd. symmetry in Hb. apply Hd in Hb; [|exact Hi].
  destruct (Nat.eq_dec (S i) (length vs)) as [E|E].
  - rewrite E, Nat.mod_same in Hb by lia. lia.
  - rewrite Nat.mod_small in Hb by lia. lia.
Qed.
Lemma third_vertex (vs : contour) a b : NoDup vs -> 3 <= length vs -> exists c, In c vs /\ c <> a /\ c <> b.
Proof.
  intros Hd Hl.
  destruct vs as [|x [|y [|z l]]]; cbn [length] in Hl; try lia.
  inversion Hd as [|? ? Hx Hd1]; subst. inversion Hd1 as [|? ? Hy Hd2]; subst.
  assert (x <> y) by (intros ->; apply Hx; left; reflexivity).
  assert (x <> z) by (intros ->; apply Hx; right; left; reflexivity).
  assert (y <> z) by (intros ->; apply Hy; left; reflexivity).
  destruct (point_eq_dec x a), (point_eq_dec x b), (point_eq_dec y a), (point_eq_dec y b), (point_eq_dec z a), (point_eq_dec z b);
  subst; try congruence;
  first [exists x; split; [left; reflexivity|split; congruence]
        |exists y; split; [right; left; reflexivity|split; congruence]
        |exists z; split; [right; right; left; reflexivity|split; congruence]].
Qed.
Lemma convex_edges_weak vs a b c : convex_ccw vs -> contour_edge vs a b -> In c vs ->
  (0 <= cross a b c)%Qc.
Proof.
  intros (Hl & Hd & H) He Hc. destruct (point_eq_dec c a) as [-> |Ha].
  { replace (cross a b a) with (Q2Qc 0) by (unfold cross; ring). apply Qcle_refl. }
  destruct (point_eq_dec c b) as [-> |Hb].
  { replace (cross a b b) with (Q2Qc 0) by (unfold cross; ring). apply Qcle_refl. }
  apply Qclt_le_weak. apply (H a b He c Hc Ha Hb).
Qed.
Lemma convex_simple vs : convex_ccw vs -> simple vs.
Proof.
  intros Hc. pose proof Hc as (Hl & Hd & H). split; [exact Hd|].
  intros a b c d Hab Hcd Hne (p & Hp1 & Hp2). cbn [seg_start seg_end] in *.
  pose proof (inside_cross _ _ _ Hp1) as E.
  destruct (inside_param _ _ _ Hp2) as (t & Ht0 & Ht1 & Hx & Hy).
  rewrite (cross_affine a b c d t p Hx Hy) in E.
  destruct (edge_in _ _ _ Hcd) as (Hc' & Hd').
  pose proof (convex_edges_weak vs a b c Hc Hab Hc') as W1.
  pose proof (convex_edges_weak vs a b d Hc Hab Hd') as W2.
  destruct (opposite_signs _ _ _ Ht0 Ht1 E) as [(Z1 & Z2)|[(Z1 & _)|(_ & Z2)]]; [|exfalso; qcl|exfalso; qcl].
  assert (Hz : forall q, In q vs -> cross a b q = Q2Qc 0 -> q = a \/ q = b).
  { intros q Hq Eq. destruct (point_eq_dec q a) as [Ea|Ea]; [auto|]. destruct (point_eq_dec q b) as [Eb|Eb]; [auto|].
    exfalso. specialize (H a b Hab q Hq Ea Eb). unfold left_turn in H. rewrite Eq in H. revert H. apply Qlt_irrefl. }
  pose proof (edge_neq vs c d Hd ltac:(lia) Hcd) as Hncd.
  destruct (Hz c Hc' Z1) as [-> | ->], (Hz d Hd' Z2) as [-> | ->]; try congruence.
  destruct (third_vertex vs a b Hd Hl) as (w & Hw & Hwa & Hwb).
  pose proof (H a b Hab w Hw Hwa Hwb) as L1. pose proof (H b a Hcd w Hw Hwb Hwa) as L2.
  unfold left_turn, cross in *. clear - L1 L2. qcl.
Qed.
Lemma convex_turns vs : convex_ccw vs -> forall a b c, contour_turn vs a b c -> left_turn a b c.
Proof.
  intros (Hl & Hd & H) a b c (i & Ha & Hb & Hc).
  assert (Hi : i < length vs) by (apply nth_error_Some; congruence).
  apply (H a b).
  - exists i. auto.
  - apply (nth_error_In _ _ Hc).
  - intros ->. rewrite NoDup_nth_error in Hd. rewrite <- Ha in Hc. symmetry in Hc. apply Hd in Hc; [|exact Hi].
    destruct (Nat.eq_dec (S (S i)) (length vs)) as [E|E]; [rewrite E, Nat.mod_same in Hc by lia; lia|].
    destruct (Nat.eq_dec (S i) (length vs)) as [E'|E'].
    + replace (S (S i)) with (1 + 1 * length vs) in Hc by lia. rewrite Nat.mod_add, Nat.mod_small in Hc by lia. lia.
    + rewrite Nat.mod_small in Hc by lia. lia.
  - intros ->. apply (edge_neq vs b b Hd ltac:(lia)); [|reflexivity].
    exists (S i mod length vs). split; [exact Hb|]. rewrite <- Hc. f_equal.
    rewrite <- (Nat.add_1_r (S i)), <- (Nat.add_mod_idemp_l (S i) 1) by lia. rewrite Nat.add_1_r. reflexivity.
Qed.
Lemma convex_strict vs : convex_ccw vs -> strict vs.
Proof.
  intros H a b c Ht E. apply (convex_turns vs H) in Ht. unfold left_turn in Ht. rewrite E in Ht.
  revert Ht. apply Qlt_irrefl.
Qed.

Lemma triangle_convex a b c : left_turn a b c -> convex_ccw [a; b; c].
Proof.
  intros H.
  assert (Hne : a <> b /\ a <> c /\ b <> c).
  { assert (Hz : cross a b c <> Q2Qc 0) by (intros E; unfold left_turn in H; rewrite E in H; revert H; apply Qlt_irrefl).
    repeat split; intros ->; apply Hz; unfold cross; ring. }
  destruct Hne as (Hab & Hac & Hbc). split; [cbn; lia|]. split.
  - repeat constructor; cbn; intuition congruence.
  - intros x y Hxy z Hz Hzx Hzy. apply edges_cases3 in Hxy. unfold left_turn in *.
    destruct Hz as [<-|[<-|[<-|[]]]]; destruct Hxy as [(-> & ->)|[(-> & ->)|(-> & ->)]]; try congruence.
    + rewrite cross_rot. exact H.
    + rewrite <- cross_rot. exact H.
Qed.

(** ** The strategy. *)
Lemma split_ends_in l a m b : split_ends l = Some (a, m, b) -> In a l /\ In b l.
Proof.
  destruct l as [|x [|y l]]; cbn [split_ends]; try discriminate. intros H. injection H as <- <- <-.
  split; [left; reflexivity|]. right.
  assert (Hlast : forall (u : list Qc) d, u <> [] -> In (last u d) u).
  { induction u as [|z u IH]; intros d Hne; [contradiction|]. destruct u as [|z' u]; [left; reflexivity|].
    right. apply (IH d). discriminate. }
  apply (Hlast (y :: l) y). discriminate.
Qed.
Lemma clamp_range (x lo hi : Qc) : exists lo' hi', (lo' = lo \/ lo' = hi) /\ (hi' = lo \/ hi' = hi)
  /\ (lo' <= qmin (qmax x lo) hi)%Qc /\ (qmin (qmax x lo) hi <= hi')%Qc.
Proof.
  destruct (qmin_cases (qmax x lo) hi) as [E|E].
  - exists lo, hi. rewrite E. split; [auto|]. split; [auto|]. split; [apply qmax_ge_r|].
    rewrite <- E. apply qmin_le_r.
  - exists hi, hi. rewrite E. repeat split; auto; apply Qcle_refl.
Qed.
Lemma convex_sequence_spec ctx points bx by_ sh vs :
  to_convex_vertex_sequence ctx points bx by_ sh = Ok vs ->
  exists l, vs = ctx_hull ctx l /\ forall p, In p l ->
    (exists q1 q2, In q1 points /\ In q2 points /\ (px q1 <= px p)%Qc /\ (px p <= px q2)%Qc)
    /\ (exists q1 q2, In q1 points /\ In q2 points /\ (py q1 <= py p)%Qc /\ (py p <= py q2)%Qc).
Proof.
  unfold to_convex_vertex_sequence.
  destruct (split_ends (isort qleb (map px points))) as [((x0, xm), x1)|] eqn:Ex; [|discriminate].
  destruct (split_ends (isort qleb (map py points))) as [((y0, ym), y1)|] eqn:Ey; [|discriminate].
  destruct (mapM _ _) as [keyed|e]; cbn [rbind]; [|discriminate].
  destruct (walk _ 0 0 0 0) as (pairs & mx & my). intros H. injection H as <-.
  eexists. split; [reflexivity|]. intros p Hp. apply in_map_iff in Hp. destruct Hp as ((u & v) & <- & _). cbn [px py fst snd].
  apply split_ends_in in Ex, Ey. rewrite !isort_in, !in_map_iff in Ex, Ey.
  destruct Ex as ((q0 & <- & Hq0) & (q1 & <- & Hq1)). destruct Ey as ((r0 & <- & Hr0) & (r1 & <- & Hr1)).
  split.
  - destruct (clamp_range (u + (px q0 - mx)) (px q0) (px q1)) as (lo & hi & Hlo & Hhi & H1 & H2).
    exists (if Qc_eq_dec lo (px q0) then q0 else q1), (if Qc_eq_dec hi (px q0) then q0 else q1).
    destruct (Qc_eq_dec lo (px q0)) as [-> |]; destruct (Qc_eq_dec hi (px q0)) as [-> |];
    repeat split; try assumption; try (destruct Hlo; [contradiction|subst lo; assumption]);
    try (destruct Hhi; [contradiction|subst hi; assumption]).
  - destruct (clamp_range (v + (py r0 - my)) (py r0) (py r1)) as (lo & hi & Hlo & Hhi & H1 & H2).
    exists (if Qc_eq_dec lo (py r0) then r0 else r1), (if Qc_eq_dec hi (py r0) then r0 else r1).
    destruct (Qc_eq_dec lo (py r0)) as [-> |]; destruct (Qc_eq_dec hi (py r0)) as [-> |];
    repeat split; try assumption; try (destruct Hlo; [contradiction|subst lo; assumption]);
    try (destruct Hhi; [contradiction|subst hi; assumption]).
Qed.
Lemma size_valid {A} (l : list A) mn mx : has_valid_size l mn mx = true <-> size_ok (lenZ l) mn mx.
Proof.
  unfold has_valid_size, size_ok. rewrite andb_true_iff, Z.leb_le. split; intros (H1 & H2); (split; [exact H1|]).
  - intros m ->. apply Z.leb_le. exact H2.
  - destruct mx as [m|]; [|reflexivity]. apply Z.leb_le. apply H2. reflexivity.
Qed.
Lemma drawable_in_range s q : drawable s q -> in_drawable_range s q.
Proof. intros H. exists q, q. repeat split; auto; apply Qcle_refl. Qed.

Lemma convex_strategy_spec ctx xs ys mn mx vs : (forall l, is_hull l (ctx_hull ctx l)) -> (3 <= mn)%Z ->
  (forall m, mx = Some m -> (mn <= m)%Z) ->
  generates (to_convex_vertex_sequence_strategy ctx xs ys mn mx) vs ->
  convex_ccw vs /\ size_ok (lenZ vs) mn mx
  /\ forall p, In p vs -> in_drawable_range xs (px p) /\ in_drawable_range (ordinates xs ys) (py p).
Proof.
  intros Hhull Hmn Hmx H.
  assert (Htri : generates (to_triangular_vertex_sequence_strategy xs ys) vs ->
    convex_ccw vs /\ lenZ vs = 3%Z
    /\ forall p, In p vs -> in_drawable_range xs (px p) /\ in_drawable_range (ordinates xs ys) (py p)).
  { intros Ht. apply gen_triangle in Ht. destruct Ht as (a & b & c & -> & Hab & Da & Db & Dc).
    split; [apply triangle_convex; exact Hab|]. split; [reflexivity|].
    intros p Hp. assert (Dp : drawable_point xs ys p) by (destruct Hp as [<-|[<-|[<-|[]]]]; assumption).
    destruct Dp; split; apply drawable_in_range; assumption. }
  unfold to_convex_vertex_sequence_strategy in H.
  destruct (match mx with None => false | Some m => (m <? CONCAVE)%Z end) eqn:Emx.
  { destruct mx as [m|]; [|discriminate]. apply Z.ltb_lt in Emx. unfold CONCAVE in Emx. specialize (Hmx m eq_refl).
    destruct (Htri H) as (H1 & H2 & H3). split; [exact H1|]. split; [|exact H3]. rewrite H2. split; [lia|].
    intros m' Em. injection Em as <-. lia. }
  assert (H4 : forall m, mx = Some m -> (4 <= m)%Z).
  { intros m ->. apply Z.ltb_ge in Emx. exact Emx. }
  match type of H with context [pfilter ?f ?p] => set (res := pfilter f p) in H end.
  assert (Hres : generates res vs -> convex_ccw vs /\ size_ok (lenZ vs) mn mx
    /\ forall p, In p vs -> in_drawable_range xs (px p) /\ in_drawable_range (ordinates xs ys) (py p)).
  { clear H. intros H. apply gen_pfilter in H. destruct H as (H & Hs). apply size_valid in Hs.
    apply gen_bind in H. destruct H as (points & Hp & H). apply gen_bind in H. destruct H as (bx & _ & H).
    apply gen_bind in H. destruct H as (by_ & _ & H). apply gen_bind in H. destruct H as (perm & _ & H).
    apply gen_lift in H. apply convex_sequence_spec in H. destruct H as (l & -> & Hl).
    destruct (Hhull l) as (Hd & Hi & He & Hc). split; [|split; [exact Hs|]].
    - apply Hc. destruct Hs as (Hs & _). unfold lenZ in Hs. lia.
    - intros p Hpin. apply Hi in Hpin. destruct (Hl p Hpin) as ((q1 & q2 & A1 & A2 & A3 & A4) & (r1 & r2 & B1 & B2 & B3 & B4)).
      apply grid_sound in Hp. split.
      + exists (px q1), (px q2). repeat split; auto; apply (grid_drawable _ _ _ _ _ Hp); assumption.
      + exists (py r1), (py r2). repeat split; auto; apply (grid_drawable _ _ _ _ _ Hp); assumption. }
  assert (Hrec : generates (to_rectangular_vertex_sequence_strategy xs ys) vs -> (mn <= 4)%Z ->
    convex_ccw vs /\ size_ok (lenZ vs) mn mx
    /\ forall p, In p vs -> in_drawable_range xs (px p) /\ in_drawable_range (ordinates xs ys) (py p)).
  { intros Hr Hle. apply gen_rectangle in Hr. destruct Hr as (x1 & x2 & y1 & y2 & -> & Hx & Hy & D1 & D2 & D3 & D4).
    split; [apply rectangle_convex; assumption|]. split; [split; [cbn; lia|intros m Em; apply H4 in Em; cbn; lia]|].
    intros p Hp. destruct Hp as [<-|[<-|[<-|[<-|[]]]]]; cbn [px py]; split; apply drawable_in_range; assumption. }
  destruct (mn =? 3)%Z eqn:E3.
  - apply gen_alt in H. destruct H as [H|H].
    + destruct (Htri H) as (H1 & H2 & H3). split; [exact H1|]. split; [|exact H3]. rewrite H2. apply Z.eqb_eq in E3.
      split; [lia|]. intros m Em. apply H4 in Em. lia.
    + destruct (mn <=? 4)%Z eqn:E4; [|apply Hres, H]. apply Z.leb_le in E4.
      apply gen_alt in H. destruct H as [H|H]; [apply Hrec; assumption|apply Hres, H].
  - destruct (mn <=? 4)%Z eqn:E4; [|apply Hres, H]. apply Z.leb_le in E4.
    apply gen_alt in H. destruct H as [H|H]; [apply Hrec; assumption|apply Hres, H].
Qed.
