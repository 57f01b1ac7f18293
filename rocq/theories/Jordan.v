(** Closed curves that do not meet themselves, and dropping straight angles from them. *)
From Coq Require Import List Lia Permutation.
From Verif Require Import Base Geometry Spec WindSpec QcTac QcFast GeomProofs ListProofs CycEdge SegmentProofs EdgeProofs Factories CyclicProofs CompressProofs
  DelGeo DelCyc DelMap DelCand DelWind.
Import ListNotations.
Open Scope nat_scope.

Lemma on_left a b : on_segment a a b.
Proof. exists (Q2Qc 0). split; [ql|]. split; [ql|]. split; ring. Qed.
Lemma on_right a b : on_segment b a b.
Proof. exists 1%Qc. split; [ql|]. split; [ql|]. split; ring. Qed.
Lemma btw_on p a b : btw p a b -> on_segment p a b.
Proof. intros H. destruct (btw_param _ _ _ H) as (t & t0 & t1 & X & Y). exists t. split; [ql|]. split; [ql|]. split; assumption. Qed.
Lemma on_cut p a b c : btw b a c -> (on_segment p a c <-> on_segment p a b \/ on_segment p b c).
Proof.
  intros H. destruct (btw_param _ _ _ H) as (s & s0 & s1 & X & Y). split.
  - intros (t & t0 & t1 & X' & Y'). destruct (Qclt_le_dec s t) as [h|h].
    + right. exists ((t - s) / (1 - s))%Qc.
      assert (E : ((t - s) / (1 - s) * (1 - s) = t - s)%Qc) by (unfold Qcdiv; rewrite <- Qcmult_assoc, (Qcmult_comm (/ _)), Qcmult_inv_r; [ring|intros e; ql]).
      set (u := ((t - s) / (1 - s))%Qc) in *. clearbody u.
      assert (u0 : (0 <= u)%Qc).
      { apply Qcnot_lt_le. intros k. pose proof (mul_neg (1 - s) u ltac:(ql) k) as M. rewrite Qcmult_comm in M. ql. }
      assert (u1 : (u <= 1)%Qc).
      { apply Qcnot_lt_le. intros k. pose proof (mul_pos (1 - s) (u - 1) ltac:(ql) ltac:(ql)) as M.
        assert (e : ((1 - s) * (u - 1) = u * (1 - s) - (1 - s))%Qc) by ring. ql. }
      split; [exact u0|]. split; [exact u1|].
      assert (Et : (t = s + u * (1 - s))%Qc) by ql. rewrite X', Y', X, Y, Et. split; ring.
    + left. exists (t / s)%Qc.
      assert (E : (t / s * s = t)%Qc) by (unfold Qcdiv; rewrite <- Qcmult_assoc, (Qcmult_comm (/ _)), Qcmult_inv_r; [ring|intros e; ql]).
      set (u := (t / s)%Qc) in *. clearbody u.
      assert (u0 : (0 <= u)%Qc).
      { apply Qcnot_lt_le. intros k. pose proof (mul_neg s u s0 k) as M. rewrite Qcmult_comm in M. ql. }
      assert (u1 : (u <= 1)%Qc).
      { apply Qcnot_lt_le. intros k. pose proof (mul_pos s (u - 1) ltac:(ql) ltac:(ql)) as M.
        assert (e : (s * (u - 1) = u * s - s)%Qc) by ring. ql. }
      split; [exact u0|]. split; [exact u1|]. rewrite X', Y', X, Y, <- E. split; ring.
  - intros [(t & t0 & t1 & X' & Y')|(t & t0 & t1 & X' & Y')].
    + exists (t * s)%Qc. split; [apply mul_nonneg; ql|]. split; [|rewrite X', Y', X, Y; split; ring].
      pose proof (mul_nonneg (1 - t) s ltac:(ql) ltac:(ql)) as M. assert (e : ((1 - t) * s = s - t * s)%Qc) by ring. ql.
    + exists (s + t * (1 - s))%Qc. pose proof (mul_nonneg t (1 - s) ltac:(ql) ltac:(ql)). split; [ql|].
      pose proof (mul_nonneg (1 - t) (1 - s) ltac:(ql) ltac:(ql)) as M. assert (e : ((1 - t) * (1 - s) = 1 - s - t * (1 - s))%Qc) by ring.
      split; [ql|]. rewrite X', Y', X, Y. split; ring.
Qed.

Definition jces (es : list (point * point)) : Prop :=
  forall a b c d p, In (a, b) es -> In (c, d) es -> (a, b) <> (c, d) ->
    on_segment p a b -> on_segment p c d -> (p = b /\ p = c) \/ (p = a /\ p = d).
Lemma jordan_ces vs : jordan vs <-> NoDup vs /\ jces (ces vs).
Proof.
  unfold jordan, jces. split; intros (N & H); (split; [exact N|]); intros a b c d p H1 H2; (apply H; apply ces_edge; assumption).
Qed.
Lemma jces_perm es es' : Permutation es es' -> jces es -> jces es'.
Proof. intros P H a b c d p H1 H2. apply H; apply (Permutation_in _ (Permutation_sym P)); assumption. Qed.
Definition trace (es : list (point * point)) (p : point) : Prop := exists a b, In (a, b) es /\ on_segment p a b.
Lemma trace_contour vs p : on_contour p vs <-> trace (ces vs) p.
Proof. split; intros (a & b & H & O); exists a, b; (split; [apply ces_edge, H|exact O]). Qed.
Lemma trace_perm es es' p : Permutation es es' -> trace es p -> trace es' p.
Proof. intros P (a & b & H & O). exists a, b. split; [apply (Permutation_in _ P), H|exact O]. Qed.

(** A straight angle of such a curve does not fold back. *)
Lemma straight a b c l : NoDup (a :: b :: c :: l) -> jces (ces (a :: b :: c :: l)) -> collinear a b c -> btw b a c.
Proof.
  intros N J C. rewrite ces_cons3 in J.
  assert (Nab : a <> b /\ a <> c /\ b <> c).
  { apply NoDup_cons_iff in N. destruct N as (N1 & N). apply NoDup_cons_iff in N. destruct N as (N2 & _). cbn [In] in N1, N2.
    repeat split; intros ->; tauto. }
  destruct Nab as (n1 & n2 & n3).
  assert (K : forall p, on_segment p a b -> on_segment p b c -> p = b).
  { intros p O1 O2. destruct (J a b b c p) as [(e & _)|(e & e')]; auto; [left; reflexivity|right; left; reflexivity|congruence|congruence]. }
  unfold collinear in C.
  destruct (ad_cases b a c n1 ltac:(congruence)) as [X|[X|[X|X]]].
  - destruct X as (_ & _ & X). rewrite cross_flip, C in X. exfalso. ql.
  - destruct X as (_ & _ & X). split; [rewrite cross_swap, C; ring|exact X].
  - destruct X as (_ & _ & X). rewrite cross_flip, C in X. exfalso. ql.
  - destruct X as (X & _). exfalso. destruct (same_btw b a c n1 ltac:(congruence) X) as [e|[B|B]]; [congruence| |].
    + apply n1. apply K; [apply on_left|apply btw_on, B].
    + apply n3. symmetry. apply K; [apply btw_on, btw_sym, B|apply on_right].
Qed.
Lemma jces_cut a b c l : NoDup (a :: b :: c :: l) -> btw b a c -> jces (ces (a :: b :: c :: l)) -> jces (ces (a :: c :: l)).
Proof.
  intros N B J. rewrite ces_cons3 in J. rewrite ces_cons2.
  set (r := combine (c :: l) (l ++ [a])) in *.
  destruct (btw_neq _ _ _ B) as (n1 & n2 & n3).
  assert (Nr : forall x y, In (x, y) r -> x <> b /\ y <> b).
  { intros x y H. pose proof (in_combine_l _ _ _ _ H) as H1. pose proof (in_combine_r _ _ _ _ H) as H2.
    apply NoDup_cons_iff in N. destruct N as (N1 & N). apply NoDup_cons_iff in N. destruct N as (N2 & _). cbn [In] in *.
    apply in_app_or in H2. cbn [In] in H2. split; intros ->; [tauto|]. destruct H2 as [H2|[H2|[]]]; [tauto|congruence]. }
  assert (K : forall x y p, In (x, y) r -> on_segment p a c -> on_segment p x y -> (p = a /\ p = y) \/ (p = c /\ p = x)).
  { intros x y p H O1 O2. destruct (Nr _ _ H) as (Nx & Ny). apply (on_cut p a b c B) in O1. destruct O1 as [O1|O1].
    - destruct (J a b x y p) as [(e & e')|e]; auto; [left; reflexivity|right; right; exact H|congruence|congruence].
    - destruct (J b c x y p) as [e|(e & e')]; auto; [right; left; reflexivity|right; right; exact H|congruence|congruence]. }
  intros x y z w p H1 H2 D O1 O2. cbn [In] in H1, H2.
  destruct H1 as [e1|H1]; destruct H2 as [e2|H2].
  - congruence.
  - injection e1 as <- <-. destruct (K _ _ _ H2 O1 O2) as [?|?]; tauto.
  - injection e2 as <- <-. destruct (K _ _ _ H1 O2 O1) as [?|?]; tauto.
  - apply (J x y z w p); auto; right; right; assumption.
Qed.
Lemma drop1_jordan l m : drop1 l m -> 3 <= length l -> jordan l ->
  jordan m /\ 3 <= length m /\ (forall p, on_contour p m <-> on_contour p l) /\ (forall q, winding q m = winding q l).
Proof.
  intros [l1 b l2 Len (a & c & w & E1 & E2 & C)] L3 J. apply jordan_ces in J. destruct J as (N & J).
  assert (Hw : w <> []).
  { intros ->. assert (e : length (l2 ++ l1) = 1) by (rewrite E1; reflexivity). rewrite !app_length in *. cbn [length] in *. lia. }
  destruct (ces_drop l1 b l2 a c w E1 E2 Hw) as (r & P1 & P2 & P3 & P4).
  assert (N' : NoDup (a :: b :: c :: r)) by (apply (Permutation_NoDup P3), N).
  assert (J' : jces (ces (a :: b :: c :: r))) by (apply (jces_perm _ _ P1), J).
  pose proof (straight a b c r N' J' C) as B.
  assert (r0 : r <> []).
  { intros ->. rewrite ces_cons3 in J'. cbn [combine app] in J'. destruct (btw_neq _ _ _ B) as (n1 & n2 & n3).
    destruct (J' c a a b b) as [(e & _)|(e & _)]; try congruence.
    - right. right. left. reflexivity.
    - left. reflexivity.
    - apply btw_on, btw_sym, B.
    - apply on_right. }
  pose proof (jces_cut a b c r N' B J') as J2.
  assert (Nm : NoDup (l1 ++ l2)) by (apply NoDup_remove_1 in N; exact N).
  split; [|split; [|split]].
  - apply jordan_ces. split; [exact Nm|]. apply (jces_perm _ _ (Permutation_sym P2)), J2.
  - rewrite (Permutation_length P4). destruct r; [congruence|]. cbn [length]. lia.
  - intros p. rewrite !trace_contour. split; intros T.
    + apply (trace_perm _ _ _ (Permutation_sym P1)). apply (trace_perm _ _ _ P2) in T. rewrite ces_cons3. rewrite ces_cons2 in T.
      destruct T as (x & y & H & O). destruct H as [e|H]; [|exists x, y; split; [right; right; exact H|exact O]].
      injection e as <- <-. apply (on_cut p a b c B) in O. destruct O as [O|O]; [exists a, b|exists b, c]; (split; [|exact O]); [left|right; left]; reflexivity.
    + apply (trace_perm _ _ _ (Permutation_sym P2)). apply (trace_perm _ _ _ P1) in T. rewrite ces_cons3 in T. rewrite ces_cons2.
      destruct T as (x & y & H & O). destruct H as [e|[e|H]]; [| |exists x, y; split; [right; exact H|exact O]];
        injection e as <- <-; exists a, c; (split; [left; reflexivity|]); apply (on_cut p a b c B); auto.
  - intros q. rewrite !winding_wsum, (wsum_perm q _ _ P1), (wsum_perm q _ _ P2), ces_cons3, ces_cons2, !wsum_cons, (btw_passes q a b c B). lia.
Qed.
Lemma drops_jordan l m : drops l m -> 3 <= length l -> jordan l ->
  jordan m /\ 3 <= length m /\ (forall p, on_contour p m <-> on_contour p l) /\ (forall q, winding q m = winding q l).
Proof.
  induction 1 as [l|l m n D _ IH]; intros L3 J; [split; [exact J|]; split; [exact L3|]; split; intros; reflexivity|].
  destruct (drop1_jordan _ _ D L3 J) as (J1 & L1 & T1 & W1). destruct (IH L1 J1) as (J2 & L2 & T2 & W2).
  split; [exact J2|]. split; [exact L2|]. split; intros; [rewrite T2; apply T1|rewrite W2; apply W1].
Qed.
Lemma compress_jordan vs : 3 <= length vs -> jordan vs -> let ws := compress_contour vs in
  jordan ws /\ 3 <= length ws /\ strict ws /\ (forall p, on_contour p ws <-> on_contour p vs) /\ (forall q, winding q ws = winding q vs).
Proof.
  intros L3 J ws. destruct (drops_jordan _ _ (compress_drops vs) L3 J) as (H1 & H2 & H3 & H4). fold ws in H1, H2, H3, H4.
  split; [exact H1|]. split; [exact H2|]. split; [|split; assumption].
  destruct (compress_strict vs (proj1 J)) as [h|h]; [fold ws in h; lia|exact h].
Qed.
Lemma jordan_simple vs : 3 <= length vs -> jordan vs -> simple vs.
Proof.
  intros L3 (N & J). split; [exact N|]. intros a b c d H1 H2 D (p & (O1 & n1 & n2) & (O2 & n3 & n4)). cbn [seg_start seg_end] in *.
  destruct (J a b c d p H1 H2 D O1 O2); tauto.
Qed.
