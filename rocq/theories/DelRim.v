(** The hull of a Delaunay triangulation: its vertices, and the points inside it. *)
From Coq Require Import List Lia Permutation Sorted.
From Verif Require Import Base Geometry Ctx Spec WindSpec QcTac QcFast GeomProofs ListProofs CycEdge SegmentProofs
  QuadEdge Triangulation Factories QuadProofs TriProofs
  DelGeo DelCyc DelMap DelFan DelOps DelCand DelMerge DelStart DelHeap DelFind DelAll DelHull DelCarve DelWind DelBorder.
Import ListNotations.
Open Scope Qc_scope.

Section H.
Context (S : list point) (m : map) (T : DT S m).
Context (NC : forall a b, In a S -> In b S -> a <> b -> exists c, In c S /\ cross a b c <> 0).
Let W := d_laws _ _ T.
Notation hd := (hd S m).
Definition ahead (u w q : point) : Qc := psi (px w - px u) (py w - py u) q.

Lemma ahead_param u w q t : px q = px u + t * (px w - px u) -> py q = py u + t * (py w - py u) -> ahead u w q = ahead u w u + t * d2 u w.
Proof. intros X Y. unfold ahead, psi, d2. rewrite X, Y. ring. Qed.
Lemma line_next u w x z : hd u w -> In x S -> In z S -> cross u w x = 0 -> cross u w z = 0 -> ahead u w x < ahead u w z ->
  exists b, hd x b /\ ad x z b = q4.
Proof.
  intros (E & A) Ix Iz Cx Cz Lt. pose proof (l_ne _ _ W _ _ E) as n.
  assert (nx : z <> x) by (intros e; rewrite e in Lt; ql).
  destruct (line_param u w x ltac:(auto) Cx) as (s & X & Y). destruct (line_param u w z ltac:(auto) Cz) as (t & X' & Y').
  rewrite (ahead_param u w x s X Y), (ahead_param u w z t X' Y') in Lt. pose proof (d2_pos u w ltac:(auto)) as D.
  assert (st : 0 < t - s).
  { apply (pos_of_mul (d2 u w)); [exact D|]. replace (d2 u w * (t - s)) with (t * d2 u w - s * d2 u w) by ring. ql. }
  assert (A' : forall q, In q S -> 0 <= cross x z q).
  { intros q Hq. assert (e : cross x z q = (t - s) * cross u w q) by (unfold cross; rewrite X, Y, X', Y'; ring).
    rewrite e. apply mul_nonneg; [ql|apply A, Hq]. }
  destruct (d_nbr _ _ T x z Ix Iz nx) as (a0 & Ea0).
  destruct (coverage S m W (fun _ => True) x a0 z Ea0 nx I ltac:(auto)) as (a & Ea & _ & C).
  destruct (l_next _ _ W _ _ Ea) as (Eb & _). set (b := mn m x a) in *.
  pose proof (l_ne _ _ W _ _ Ea) as na. pose proof (l_ne _ _ W _ _ Eb) as nb.
  destruct (d_corner _ _ T x a Ea) as [(t1 & t2)|g].
  - exfalso. destruct (ad_pos x a b na nb (proj1 t1)) as (_ & r). pose proof (ad_pos_iff x a z na nx ltac:(ql)) as h.
    pose proof (A' a (e_in2 _ _ W _ _ Ea)) as h'. rewrite cross_swap in h'. ql.
  - exists b. split; [split; [exact Eb|apply (gap_left S x a); auto]|].
    assert (e : ad x a z = ad x a b) by (apply Qcle_antisym; [exact C|apply g; auto]).
    apply (ad_eq x a); auto.
Qed.
(** A point on the line of a hull edge is a vertex of the hull. *)
Lemma hull_line u w x : hd u w -> In x S -> cross u w x = 0 -> exists y, hd x y.
Proof.
  intros H Ix Cx. pose proof H as (E & A). pose proof (l_ne _ _ W _ _ E) as n. pose proof (l_in _ _ W _ _ E) as Iu.
  destruct (point_eq_dec x u) as [->|nxu]; [exists w; exact H|].
  set (g := ahead u w). pose proof (d2_pos u w ltac:(auto)) as D.
  destruct (ex_in_dec (fun q => cross u w q = 0 /\ g x < g q) S) as [(z & Iz & Cz & Lz)|F].
  { intros q. destruct (Qc_eq_dec (cross u w q) 0) as [e|e]; [|right; tauto]. destruct (Qclt_le_dec (g x) (g q)) as [h|h]; [left; auto|right]. intros (_ & h'). ql. }
  { destruct (line_next u w x z H Ix Iz Cx Cz Lz) as (b & Hb & _). exists b. exact Hb. }
  assert (Dec : forall q, {cross u w q = 0 /\ g q < g x} + {~ (cross u w q = 0 /\ g q < g x)}).
  { intros q. destruct (Qc_eq_dec (cross u w q) 0) as [e|e]; [|right; tauto]. destruct (Qclt_le_dec (g q) (g x)) as [h|h]; [left; auto|right]. intros (_ & h'). ql. }
  assert (Inj : forall p q, cross u w p = 0 -> cross u w q = 0 -> g p = g q -> p = q).
  { intros p q Cp Cq e. destruct (line_param u w p ltac:(auto) Cp) as (s & X & Y). destruct (line_param u w q ltac:(auto) Cq) as (t & X' & Y').
    unfold g in e. rewrite (ahead_param u w p s X Y), (ahead_param u w q t X' Y') in e.
    assert (st : t - s = 0) by (apply (zero_of_mul (d2 u w)); [exact D|]; replace (d2 u w * (t - s)) with (t * d2 u w - s * d2 u w) by ring; ql).
    assert (t = s) by ql. subst t. apply point_ext; congruence. }
  destruct (min_exists (fun q => cross u w q = 0 /\ g q < g x) (fun p q => g q <= g p) S Dec) as (y & Iy & (Cy & Ly) & My).
  - intros p q _ _. destruct (Qclt_le_dec (g p) (g q)); [right; ql|left; assumption].
  - intros p q r _ _ _ h1 h2. ql.
  - exists u. split; [exact Iu|]. split; [apply cross_aba|]. destruct (Qclt_le_dec (g u) (g x)) as [h|h]; [exact h|exfalso].
    destruct (Qcle_lt_or_eq _ _ h) as [h'|h'].
    + apply (F u Iu). split; [apply cross_aba|exact h'].
    + apply nxu. apply Inj; auto. apply cross_aba.
  - destruct (line_next u w y x H Iy Ix Cy Cx Ly) as (b & Hb & Eb). pose proof (l_ne _ _ W _ _ (proj1 Hb)) as nb.
    assert (nxy : x <> y) by (intros e; rewrite e in Ly; ql).
    assert (Ib : In b S) by (apply (e_in2 _ _ W _ _ (proj1 Hb))).
    destruct (same_btw y x b nxy nb Eb) as [->|[B|B]].
    + exists (mn m b y). apply (hd_next S m T), Hb.
    + exfalso. apply (l_clean _ _ W y b x (proj1 Hb) Ix B).
    + exfalso. destruct (btw_param _ _ _ B) as (t & t0 & t1 & X & Y).
      assert (Cb : cross u w b = 0).
      { assert (e : cross u w b = (1 - t) * cross u w y + t * cross u w x) by (unfold cross; rewrite X, Y; ring). rewrite e, Cy, Cx. ring. }
      assert (e : g b = g y + t * (g x - g y)) by (apply psi_param; assumption).
      pose proof (mul_pos t (g x - g y) t0 ltac:(ql)) as M1. pose proof (mul_pos (1 - t) (g x - g y) ltac:(ql) ltac:(ql)) as M2.
      assert (e' : (1 - t) * (g x - g y) = (g x - g y) - t * (g x - g y)) by ring.
      pose proof (My b Ib ltac:(split; [exact Cb|ql])). ql.
Qed.
Lemma inner_left u w q : hd u w -> In q S -> (forall y, ~ hd q y) -> 0 < cross u w q.
Proof.
  intros H Iq Nq. destruct (Qcle_lt_or_eq _ _ (proj2 H q Iq)) as [h|h]; [exact h|]. destruct (hull_line u w q H Iq (eq_sym h)) as (y & Hy). destruct (Nq y Hy).
Qed.

(** The winding number of the hull. *)
Lemma sum_one {A} (f : A -> Z) (up : A -> bool) l a : NoDup l -> In a l -> up a = true ->
  (forall b, In b l -> up b = true -> b = a) -> (forall b, In b l -> f b = if up b then 1%Z else 0%Z) -> zsum (List.map f l) = 1%Z.
Proof.
  intros N I U Un F.
  assert (Z0 : forall l', (forall b, In b l' -> f b = 0%Z) -> zsum (List.map f l') = 0%Z).
  { induction l' as [|x l' IH]; intros H; [reflexivity|]. cbn [List.map zsum fold_right] in *. rewrite (H x) by (left; reflexivity).
    change (fold_right Z.add 0%Z (List.map f l')) with (zsum (List.map f l')). rewrite IH; [reflexivity|]. intros b Hb. apply H. right. exact Hb. }
  destruct (in_split _ _ I) as (l1 & l2 & ->).
  assert (P : Permutation (l1 ++ a :: l2) (a :: l1 ++ l2)) by (symmetry; apply Permutation_middle).
  rewrite (zsum_perm _ _ (Permutation_map f P)). cbn [List.map]. change (zsum (f a :: List.map f (l1 ++ l2))) with (f a + zsum (List.map f (l1 ++ l2)))%Z.
  rewrite (F a I), U, Z0; [reflexivity|]. intros b Hb. assert (Ib : In b (l1 ++ a :: l2)) by (apply in_app_or in Hb; apply in_or_app; cbn; tauto).
  rewrite (F b Ib). destruct (up b) eqn:Ub; [|reflexivity]. exfalso. apply NoDup_remove_2 in N. apply N. rewrite <- (Un b Ib Ub). exact Hb.
Qed.
Lemma hull_winding ep L x y z q : faithful ep S -> cycle hd L -> hd x y -> (forall p, In p S -> phi ep x <= phi ep p) ->
  (exists r, hd r z) -> (forall p, In p S -> phi ep p <= phi ep z) -> In q S -> (forall c, ~ hd q c) -> wsum q (ces L) = 1%Z.
Proof.
  intros Fa Cy Hx Mx (r & Hz) Mz Iq Nq. pose proof Cy as (N & Len & C).
  assert (Fx : forall p p', In p S -> In p' S -> phi ep p <= phi ep p' -> px p <= px p').
  { intros p p' Ip Ip' h. destruct (Qclt_le_dec (px p') (px p)) as [h'|h']; [|exact h']. pose proof (Fa p' p Ip' Ip (or_introl h')). ql. }
  assert (Eph : forall p, psi (- (1)) (- ep) p = - phi ep p) by (intros; rewrite psi_neg; unfold psi, phi; ring).
  assert (inj : forall a b, In a S -> In b S -> psi (- (1)) (- ep) a = psi (- (1)) (- ep) b -> a = b).
  { intros a b Ia Ib e. rewrite !Eph in e. assert (e' : phi ep a = phi ep b) by ql.
    destruct (plt_total a b) as [h|[h|h]]; [pose proof (Fa a b Ia Ib h); ql|exact h|pose proof (Fa b a Ib Ia h); ql]. }
  set (up := fun e : point * point => qleb (px (snd e)) (px q) && qltb (px q) (px (fst e))).
  assert (Lx : px x <= px q) by (apply Fx; auto; apply (l_in _ _ W _ _ (proj1 Hx))).
  assert (Iz : In z S) by (apply (e_in2 _ _ W _ _ (proj1 Hz))).
  assert (Lz : px q < px z).
  { pose proof (Fx q z Iq Iz (Mz q Iq)) as h. destruct (Qcle_lt_or_eq _ _ h) as [h'|h']; [exact h'|exfalso].
    pose proof (inner_left r z q Hz Iq Nq) as p. pose proof (Fx r z (l_in _ _ W _ _ (proj1 Hz)) Iz (Mz r (l_in _ _ W _ _ (proj1 Hz)))) as h2.
    assert (nq : q <> z) by (intros e; rewrite e in Nq; apply (Nq _ (hd_next S m T _ _ Hz))).
    destruct (plt_total q z) as [h3|[h3|h3]]; [|congruence|pose proof (Fa z q Iz Iq h3); pose proof (Mz q Iq); ql].
    assert (h4 : py q < py z) by (destruct h3 as [h3|(_ & h3)]; [ql|exact h3]).
    assert (e : cross r z q = - ((px z - px r) * (py z - py q))) by (unfold cross; rewrite <- h'; ring).
    pose proof (mul_nonneg (px z - px r) (py z - py q) ltac:(ql) ltac:(ql)). ql. }
  assert (Ex : exists e, In e (ces L) /\ up e = true).
  { destruct (existsb up (ces L)) eqn:E; [apply existsb_exists in E; exact E|exfalso].
    assert (Cl : forall a b, In (a, b) (ces L) -> px q < px a -> px q < px b).
    { intros a b Hab h. destruct (Qclt_le_dec (px q) (px b)) as [h'|h']; [exact h'|exfalso].
      assert (X : existsb up (ces L) = true); [|congruence]. apply existsb_exists. exists (a, b). split; [exact Hab|]. unfold up. cbn [fst snd].
      rewrite qleb_yes, qltb_yes by assumption. reflexivity. }
    assert (Lq : px q < px x); [|ql]. apply (ces_closed (fun p => px q < px p) L z x Cl).
    - apply (cycle_vertex _ _ _ Cy). exists (mn m z r). apply (hd_next S m T), Hz.
    - exact Lz.
    - apply (cycle_vertex _ _ _ Cy). exists y. exact Hx. }
  destruct Ex as ((a & b) & Hab & U). unfold wsum. apply (sum_one _ up _ (a, b)); auto.
  - apply ces_nodup, N.
  - intros (c & d) Hcd U'. unfold up in U, U'. cbn [fst snd] in U, U'. apply andb_true_iff in U, U'. destruct U as (U1 & U2), U' as (U3 & U4).
    pose proof (qleb_spec (px b) (px q)) as h1. rewrite U1 in h1. pose proof (qltb_spec (px q) (px a)) as h2. rewrite U2 in h2.
    pose proof (qleb_spec (px d) (px q)) as h3. rewrite U3 in h3. pose proof (qltb_spec (px q) (px c)) as h4. rewrite U4 in h4.
    apply C in Hab, Hcd. pose proof (l_in _ _ W _ _ (proj1 Hab)) as Ia. pose proof (e_in2 _ _ W _ _ (proj1 Hab)) as Ib.
    pose proof (l_in _ _ W _ _ (proj1 Hcd)) as Ic. pose proof (e_in2 _ _ W _ _ (proj1 Hcd)) as Id.
    pose proof (Fa b a Ib Ia ltac:(left; ql)) as p1. pose proof (Fa d c Id Ic ltac:(left; ql)) as p2.
    pose proof (Fa b c Ib Ic ltac:(left; ql)) as p3. pose proof (Fa d a Id Ia ltac:(left; ql)) as p4.
    destruct (Qclt_le_dec (phi ep a) (phi ep c)) as [h|h].
    + destruct (overlap S m T _ _ inj c d a b Hcd Hab ltac:(rewrite !Eph; ql) ltac:(rewrite !Eph; ql) ltac:(rewrite !Eph; ql)) as (-> & ->). reflexivity.
    + destruct (overlap S m T _ _ inj a b c d Hab Hcd ltac:(rewrite !Eph; ql) ltac:(rewrite !Eph; ql) ltac:(rewrite !Eph; ql)) as (-> & ->). reflexivity.
  - intros (c & d) Hcd. cbn [fst snd]. apply C in Hcd. pose proof (inner_left c d q Hcd Iq Nq) as p. unfold passes, up. cbn [fst snd].
    rewrite (qltb_yes 0 _ p), (qltb_no (cross c d q) 0) by ql. rewrite andb_true_r, andb_false_r. reflexivity.
Qed.
End H.
