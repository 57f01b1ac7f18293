(** The corners of a contour: independence of the first vertex, vertices on straight lines, compression. *)
From Coq Require Import List Lia Permutation.
From Verif Require Import Base Geometry Ctx Spec WindSpec QcTac QcFast GeomProofs ListProofs LoopProofs CyclicProofs CycEdge Factories CompressProofs
  QuadEdge Triangulation DelGeo DelCyc DelMap DelCand DelWind DelCarve DelBorder Jordan SteerSpec SteerProofs.
Import ListNotations.
Open Scope nat_scope.
Local Notation cyc := CyclicProofs.cyc.

Definition bend3 (t : point * point * point) : Z := let '(a, b, c) := t in bend a b c.
Definition sumZ (l : list Z) : Z := fold_right Z.add 0%Z l.
Lemma sumZ_perm l m : Permutation l m -> sumZ l = sumZ m.
Proof. induction 1; cbn [sumZ fold_right] in *; unfold sumZ in *; lia. Qed.
Lemma bends_triples l : bends l = sumZ (List.map bend3 (triples l)).
Proof.
  induction l as [|a l IH]; [reflexivity|]. destruct l as [|b [|c l]]; [reflexivity|reflexivity|].
  rewrite bends_two, IH. reflexivity.
Qed.
Lemma corners_cyc vs : 2 <= length vs -> corners vs = sumZ (List.map bend3 (cyc vs)).
Proof.
  destruct vs as [|a [|b l]]; cbn [length]; try lia. intros _. unfold corners, cyc. rewrite bends_triples. reflexivity.
Qed.
Lemma triples_fst l x y : List.map (fun t : point * point * point => fst (fst t)) (triples (l ++ [x; y])) = l.
Proof.
  induction l as [|a l IH]; [reflexivity|]. destruct l as [|b l]; [reflexivity|]. cbn [app] in *.
  destruct (l ++ [x; y]) as [|c r] eqn:E; [destruct l; discriminate|].
  change (triples (a :: b :: c :: r)) with ((a, b, c) :: triples (b :: c :: r)). cbn [List.map fst]. f_equal. exact IH.
Qed.
Lemma cyc_fst vs : 2 <= length vs -> List.map (fun t : point * point * point => fst (fst t)) (cyc vs) = vs.
Proof. destruct vs as [|a [|b l]]; cbn [length]; try lia. intros _. unfold cyc. apply triples_fst. Qed.
Lemma cyc_nodup vs : 2 <= length vs -> NoDup vs -> NoDup (cyc vs).
Proof. intros L N. apply (NoDup_map_inv (fun t => fst (fst t))). rewrite cyc_fst by exact L. exact N. Qed.
Lemma cyc_length vs : 2 <= length vs -> length (cyc vs) = length vs.
Proof. intros L. rewrite <- (map_length (fun t => fst (fst t))), cyc_fst by exact L. reflexivity. Qed.
Lemma edge_fun vs a b c : NoDup vs -> contour_edge vs a b -> contour_edge vs a c -> b = c.
Proof.
  intros N (i & A & B) (j & C & D). assert (i = j) by (apply (proj1 (NoDup_nth_error vs) N); [apply nth_error_Some; congruence|congruence]). subst j. congruence.
Qed.
Lemma turn_edges vs a b c : NoDup vs -> (contour_turn vs a b c <-> contour_edge vs a b /\ contour_edge vs b c).
Proof.
  intros N.
  assert (T : forall a b c, contour_turn vs a b c -> contour_edge vs a b /\ contour_edge vs b c).
  { intros x y z (i & A & B & D). split; [exists i; auto|]. exists (Datatypes.S i mod length vs). split; [exact B|].
    replace (Datatypes.S (Datatypes.S i mod length vs) mod length vs) with (Datatypes.S (Datatypes.S i) mod length vs); [exact D|].
    assert (length vs <> 0) by (destruct vs; [destruct i; discriminate|discriminate]).
    change (Datatypes.S (Datatypes.S i)) with (1 + Datatypes.S i). change (Datatypes.S (Datatypes.S i mod length vs)) with (1 + Datatypes.S i mod length vs). rewrite Nat.add_mod_idemp_r by assumption. reflexivity. }
  split; [apply T|]. intros ((i & A & B) & E).
  assert (n0 : length vs <> 0) by (destruct vs; [destruct i; discriminate|discriminate]).
  destruct (nth_error vs (Datatypes.S (Datatypes.S i) mod length vs)) as [c'|] eqn:D.
  - assert (X : contour_turn vs a b c') by (exists i; auto). destruct (T _ _ _ X) as (_ & E'). rewrite (edge_fun vs b c c' N E E'). exact X.
  - apply nth_error_None in D. pose proof (Nat.mod_upper_bound (Datatypes.S (Datatypes.S i)) (length vs) n0). lia.
Qed.
(** Contours of the same edges have the same corners. *)
Lemma corners_same vs ws : NoDup vs -> NoDup ws -> 2 <= length vs -> 2 <= length ws -> (forall a b, In (a, b) (ces vs) <-> In (a, b) (ces ws)) -> corners vs = corners ws.
Proof.
  intros N1 N2 L1 L2 E. rewrite !corners_cyc by assumption. apply sumZ_perm, Permutation_map, NoDup_Permutation; [apply cyc_nodup; assumption|apply cyc_nodup; assumption|].
  intros ((a & b) & c). rewrite <- !turn_cyc by assumption. rewrite !turn_edges by assumption. rewrite <- !ces_edge, !E. reflexivity.
Qed.
Lemma corners_cycle bd L1 L2 : cycle bd L1 -> cycle bd L2 -> corners L1 = corners L2.
Proof. intros (N1 & G1 & C1) (N2 & G2 & C2). apply corners_same; auto. intros a b. rewrite <- C1, <- C2. reflexivity. Qed.
(** A contour without straight angles has as many corners as vertices. *)
Lemma corners_strict vs : 2 <= length vs -> strict vs -> corners vs = lenZ vs.
Proof.
  intros L H. rewrite corners_cyc by exact L. unfold lenZ. rewrite <- (cyc_length vs L).
  assert (A : forall t, In t (cyc vs) -> bend3 t = 1%Z).
  { intros ((a & b) & c) I. apply turn_cyc in I; [|exact L]. cbn [bend3]. apply bend_one, (H a b c I). }
  induction (cyc vs) as [|t l IH]; [reflexivity|]. cbn [List.map sumZ fold_right length]. rewrite (A t (or_introl eq_refl)).
  unfold sumZ in IH. rewrite IH; [lia|]. intros u Hu. apply A. right. exact Hu.
Qed.
Lemma bend_ext a b c a' b' c' : (cross a b c = 0 <-> cross a' b' c' = 0)%Qc -> bend a b c = bend a' b' c'.
Proof. intros H. unfold bend. destruct (Qc_eq_dec (cross a b c) 0), (Qc_eq_dec (cross a' b' c') 0); tauto. Qed.
(** ** A vertex inside a straight line. *)
Lemma btw_side a b c q : btw b a c -> exists k, (0 < k)%Qc /\ (cross a b q = k * cross a c q)%Qc.
Proof.
  intros B. destruct (btw_param _ _ _ B) as (t & t0 & t1 & X & Y). exists t. split; [exact t0|]. unfold cross. rewrite X, Y. ring.
Qed.
Lemma side_zero (x y k : Qc) : (0 < k -> x = k * y -> (x = 0 <-> y = 0))%Qc.
Proof.
  intros K E. split; intros H.
  - rewrite H in E. symmetry in E. apply Qcmult_integral in E. destruct E as [E|E]; [|exact E]. rewrite E in K. apply Qclt_not_eq in K. congruence.
  - rewrite E, H. ring.
Qed.
Lemma corners_straight a b c r : btw b a c -> r <> [] -> corners (a :: b :: c :: r) = corners (a :: c :: r).
Proof.
  intros B Hr. destruct (exists_last Hr) as (r0 & p & E). destruct r as [|n r']; [contradiction|]. unfold corners. cbn [app]. rewrite !bends_two.
  change (c :: n :: r' ++ [a; b]) with (c :: (n :: r') ++ [a; b]). change (c :: n :: r' ++ [a; c]) with (c :: (n :: r') ++ [a; c]).
  rewrite E, !bends_around.
  destruct (btw_side a b c p B) as (k1 & K1 & E1). destruct (btw_side c b a n (btw_sym _ _ _ B)) as (k2 & K2 & E2).
  assert (Z : bend a b c = 0%Z).
  { unfold bend. destruct (Qc_eq_dec (cross a b c) 0) as [|z]; [reflexivity|]. destruct z. destruct B as (B & _). rewrite <- B. unfold cross in *.
    transitivity (- ((px c - px a) * (py b - py a) - (py c - py a) * (px b - px a)))%Qc; [ring|]. rewrite B. ring. }
  assert (X1 : bend p a b = bend p a c).
  { rewrite (bend_turn p a b), (bend_turn p a c). apply bend_ext. apply (side_zero _ _ k1 K1 E1). }
  assert (X2 : bend b c n = bend a c n).
  { rewrite (bend_flip b c n), (bend_flip a c n). apply bend_ext. apply (side_zero _ _ k2 K2 E2). }
  rewrite Z, X1, X2. lia.
Qed.
Lemma drop1_straight l m : drop1 l m -> 3 <= length l -> jordan l -> exists a b c r, r <> [] /\ btw b a c /\ NoDup (a :: b :: c :: r)
  /\ Permutation (ces l) (ces (a :: b :: c :: r)) /\ Permutation (ces m) (ces (a :: c :: r)) /\ Permutation m (a :: c :: r).
Proof.
  intros [l1 b l2 Len (a & c & w & E1 & E2 & C)] L3 J. apply jordan_ces in J. destruct J as (N & J).
  assert (Hw : w <> []).
  { intros ->. assert (e : length (l2 ++ l1) = 1) by (rewrite E1; reflexivity). rewrite !app_length in *. cbn [length] in *. lia. }
  destruct (ces_drop l1 b l2 a c w E1 E2 Hw) as (r & P1 & P2 & P3 & P4).
  assert (N' : NoDup (a :: b :: c :: r)) by (apply (Permutation_NoDup P3), N).
  assert (J' : jces (ces (a :: b :: c :: r))) by (apply (jces_perm _ _ P1), J).
  pose proof (straight a b c r N' J' C) as B.
  exists a, b, c, r. split; [|auto].
  intros ->. rewrite ces_cons3 in J'. cbn [combine app] in J'. destruct (btw_neq _ _ _ B) as (n1 & n2 & n3).
  destruct (J' c a a b b) as [(e & _)|(e & _)]; try congruence.
  - right. right. left. reflexivity.
  - left. reflexivity.
  - apply btw_on, btw_sym, B.
  - apply on_right.
Qed.
Lemma drop1_corners l m : drop1 l m -> 3 <= length l -> jordan l -> corners m = corners l.
Proof.
  intros D L3 J. destruct (drop1_straight l m D L3 J) as (a & b & c & r & Hr & B & N & P1 & P2 & P3).
  destruct (drop1_jordan l m D L3 J) as (Jm & Lm & _).
  assert (N2 : NoDup (a :: c :: r)) by (apply (Permutation_NoDup P3), Jm).
  rewrite (corners_same m (a :: c :: r)), (corners_same l (a :: b :: c :: r)); try (cbn [length]; lia); try assumption; try apply J; try apply Jm.
  - symmetry. apply corners_straight; assumption.
  - intros x y. split; apply Permutation_in; [|apply Permutation_sym]; exact P1.
  - intros x y. split; apply Permutation_in; [|apply Permutation_sym]; exact P2.
Qed.
Lemma drops_corners l m : drops l m -> 3 <= length l -> jordan l -> corners m = corners l.
Proof.
  induction 1 as [l|l m n D _ IH]; intros L3 J; [reflexivity|]. destruct (drop1_jordan _ _ D L3 J) as (J1 & L1 & _).
  rewrite (IH L1 J1). apply (drop1_corners _ _ D L3 J).
Qed.
Lemma compress_corners vs : 3 <= length vs -> jordan vs -> lenZ (compress_contour vs) = corners vs.
Proof.
  intros L3 J. destruct (compress_jordan vs L3 J) as (_ & L & T & _). assert (L2 : 2 <= length (compress_contour vs)) by (apply (Nat.le_trans _ 3); [auto|exact L]). rewrite <- (corners_strict _ L2 T). apply (drops_corners _ _ (compress_drops vs) L3 J).
Qed.
(** ** Points on one side of every edge stay there. *)
Definition sided (S : list point) (vs : contour) : Prop := forall a b, In (a, b) (ces vs) -> forall q, In q S -> (0 <= cross a b q)%Qc.
Lemma drop1_sided S l m : drop1 l m -> 3 <= length l -> jordan l -> sided S l -> sided S m.
Proof.
  intros D L3 J H x y I q Hq. destruct (drop1_straight l m D L3 J) as (a & b & c & r & Hr & B & N & P1 & P2 & P3).
  apply (Permutation_in _ P2) in I. rewrite ces_cons2 in I. destruct I as [I|I].
  - injection I as <- <-. destruct (btw_side a b c q B) as (k & K & E).
    assert (X : (0 <= cross a b q)%Qc) by (apply H; [apply (Permutation_in _ (Permutation_sym P1)); rewrite ces_cons3; left; reflexivity|exact Hq]).
    rewrite E in X. apply Qcnot_lt_le. intros Y. apply (Qcle_not_lt _ _ X). replace (k * cross a c q)%Qc with (cross a c q * k)%Qc by ring. assert (Z : (0 * k = 0)%Qc) by ring. rewrite <- Z. apply Qcmult_lt_compat_r; assumption.
  - apply H; [|exact Hq]. apply (Permutation_in _ (Permutation_sym P1)). rewrite ces_cons3. right. right. exact I.
Qed.
Lemma drops_sided S l m : drops l m -> 3 <= length l -> jordan l -> sided S l -> sided S m.
Proof.
  induction 1 as [l|l m n D _ IH]; intros L3 J H; [exact H|]. destruct (drop1_jordan _ _ D L3 J) as (J1 & L1 & _). apply IH; auto. apply (drop1_sided S _ _ D L3 J H).
Qed.
