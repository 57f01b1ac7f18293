(** Coordinates in general position exist: ordinates growing fast enough. *)
From Coq Require Import List Lia QArith Qcanon.
From Verif Require Import Base Prog Geometry Spec GeneralSpec ProgProofs QcTac GeomProofs.
Import List ListNotations.
Open Scope Z_scope.

Lemma Qc_of_Z_inj a b : Qc_of_Z a = Qc_of_Z b -> a = b.
Proof. intros H. apply (f_equal this) in H. cbn [Qc_of_Z Q2Qc this] in H. assert (K : (Qred (inject_Z a) == Qred (inject_Z b))%Q) by (rewrite H; reflexivity). rewrite !Qred_correct in K. unfold Qeq in K. cbn in K. lia. Qed.
Lemma Qc_of_Z_sub a b : (Qc_of_Z a - Qc_of_Z b)%Qc = Qc_of_Z (a - b).
Proof. apply Qc_is_canon. unfold Qc_of_Z, Qcminus, Qcplus, Qcopp. cbn [this Q2Qc]. rewrite !Qred_correct. unfold Qeq. cbn. ring. Qed.
Lemma Qc_of_Z_mul a b : (Qc_of_Z a * Qc_of_Z b)%Qc = Qc_of_Z (a * b).
Proof. apply Qc_is_canon. unfold Qc_of_Z, Qcmult. cbn [this Q2Qc]. rewrite !Qred_correct. unfold Qeq. cbn. ring. Qed.
Definition integral (s : scalars) (P : Z -> Prop) : Prop := forall x, drawable s x -> exists z, x = Qc_of_Z z /\ P z.
(** Any two values apart by a factor of [k + 1] at least. *)
Definition growing (k : Z) (z : Z -> Prop) : Prop := (forall a, z a -> 0 < a) /\ forall a b, z a -> z b -> a < b -> (k + 1) * a <= b.
Lemma lacunary k x1 x2 x3 y1 y2 y3 : 0 <= x1 <= k -> 0 <= x2 <= k -> 0 <= x3 <= k -> x1 <> x2 -> 0 < y1 -> y1 < y2 -> (k + 1) * y2 <= y3 ->
  (x2 - x1) * (y3 - y1) <> (x3 - x1) * (y2 - y1).
Proof.
  intros X1 X2 X3 N H1 H2 H3 E. assert (K : k * (y2 - y1) < y3 - y1) by nia.
  assert (A : Z.abs ((x3 - x1) * (y2 - y1)) <= k * (y2 - y1)) by (rewrite Z.abs_mul, (Z.abs_eq (y2 - y1)) by lia; apply Z.mul_le_mono_nonneg_r; lia).
  assert (B : y3 - y1 <= Z.abs ((x2 - x1) * (y3 - y1))) by (rewrite Z.abs_mul, (Z.abs_eq (y3 - y1)) by nia; nia).
  rewrite E in B. lia.
Qed.
Lemma growing_general xs ys k G : integral xs (fun z => 0 <= z <= k) -> integral (ordinates xs ys) G -> growing k G -> general_coordinates xs ys.
Proof.
  intros Hx Hy (G0 & G1) a b c (Ax & Ay) (Bx & By) (Cx & Cy) Nab Nbc Nac L.
  destruct a as [ax ay], b as [bx by0], c as [cx cy]. cbn [px py] in *.
  destruct (Hx _ Ax) as (x1 & -> & X1), (Hx _ Bx) as (x2 & -> & X2), (Hx _ Cx) as (x3 & -> & X3).
  destruct (Hy _ Ay) as (y1 & -> & Y1), (Hy _ By) as (y2 & -> & Y2), (Hy _ Cy) as (y3 & -> & Y3).
  assert (N12 : x1 <> x2 \/ y1 <> y2) by (destruct (Z.eq_dec x1 x2), (Z.eq_dec y1 y2); auto; subst; contradiction Nab; reflexivity).
  assert (N23 : x2 <> x3 \/ y2 <> y3) by (destruct (Z.eq_dec x2 x3), (Z.eq_dec y2 y3); auto; subst; contradiction Nbc; reflexivity).
  assert (N13 : x1 <> x3 \/ y1 <> y3) by (destruct (Z.eq_dec x1 x3), (Z.eq_dec y1 y3); auto; subst; contradiction Nac; reflexivity).
  unfold collinear, cross in L. cbn [px py] in L. rewrite !Qc_of_Z_sub, !Qc_of_Z_mul, Qc_of_Z_sub in L. change (Q2Qc 0) with (Qc_of_Z 0) in L. apply Qc_of_Z_inj in L.
  enough (K : (x1 = x2 /\ x2 = x3) \/ (y1 = y2 /\ y2 = y3)) by (destruct K as [(-> & ->)|(-> & ->)]; auto).
  destruct (Z.eq_dec x1 x2) as [->|D12]; [left; nia|]. destruct (Z.eq_dec x2 x3) as [->|D23]; [left; nia|]. destruct (Z.eq_dec x1 x3) as [->|D13]; [left; nia|].
  destruct (Z.eq_dec y1 y2) as [->|E12]; [right; nia|]. destruct (Z.eq_dec y2 y3) as [->|E23]; [right; nia|]. destruct (Z.eq_dec y1 y3) as [->|E13]; [right; nia|].
  exfalso. pose proof (G0 _ Y1). pose proof (G0 _ Y2). pose proof (G0 _ Y3).
  destruct (Z_lt_le_dec y1 y2), (Z_lt_le_dec y2 y3), (Z_lt_le_dec y1 y3); try lia.
  - apply (lacunary k x1 x2 x3 y1 y2 y3); auto; lia.
  - apply (lacunary k x1 x3 x2 y1 y3 y2); auto; try lia. apply G1; auto; lia.
  - apply (lacunary k x3 x1 x2 y3 y1 y2); auto; try lia; apply G1; auto; lia.
  - apply (lacunary k x2 x1 x3 y2 y1 y3); auto; try lia.
  - apply (lacunary k x2 x3 x1 y2 y3 y1); auto; try lia. apply G1; auto; lia.
  - apply (lacunary k x3 x2 x1 y3 y2 y1); auto; try lia. apply G1; auto; lia.
Qed.
Lemma powers_growing k : 0 <= k -> growing k (fun z => exists n, 0 <= n /\ z = (k + 2) ^ n).
Proof.
  intros Hk. split; [intros a (n & Hn & ->); apply Z.pow_pos_nonneg; lia|]. intros a b (n & Hn & ->) (m & Hm & ->) L.
  apply Z.pow_lt_mono_r_iff in L; [|lia|lia]. assert (E : (k + 2) ^ (n + 1) <= (k + 2) ^ m) by (apply Z.pow_le_mono_r; lia).
  rewrite Z.pow_add_r in E by lia. pose proof (Z.pow_pos_nonneg (k + 2) n ltac:(lia) ltac:(lia)). nia.
Qed.

(** Abscissae among 0, ..., [k], ordinates among the powers of [k + 2]. *)
Lemma powers_general xs ys k : 0 <= k -> (forall x, drawable xs x -> exists z, x = Qc_of_Z z /\ 0 <= z <= k) ->
  (forall y, drawable ys y -> exists n, 0 <= n /\ y = Qc_of_Z ((k + 2) ^ n)) -> general_coordinates xs (Some ys).
Proof.
  intros Hk Hx Hy. eapply growing_general; [exact Hx| |apply powers_growing, Hk]. intros y Dy. destruct (Hy y Dy) as (n & Hn & ->). exists ((k + 2) ^ n).
  split; [reflexivity|]. exists n. auto.
Qed.

(** Finite samples of whole numbers: all triples of points are tried. *)
Definition general_grid (l l' : list Z) : bool :=
  let pairs := list_prod l l' in
  forallb (fun a => forallb (fun b => (fst a =? fst b) || (snd a =? snd b) ||
    forallb (fun c => negb ((fst b - fst a) * (snd c - snd a) =? (fst c - fst a) * (snd b - snd a))
      || ((fst c =? fst a) && (snd c =? snd a)) || ((fst c =? fst b) && (snd c =? snd b))) pairs) pairs) pairs.
Lemma sample_general xs ys l l' : integral xs (fun z => In z l) -> integral (ordinates xs ys) (fun z => In z l') ->
  general_grid l l' = true -> general_coordinates xs ys.
Proof.
  intros Hx Hy G a b c (Ax & Ay) (Bx & By) (Cx & Cy) Nab Nbc Nac L.
  destruct a as [ax ay], b as [bx by0], c as [cx cy]. cbn [px py] in *.
  destruct (Hx _ Ax) as (x1 & -> & X1), (Hx _ Bx) as (x2 & -> & X2), (Hx _ Cx) as (x3 & -> & X3).
  destruct (Hy _ Ay) as (y1 & -> & Y1), (Hy _ By) as (y2 & -> & Y2), (Hy _ Cy) as (y3 & -> & Y3).
  assert (N12 : x1 <> x2 \/ y1 <> y2) by (destruct (Z.eq_dec x1 x2), (Z.eq_dec y1 y2); auto; subst; contradiction Nab; reflexivity).
  assert (N23 : x2 <> x3 \/ y2 <> y3) by (destruct (Z.eq_dec x2 x3), (Z.eq_dec y2 y3); auto; subst; contradiction Nbc; reflexivity).
  assert (N13 : x1 <> x3 \/ y1 <> y3) by (destruct (Z.eq_dec x1 x3), (Z.eq_dec y1 y3); auto; subst; contradiction Nac; reflexivity).
  unfold collinear, cross in L. cbn [px py] in L. rewrite !Qc_of_Z_sub, !Qc_of_Z_mul, Qc_of_Z_sub in L. change (Q2Qc 0) with (Qc_of_Z 0) in L. apply Qc_of_Z_inj in L.
  enough (K : (x1 = x2 /\ x2 = x3) \/ (y1 = y2 /\ y2 = y3)) by (destruct K as [(-> & ->)|(-> & ->)]; auto).
  destruct (Z.eq_dec x1 x2) as [->|D12]; [left; nia|]. destruct (Z.eq_dec y1 y2) as [->|E12]; [right; nia|]. exfalso.
  unfold general_grid in G. rewrite forallb_forall in G. specialize (G (x1, y1) (proj2 (in_prod_iff _ _ _ _) (conj X1 Y1))).
  rewrite forallb_forall in G. specialize (G (x2, y2) (proj2 (in_prod_iff _ _ _ _) (conj X2 Y2))). cbn [fst snd] in G.
  rewrite (proj2 (Z.eqb_neq x1 x2) D12), (proj2 (Z.eqb_neq y1 y2) E12) in G. cbn [orb] in G. rewrite forallb_forall in G.
  specialize (G (x3, y3) (proj2 (in_prod_iff _ _ _ _) (conj X3 Y3))). cbn [fst snd] in G.
  rewrite (proj2 (Z.eqb_eq ((x2 - x1) * (y3 - y1)) ((x3 - x1) * (y2 - y1))) ltac:(lia)) in G. cbn [negb orb] in G.
  apply orb_true_iff in G. rewrite !andb_true_iff, !Z.eqb_eq in G. lia.
Qed.
