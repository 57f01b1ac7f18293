(** The boundary of a carved triangulation is a closed curve that does not meet itself, and it is
    listed counterclockwise. *)
From Coq Require Import List Lia Permutation.
From Verif Require Import Base Geometry Ctx Spec WindSpec QcTac QcFast GeomProofs ListProofs CycEdge SegmentProofs EdgeProofs CyclicProofs
  DelGeo DelCyc DelMap DelFan DelOps DelCand DelMerge DelStart DelHull DelCarve DelWind DelBorder DelRim Jordan.
Import ListNotations.
Open Scope Qc_scope.

(** Collinear edges without points inside do not overlap. *)
Lemma overlap_end a b c d p : btw p a b -> btw p c d -> cross a b c = 0 -> cross a b d = 0 ->
  (a = c /\ b = d) \/ (a = d /\ b = c) \/ btw a c d \/ btw b c d \/ btw c a b \/ btw d a b.
Proof.
  intros B B' Cc Cd. destruct (btw_neq _ _ _ B) as (n1 & n2 & n3).
  assert (L : forall x y, cross a b x = 0 -> cross a b y = 0 -> cross a x y = 0).
  { intros x y X Y. destruct (line_param a b x n3 X) as (s & s1 & s2). destruct (line_param a b y n3 Y) as (t & t1 & t2).
    unfold cross. rewrite s1, s2, t1, t2. ring. }
  assert (L' : forall x y z, cross a b x = 0 -> cross a b y = 0 -> cross a b z = 0 -> cross x y z = 0).
  { intros x y z X Y Z. destruct (line_param a b x n3 X) as (s & s1 & s2). destruct (line_param a b y n3 Y) as (t & t1 & t2). destruct (line_param a b z n3 Z) as (u & u1 & u2).
    unfold cross. rewrite s1, s2, t1, t2, u1, u2. ring. }
  set (g := ahead a b).
  assert (Inj : forall x y, cross a b x = 0 -> cross a b y = 0 -> g x = g y -> x = y).
  { intros x y X Y e. destruct (line_param a b x n3 X) as (s & s1 & s2). destruct (line_param a b y n3 Y) as (t & t1 & t2).
    unfold g in e. rewrite (ahead_param a b x s s1 s2), (ahead_param a b y t t1 t2) in e. pose proof (d2_pos a b n3) as D.
    assert (st : t - s = 0) by (apply (zero_of_mul (d2 a b)); [exact D|]; replace (d2 a b * (t - s)) with (t * d2 a b - s * d2 a b) by ring; ql).
    assert (t = s) by ql. subst t. apply point_ext; congruence. }
  assert (Ca : cross a b a = 0) by apply cross_aba. assert (Cb : cross a b b = 0) by apply cross_abb.
  assert (Bt : forall x y z, cross a b x = 0 -> cross a b y = 0 -> cross a b z = 0 -> g x < g y -> g y < g z -> btw y x z).
  { intros x y z X Y Z h1 h2. apply (psi_btw (px b - px a) (py b - py a)); auto. }
  assert (Bg : forall x y z, btw y x z -> (g x < g y /\ g y < g z) \/ (g z < g y /\ g y < g x) \/ (g x = g y /\ g y = g z)).
  { intros x y z H. destruct (btw_param _ _ _ H) as (t & t0 & t1 & X & Y). pose proof (psi_param (px b - px a) (py b - py a) _ _ _ _ X Y) as E.
    change (psi (px b - px a) (py b - py a)) with g in E.
    destruct (Qc_lt_eq_gt (g x) (g z)) as [h|[h|h]].
    - left. pose proof (mul_pos t (g z - g x) t0 ltac:(ql)). pose proof (mul_pos (1 - t) (g z - g x) ltac:(ql) ltac:(ql)) as M.
      assert (e : (1 - t) * (g z - g x) = g z - g x - t * (g z - g x)) by ring. split; ql.
    - right. right. assert (e : t * (g z - g x) = 0) by (rewrite h; ring). split; ql.
    - right. left. pose proof (mul_pos t (g x - g z) t0 ltac:(ql)) as M0. pose proof (mul_pos (1 - t) (g x - g z) ltac:(ql) ltac:(ql)) as M.
      assert (e : (1 - t) * (g x - g z) = g x - g z + t * (g z - g x)) by ring. assert (e0 : t * (g x - g z) = - (t * (g z - g x))) by ring. split; ql. }
  assert (Gab : g a < g b).
  { unfold g. rewrite (ahead_param a b b 1); [pose proof (d2_pos a b n3); assert (e : 1 * d2 a b = d2 a b) by ring; rewrite e; ql|ring|ring]. }
  destruct (Bg _ _ _ B) as [(h1 & h2)|[(h1 & h2)|(h1 & h2)]]; try (exfalso; ql).
  destruct (Bg _ _ _ B') as [(k1 & k2)|[(k1 & k2)|(k1 & k2)]].
  - destruct (Qc_lt_eq_gt (g a) (g c)) as [h|[h|h]].
    + right. right. right. right. left. apply Bt; auto. ql.
    + assert (a = c) by auto. destruct (Qc_lt_eq_gt (g b) (g d)) as [h'|[h'|h']].
      * right. right. right. left. apply Bt; auto. ql.
      * left. auto.
      * right. right. right. right. right. apply Bt; auto. ql.
    + right. right. left. apply Bt; auto. ql.
  - destruct (Qc_lt_eq_gt (g a) (g d)) as [h|[h|h]].
    + right. right. right. right. right. apply Bt; auto. ql.
    + assert (a = d) by auto. destruct (Qc_lt_eq_gt (g b) (g c)) as [h'|[h'|h']].
      * right. right. right. left. apply btw_sym. apply Bt; auto. ql.
      * right. left. auto.
      * right. right. right. right. left. apply Bt; auto. ql.
    + right. right. left. apply btw_sym. apply Bt; auto. ql.
  - exfalso. assert (e : c = d) by (apply Inj; auto; ql). destruct (btw_neq _ _ _ B') as (_ & _ & n). congruence.
Qed.
Lemma btw_cross p a b c d : btw p a b -> btw p c d -> cross a b c <> 0 -> crossing a b c d \/ crossing b a c d.
Proof.
  intros B B' N. destruct (btw_param _ _ _ B) as (t & t0 & t1 & X & Y). destruct (btw_param _ _ _ B') as (s & s0 & s1 & X' & Y').
  assert (Ep : (1 - s) * cross a b c + s * cross a b d = 0).
  { assert (e : (1 - s) * cross a b c + s * cross a b d = cross a b p) by (unfold cross; rewrite X', Y'; ring). rewrite e. apply B. }
  assert (Eq : (1 - t) * cross c d a + t * cross c d b = 0).
  { assert (e : (1 - t) * cross c d a + t * cross c d b = cross c d p) by (unfold cross; rewrite X, Y; ring). rewrite e. apply B'. }
  assert (Ed : cross a b c - cross a b d = cross c d b - cross c d a) by (unfold cross; ring).
  unfold crossing. rewrite !(cross_flip a b).
  destruct (Qc_lt_eq_gt 0 (cross a b c)) as [h|[h|h]]; [|congruence|].
  - left. pose proof (mul_pos (1 - s) _ ltac:(ql) h) as M. assert (D : cross a b d < 0).
    { apply Qcnot_le_lt. intros k. pose proof (mul_nonneg s _ ltac:(ql) k). ql. }
    split; [exact h|]. split; [exact D|]. assert (A : cross c d a < 0).
    { apply Qcnot_le_lt. intros k. pose proof (mul_nonneg (1 - t) _ ltac:(ql) k). pose proof (mul_pos t (cross c d b) t0 ltac:(ql)). ql. }
    split; [exact A|]. apply Qcnot_le_lt. intros k. pose proof (mul_neg (1 - t) _ ltac:(ql) A).
    pose proof (mul_nonneg t (- cross c d b) ltac:(ql) ltac:(ql)) as M'. assert (e : t * - cross c d b = - (t * cross c d b)) by ring. ql.
  - right. assert (h' : cross a b c < 0) by exact h. pose proof (mul_neg (1 - s) _ ltac:(ql) h') as M. assert (D : 0 < cross a b d).
    { apply Qcnot_le_lt. intros k. pose proof (mul_nonneg s (- cross a b d) ltac:(ql) ltac:(ql)) as M'. assert (e : s * - cross a b d = - (s * cross a b d)) by ring. ql. }
    split; [ql|]. split; [ql|]. assert (A : cross c d b < 0).
    { apply Qcnot_le_lt. intros k. pose proof (mul_nonneg t _ ltac:(ql) k). pose proof (mul_pos (1 - t) (cross c d a) ltac:(ql) ltac:(ql)). ql. }
    split; [exact A|]. apply Qcnot_le_lt. intros k. pose proof (mul_neg t _ ltac:(ql) A).
    pose proof (mul_nonneg (1 - t) (- cross c d a) ltac:(ql) ltac:(ql)) as M'. assert (e : (1 - t) * - cross c d a = - ((1 - t) * cross c d a)) by ring. ql.
Qed.
Lemma edges_meet S m a b c d p : laws S m -> me m a b -> me m c d -> inside p a b -> inside p c d -> (a = c /\ b = d) \/ (a = d /\ b = c).
Proof.
  intros W E E' I I'. apply inside_btw in I, I'.
  destruct (Qc_eq_dec (cross a b c) 0) as [z|n].
  - assert (z' : cross a b d = 0).
    { destruct (btw_param _ _ _ I') as (s & s0 & s1 & X' & Y').
      apply (zero_of_mul s); [exact s0|]. assert (e : (1 - s) * cross a b c + s * cross a b d = cross a b p) by (unfold cross; rewrite X', Y'; ring).
      destruct I as (I & _). rewrite z, I in e. rewrite <- e. ring. }
    assert (Ia := l_in _ _ W _ _ E). assert (Ib := l_in _ _ W _ _ (l_sym _ _ W _ _ E)). assert (Ic := l_in _ _ W _ _ E'). assert (Id := l_in _ _ W _ _ (l_sym _ _ W _ _ E')).
    destruct (overlap_end a b c d p I I' z z') as [h|[h|[h|[h|[h|h]]]]]; auto; exfalso.
    + apply (l_clean _ _ W c d a E' Ia h).
    + apply (l_clean _ _ W c d b E' Ib h).
    + apply (l_clean _ _ W a b c E Ic h).
    + apply (l_clean _ _ W a b d E Id h).
  - exfalso. destruct (btw_cross p a b c d I I' n) as [h|h].
    + apply (l_planar _ _ W a b c d E E' h).
    + apply (l_planar _ _ W b a c d (l_sym _ _ W _ _ E) E' h).
Qed.

Section J.
Context (S : list point) (m : map) (bd : point -> point -> Prop) (K : carved S m bd) (L : list point) (Cy : cycle bd L).
Let W := k_laws _ _ _ K.
Lemma cycle_three : (3 <= length L)%nat.
Proof.
  destruct Cy as (N & Len & C). destruct L as [|a [|b [|c l]]]; cbn [length] in *; try lia.
  exfalso. apply (k_two _ _ _ K a b); apply C; cbn; auto.
Qed.
Lemma cycle_jordan : jordan L.
Proof.
  apply jordan_ces. destruct Cy as (N & Len & C). split; [exact N|]. intros a b c d p H1 H2 D O1 O2.
  apply C in H1, H2. pose proof (k_bd _ _ _ K _ _ H1) as E1. pose proof (k_bd _ _ _ K _ _ H2) as E2.
  assert (Ia := l_in _ _ W _ _ E1). assert (Ib := l_in _ _ W _ _ (l_sym _ _ W _ _ E1)). assert (Ic := l_in _ _ W _ _ E2). assert (Id := l_in _ _ W _ _ (l_sym _ _ W _ _ E2)).
  destruct (on_segment_cases _ _ _ O1) as [e1|[e1|I1]]; destruct (on_segment_cases _ _ _ O2) as [e2|[e2|I2]]; auto.
  - exfalso. subst p. subst c. apply D. f_equal. apply (k_fun _ _ _ K a); auto.
  - exfalso. subst p. apply (l_clean _ _ W c d a E2 Ia (inside_btw _ _ _ I2)).
  - exfalso. subst p. subst d. apply D. f_equal. apply (bd_inj S m bd K a c b); auto.
  - exfalso. subst p. apply (l_clean _ _ W c d b E2 Ib (inside_btw _ _ _ I2)).
  - exfalso. subst p. apply (l_clean _ _ W a b c E1 Ic (inside_btw _ _ _ I1)).
  - exfalso. subst p. apply (l_clean _ _ W a b d E1 Id (inside_btw _ _ _ I1)).
  - exfalso. destruct (edges_meet S m a b c d p W E1 E2 I1 I2) as [(-> & ->)|(-> & ->)]; [congruence|]. apply (k_two _ _ _ K _ _ H1 H2).
Qed.

(** ** The area. *)
Lemma nodup_app_intro {A} (u v : list A) : NoDup u -> NoDup v -> (forall x, In x u -> In x v -> False) -> NoDup (u ++ v).
Proof.
  induction u as [|x u IH]; intros Nu Nv D; [exact Nv|]. apply NoDup_cons_iff in Nu. destruct Nu as (N1 & Nu). cbn [app]. constructor.
  - intros h. apply in_app_or in h. destruct h as [h|h]; [contradiction|]. apply (D x); [left; reflexivity|exact h].
  - apply IH; auto. intros y Hy. apply D. right. exact Hy.
Qed.
Definition isum (f : point * point -> Qc) (l : list (point * point)) : Qc := qsum (List.map f l).
Lemma isum_perm f l l' : Permutation l l' -> isum f l = isum f l'.
Proof.
  unfold isum, qsum. induction 1; cbn [List.map fold_right] in *; [reflexivity|congruence|ring|congruence].
Qed.
Lemma isum_app f l l' : isum f (l ++ l') = isum f l + isum f l'.
Proof. unfold isum, qsum. induction l as [|x l IH]; cbn [List.map fold_right app] in *; [ring|]. rewrite IH. ring. Qed.
Lemma isum_map f s l : isum f (List.map s l) = isum (fun x => f (s x)) l.
Proof. unfold isum. rewrite map_map. reflexivity. Qed.
Lemma isum_add f g l : isum (fun x => f x + g x) l = isum f l + isum g l.
Proof. unfold isum, qsum. induction l as [|x l IH]; cbn [List.map fold_right] in *; [ring|]. rewrite IH. ring. Qed.
Lemma isum_ext f g l : (forall x, In x l -> f x = g x) -> isum f l = isum g l.
Proof.
  unfold isum. intros H. f_equal. apply map_ext_in, H.
Qed.
Lemma isum_pos f l : (forall x, In x l -> 0 < f x) -> l <> [] -> 0 < isum f l.
Proof.
  unfold isum, qsum. intros H. induction l as [|x l IH]; intros N; [congruence|]. cbn [List.map fold_right].
  pose proof (H x (or_introl eq_refl)). destruct l as [|y l]; [cbn [List.map fold_right]; ql|].
  assert (0 < fold_right Qcplus 0 (List.map f (y :: l))); [apply IH; [intros z Hz; apply H; right; exact Hz|discriminate]|]. ql.
Qed.
Lemma perm_of_map {A} (s : A -> A) l : NoDup l -> (forall x, In x l -> In (s x) l) -> (forall x y, In x l -> In y l -> s x = s y -> x = y) -> Permutation (List.map s l) l.
Proof.
  intros N H1 H2. apply NoDup_Permutation_bis; [|rewrite map_length; lia|].
  - clear H1. induction l as [|x l IH]; [constructor|]. cbn [List.map]. apply NoDup_cons_iff in N. destruct N as (N1 & N). constructor.
    + intros I. apply in_map_iff in I. destruct I as (y & e & I). apply N1. rewrite (H2 x y); auto; [left; reflexivity|right; exact I].
    + apply IH; auto. intros y z Hy Hz. apply H2; right; assumption.
  - intros y Hy. apply in_map_iff in Hy. destruct Hy as (x & <- & Hx). apply H1, Hx.
Qed.
Lemma enum {A} (Q : A -> Prop) (l : list A) : NoDup l -> ~ ~ exists D, NoDup D /\ forall x, In x D <-> In x l /\ Q x.
Proof.
  induction l as [|a l IH]; intros N F.
  - apply F. exists []. split; [constructor|]. intros x. cbn. tauto.
  - apply NoDup_cons_iff in N. destruct N as (Na & N). apply (IH N). intros (D & ND & HD).
    assert (F' : ~ ~ (Q a \/ ~ Q a)) by tauto. apply F'. intros [Ha|Nq]; apply F.
    + exists (a :: D). split; [constructor; [intros h; apply HD in h; tauto|exact ND]|]. intros x. cbn [In]. rewrite HD.
      split; [intros [<- |h]; tauto|tauto].
    + exists D. split; [exact ND|]. intros x. rewrite HD. cbn [In]. split; [tauto|]. intros ([<- |h] & q); tauto.
Qed.

Definition face (x : point * point) : point * point := (snd x, mn m (fst x) (snd x)).
Definition inner (x : point * point) : Prop := me m (fst x) (snd x) /\ ~ bd (snd x) (fst x).
Lemma face_inner x : inner x -> inner (face x) /\ face (face (face x)) = x /\ 0 < cross (fst x) (snd x) (snd (face x)).
Proof.
  destruct x as (v & a). unfold inner, face. cbn [fst snd]. intros (E & Nb).
  destruct (k_corner _ _ _ K _ _ E) as [B|(t & t')]; [contradiction|]. set (b := mn m v a) in *.
  destruct (l_next _ _ W _ _ E) as (Eb & _). fold b in Eb.
  assert (e1 : mn m a b = v) by (apply (vtri_corner _ _ W); auto using (l_sym _ _ W); apply vacant_rot; exact t).
  assert (e2 : mn m b v = a) by (apply (vtri_corner _ _ W); auto using (l_sym _ _ W); apply vacant_rot, vacant_rot; exact t).
  split; [split; [exact t'|]|].
  - intros B. apply Nb. rewrite <- e1. apply (k_next _ _ _ K _ _ B).
  - rewrite e1, e2. split; [reflexivity|apply t].
Qed.
Lemma area_ces x l : doubled_area (x :: l) = isum (fun e => shoelace (fst e) (snd e)) (ces (x :: l)).
Proof.
  unfold isum.
  assert (P : Permutation (ces (x :: l)) (combine (last (x :: l) x :: x :: l) (x :: l))).
  { destruct (exists_last (l := x :: l) ltac:(discriminate)) as (l' & z & E). rewrite E.
    rewrite <- (ces_rot [z] l'). cbn [app].
    assert (El : last (l' ++ [z]) x = z) by apply last_last. rewrite El.
    assert (Ec : combine (z :: l' ++ [z]) (l' ++ [z]) = ces (z :: l')); [|rewrite Ec; reflexivity].
    cbn [ces]. clear. assert (G : forall (u v : list point) y, length u = length v -> combine (u ++ y) v = combine u v).
    { induction u as [|p u IH]; intros [|q v] y H; try discriminate; [destruct y; reflexivity|]. cbn [app combine]. rewrite IH; [reflexivity|]. injection H as H. exact H. }
    change (z :: l' ++ [z]) with ((z :: l') ++ [z]). apply G. rewrite app_length. cbn [length]. lia. }
  pose proof (isum_perm (fun e => shoelace (fst e) (snd e)) _ _ P) as H. unfold isum in H. rewrite H, psum_combine. apply area_psum.
Qed.
Lemma cycle_area : 0 < doubled_area L.
Proof.
  destruct (Qclt_le_dec 0 (doubled_area L)) as [h|h]; [exact h|exfalso].
  pose proof cycle_three as L3. destruct Cy as (N & Len & C).
  set (SS := nodup point_eq_dec S).
  assert (N2 : NoDup (list_prod SS SS)).
  { assert (G : forall (u v : list point), NoDup u -> NoDup v -> NoDup (list_prod u v)).
    { induction u as [|p u IH]; intros v Nu Nv; [constructor|]. apply NoDup_cons_iff in Nu. destruct Nu as (Nu1 & Nu). cbn [list_prod].
      apply nodup_app_intro.
      - apply FinFun.Injective_map_NoDup; [intros a b e; congruence|exact Nv].
      - apply IH; assumption.
      - intros (a & b) H1 H2. apply in_map_iff in H1. destruct H1 as (y & e & _). injection e as <- <-. apply in_prod_iff in H2. tauto. }
    apply G; apply NoDup_nodup. }
  assert (InS : forall v a, me m v a -> In (v, a) (list_prod SS SS)).
  { intros v a E. apply in_prod_iff. split; apply nodup_In; [apply (l_in _ _ W _ _ E)|apply (l_in _ _ W _ _ (l_sym _ _ W _ _ E))]. }
  apply (enum (fun x => inner x /\ ~ bd (fst x) (snd x)) _ N2). intros (D & ND & HD).
  set (f := fun e : point * point => shoelace (fst e) (snd e)).
  set (G := ces L ++ D).
  assert (HG : forall x, In x G <-> inner x).
  { intros (a & b). unfold G. rewrite in_app_iff, <- C, HD. cbn [fst snd]. split.
    - intros [B|(_ & H & _)]; [|exact H]. split; [apply (k_bd _ _ _ K _ _ B)|apply (k_two _ _ _ K _ _ B)].
    - intros H. destruct (existsb (fun e => point_eqb (fst e) a && point_eqb (snd e) b) (ces L)) eqn:E.
      + left. apply C. apply existsb_exists in E. destruct E as ((x & y) & E & e). cbn [fst snd] in e. apply andb_true_iff in e. destruct e as (e1 & e2).
        apply point_eqb_eq in e1, e2. subst x y. exact E.
      + right. split; [apply InS, H|]. split; [exact H|]. intros B. apply C in B. assert (X : existsb (fun e => point_eqb (fst e) a && point_eqb (snd e) b) (ces L) = true); [|congruence].
        apply existsb_exists. exists (a, b). split; [exact B|]. cbn [fst snd]. rewrite !(proj2 (point_eqb_eq _ _) eq_refl). reflexivity. }
  assert (NG : NoDup G).
  { apply nodup_app_intro; [apply ces_nodup, N|exact ND|]. intros (a & b) H1 H2. apply C in H1. apply HD in H2. apply (proj2 (proj2 H2)), H1. }
  assert (PF : Permutation (List.map face G) G).
  { apply perm_of_map; [exact NG| |].
    - intros x Hx. apply HG. apply face_inner, HG, Hx.
    - intros x y Hx Hy e. apply HG in Hx, Hy. destruct (face_inner x Hx) as (_ & <- & _). destruct (face_inner y Hy) as (_ & <- & _). rewrite e. reflexivity. }
  assert (PS : Permutation (List.map (fun x => (snd x, fst x)) D) D).
  { apply perm_of_map; [exact ND| |].
    - intros (a & b) Hx. apply HD in Hx. cbn [fst snd] in *. destruct Hx as (_ & (Hx1 & Hx2) & Hx3). cbn [fst snd] in *. apply HD. cbn [fst snd].
      split; [apply InS, (l_sym _ _ W), Hx1|]. split; [split; [apply (l_sym _ _ W), Hx1|exact Hx3]|exact Hx2].
    - intros (a & b) (c & d) _ _ e. cbn [fst snd] in e. congruence. }
  assert (SD : isum f D = 0).
  { pose proof (isum_perm f _ _ PS) as e. rewrite isum_map in e.
    assert (e' : isum (fun x => f (snd x, fst x) + f x) D = isum (fun _ => 0) D).
    { apply isum_ext. intros (a & b) _. unfold f, shoelace. cbn [fst snd]. ring. }
    rewrite isum_add, e in e'. assert (z : isum (fun _ => 0) D = 0).
    { clear. unfold isum, qsum. induction D as [|x D IH]; cbn [List.map fold_right]; [reflexivity|]. rewrite IH. ring. }
    rewrite z in e'. ql. }
  assert (SL : isum f (ces L) = doubled_area L).
  { destruct L as [|x l]; [cbn [length] in L3; lia|]. symmetry. apply area_ces. }
  assert (SG : isum f G <= 0) by (unfold G; rewrite isum_app, SD, SL; ql).
  assert (S1 : isum (fun x => f (face x)) G = isum f G) by (rewrite <- isum_map; apply isum_perm, PF).
  assert (S2 : isum (fun x => f (face (face x))) G = isum f G).
  { rewrite <- S1. rewrite <- (isum_map (fun x => f (face x)) face G). apply isum_perm, PF. }
  assert (Pos : 0 < isum (fun x => cross (fst x) (snd x) (snd (face x))) G).
  { apply isum_pos; [intros x Hx; apply face_inner, HG, Hx|]. unfold G. intros e. apply app_eq_nil in e. destruct e as (e & _).
    apply (f_equal (@length _)) in e. rewrite ces_length in e. cbn [length] in e. lia. }
  assert (S3 : isum (fun x => cross (fst x) (snd x) (snd (face x))) G = isum (fun x => f x + (f (face x) + f (face (face x)))) G).
  { apply isum_ext. intros x Hx. destruct (face_inner x ltac:(apply HG, Hx)) as (_ & e & _).
    assert (e3 : snd (face (face x)) = fst x) by (rewrite <- e at 2; reflexivity).
    assert (e4 : fst (face (face x)) = snd (face x)) by reflexivity. assert (e5 : fst (face x) = snd x) by reflexivity.
    unfold f. rewrite e3, e4, e5. unfold shoelace, cross. ring. }
  rewrite !isum_add, S1, S2 in S3. ql.
Qed.
End J.
