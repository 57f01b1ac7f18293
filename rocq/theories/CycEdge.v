(** The edges of a cyclic list of vertices as a list of pairs. *)
From Coq Require Import Lia Permutation.
From Verif Require Import Base Geometry Prog Spec QcTac ListProofs CyclicProofs.
Open Scope nat_scope.

Definition ces (l : contour) : list (point * point) :=
  match l with [] => [] | x :: l' => combine l (l' ++ [x]) end.

Lemma ces_fst l : map fst (ces l) = l.
Proof.
  destruct l as [|x l]; [reflexivity|]. cbn [ces].
  assert (K : forall (u v : list point), length u = length v -> map fst (combine u v) = u).
  { induction u as [|a u IH]; intros [|b v] H; try reflexivity; try discriminate. cbn in *. f_equal. apply IH. lia. }
  apply K. rewrite app_length. cbn. lia.
Qed.
Lemma ces_snd x l : map snd (ces (x :: l)) = l ++ [x].
Proof.
  cbn [ces].
  assert (K : forall (u v : list point), length u = length v -> map snd (combine u v) = v).
  { induction u as [|a u IH]; intros [|b v] H; try reflexivity; try discriminate. cbn in *. f_equal. apply IH. lia. }
  apply K. rewrite app_length. cbn. lia.
Qed.
Lemma ces_length l : length (ces l) = length l.
Proof. rewrite <- (map_length fst), ces_fst. reflexivity. Qed.
Lemma ces_nodup l : NoDup l -> NoDup (ces l).
Proof. intros H. apply (NoDup_map_inv fst). rewrite ces_fst. exact H. Qed.
Lemma ces_in l a b : In (a, b) (ces l) -> In a l /\ In b l.
Proof.
  intros H. split; [rewrite <- ces_fst; apply (in_map fst _ _ H)|]. destruct l as [|x l]; [destruct H|].
  apply (in_map snd) in H. rewrite ces_snd in H. cbn in H. apply in_app_or in H. destruct H as [H|[<- |[]]]; [right; exact H|left; reflexivity].
Qed.
Lemma ces_out l a : In a l -> exists b, In (a, b) (ces l).
Proof. intros H. rewrite <- ces_fst in H. apply in_map_iff in H. destruct H as ((x & b) & e & H). cbn in e. subst x. exists b. exact H. Qed.

Lemma combine_nth_error {A B} (u : list A) : forall (v : list B) a b, In (a, b) (combine u v) <-> exists i, nth_error u i = Some a /\ nth_error v i = Some b.
Proof.
  induction u as [|x u IH]; intros [|y v] a b; cbn [combine].
  - split; [intros []|intros ([|i] & H & _); discriminate].
  - split; [intros []|intros ([|i] & H & _); discriminate].
  - split; [intros []|intros ([|i] & _ & H); discriminate].
  - cbn [In]. rewrite IH. split.
    + intros [e|(i & H)]; [injection e as -> ->; exists 0; auto|exists (S i); exact H].
    + intros ([|i] & H1 & H2); cbn in *; [left; congruence|right; exists i; auto].
Qed.
Lemma ces_edge l a b : In (a, b) (ces l) <-> contour_edge l a b.
Proof.
  destruct l as [|x l]; [split; [intros []|intros ([|i] & H & _); discriminate]|].
  unfold contour_edge. cbn [ces]. rewrite combine_nth_error. cbn [length]. set (n := S (length l)).
  assert (K : forall i, i < n -> nth_error (l ++ [x]) i = nth_error (x :: l) (S i mod n)).
  { intros i Hi. unfold n in *. destruct (Nat.eq_dec i (length l)) as [-> |Ne].
    - rewrite nth_error_app2 by lia. rewrite Nat.sub_diag, Nat.mod_same by lia. reflexivity.
    - rewrite nth_error_app1 by lia. rewrite Nat.mod_small by lia. reflexivity. }
  split; intros (i & H1 & H2); exists i; (split; [exact H1|]);
    assert (Hi : i < n) by (unfold n; change (S (length l)) with (length (x :: l)); apply nth_error_Some; congruence).
  - rewrite <- K; assumption.
  - rewrite K; assumption.
Qed.

Lemma ces_rot1 x l : Permutation (ces (x :: l)) (ces (l ++ [x])).
Proof.
  destruct l as [|y l]; [reflexivity|]. cbn [ces app].
  assert (K : forall (u v : list point) a b, length u = length v -> combine (u ++ [a]) (v ++ [b]) = combine u v ++ [(a, b)]).
  { induction u as [|p u IH]; intros [|q v] a b H; try reflexivity; try discriminate. cbn in *. f_equal. apply IH. lia. }
  change (y :: l ++ [x]) with ((y :: l) ++ [x]) at 2.
  rewrite (K (y :: l) (l ++ [x])) by (rewrite app_length; cbn; lia). cbn [combine]. apply Permutation_cons_append.
Qed.
Lemma ces_rot l m : Permutation (ces (l ++ m)) (ces (m ++ l)).
Proof.
  revert m. induction l as [|x l IH]; intros m; [rewrite app_nil_r; reflexivity|].
  cbn [app]. rewrite ces_rot1, <- app_assoc. rewrite IH. rewrite <- app_assoc. reflexivity.
Qed.
(** A rotation that starts with a given edge. *)
Lemma ces_start l a b : In (a, b) (ces l) -> a <> b -> exists l', Permutation (a :: b :: l') l /\ Permutation (ces (a :: b :: l')) (ces l).
Proof.
  intros H n. destruct (ces_in _ _ _ H) as (Ha & _). rewrite ces_edge in H. destruct H as (i & H1 & H2).
  destruct (nth_error_split _ _ H1) as (l1 & l2 & E & Ei).
  assert (P : Permutation (ces (a :: l2 ++ l1)) (ces l)) by (rewrite E; change (a :: l2 ++ l1) with ((a :: l2) ++ l1); apply ces_rot).
  assert (P0 : Permutation (a :: l2 ++ l1) l) by (rewrite E; change (a :: l2 ++ l1) with ((a :: l2) ++ l1); apply Permutation_app_comm).
  destruct (l2 ++ l1) as [|c w] eqn:Ew.
  - apply app_eq_nil in Ew. destruct Ew as (-> & ->). subst l. cbn in *. subst i. congruence.
  - exists w. assert (c = b); [|subst c; auto].
    assert (Hi : S i <= length l) by (apply nth_error_Some; congruence).
    destruct l2 as [|d l2]; cbn [app] in Ew.
    + rewrite E, app_length in H2. cbn [length] in H2. replace (length l1 + 1) with (S i) in H2 by lia. rewrite Nat.mod_same in H2 by lia.
      subst l1. cbn in H2. congruence.
    + injection Ew as <- _. rewrite Nat.mod_small in H2 by (rewrite E, app_length; cbn; lia).
      rewrite E, nth_error_app2 in H2 by lia. replace (S i - length l1) with 1 in H2 by lia. cbn in H2. congruence.
Qed.
Lemma ces_cons2 a b l : ces (a :: b :: l) = (a, b) :: combine (b :: l) (l ++ [a]).
Proof. reflexivity. Qed.
Lemma ces_cons3 a b c l : ces (a :: b :: c :: l) = (a, b) :: (b, c) :: combine (c :: l) (l ++ [a]).
Proof. reflexivity. Qed.
(** Leaving out a vertex. *)
Lemma ces_drop l1 b l2 a c w : l2 ++ l1 = c :: w -> last (l2 ++ l1) c = a -> w <> [] ->
  exists l, Permutation (ces (l1 ++ b :: l2)) (ces (a :: b :: c :: l)) /\ Permutation (ces (l1 ++ l2)) (ces (a :: c :: l))
    /\ Permutation (l1 ++ b :: l2) (a :: b :: c :: l) /\ Permutation (l1 ++ l2) (a :: c :: l).
Proof.
  intros E La Hw. destruct (exists_last Hw) as (l & a' & ->).
  assert (a' = a) by (rewrite <- La, E; change (c :: l ++ [a']) with ((c :: l) ++ [a']); rewrite last_last; reflexivity). subst a'.
  assert (E2 : (b :: l2) ++ l1 = (b :: c :: l) ++ [a]) by (cbn [app]; rewrite E; reflexivity).
  assert (E1 : l2 ++ l1 = (c :: l) ++ [a]) by exact E.
  exists l. repeat split.
  - rewrite ces_rot, E2. symmetry. apply ces_rot1.
  - rewrite ces_rot, E1. symmetry. apply ces_rot1.
  - rewrite Permutation_app_comm, E2. symmetry. apply (Permutation_cons_append (b :: c :: l) a).
  - rewrite Permutation_app_comm, E1. symmetry. apply (Permutation_cons_append (c :: l) a).
Qed.

(** A vertex has one successor and one predecessor. *)
Lemma in_fst_inj {A B} (l : list (A * B)) a b b' : NoDup (map fst l) -> In (a, b) l -> In (a, b') l -> b = b'.
Proof.
  induction l as [|(x, y) l IH]; intros N H H'; [destruct H|]. cbn [map fst] in N. apply NoDup_cons_iff in N. destruct N as (N1 & N2).
  destruct H as [e|H]; destruct H' as [e'|H'].
  - congruence.
  - injection e as -> ->. destruct N1. apply (in_map fst _ _ H').
  - injection e' as -> ->. destruct N1. apply (in_map fst _ _ H).
  - apply IH; assumption.
Qed.
Lemma ces_fun l a b b' : NoDup l -> In (a, b) (ces l) -> In (a, b') (ces l) -> b = b'.
Proof. intros N. apply in_fst_inj. rewrite ces_fst. exact N. Qed.
(** A property that passes along the edges holds everywhere or nowhere. *)
Lemma ces_closed (Q : point -> Prop) l a b : (forall x y, In (x, y) (ces l) -> Q x -> Q y) -> In a l -> Q a -> In b l -> Q b.
Proof.
  intros C Ha Qa Hb. apply In_nth_error in Ha. destruct Ha as (i & Hi). destruct (nth_error_split _ _ Hi) as (l1 & l2 & E & _).
  assert (C' : forall x y, In (x, y) (ces (a :: l2 ++ l1)) -> Q x -> Q y).
  { intros x y H. apply C. rewrite E. eapply Permutation_in; [|exact H]. change (a :: l2 ++ l1) with ((a :: l2) ++ l1). apply ces_rot. }
  assert (Hb' : In b (a :: l2 ++ l1)).
  { rewrite E in Hb. eapply Permutation_in; [|exact Hb]. change (a :: l2 ++ l1) with ((a :: l2) ++ l1). apply Permutation_app_comm. }
  clear Hi E Hb i C. remember (l2 ++ l1) as w eqn:Ew. clear Ew l1 l2 l.
  assert (K : forall (u : list point) x, Q x -> (forall p q, In (p, q) (combine (x :: u) (u ++ [a])) -> Q p -> Q q) -> forall z, In z u -> Q z).
  { induction u as [|y u IH]; intros x Qx H z Hz; [destruct Hz|]. cbn [app combine] in H.
    assert (Qy : Q y) by (apply (H x y); [left; reflexivity|exact Qx]). destruct Hz as [<- |Hz]; [exact Qy|].
    apply (IH y Qy); [|exact Hz]. intros p q Hpq. apply H. right. exact Hpq. }
  destruct Hb' as [<- |Hb']; [exact Qa|]. apply (K w a Qa); [|exact Hb']. intros p q Hpq. apply (C' p q). exact Hpq.
Qed.
