(** Sorting, slicing and [mapM]. *)
From Verif Require Import Base Factories ProgProofs.
From Coq Require Import Sorting.Sorted Relations.

Section Sort.
  Context {A : Type} (leb : A -> A -> bool).
  Lemma insert_perm x l : Permutation (x :: l) (insert leb x l).
  Proof.
    induction l as [|y l IH]; cbn; [reflexivity|]. destruct (leb x y); [reflexivity|].
    rewrite perm_swap. constructor. exact IH.
  Qed.
  Lemma isort_perm l : Permutation l (isort leb l).
  Proof.
    induction l as [|x l IH]; cbn; [reflexivity|]. rewrite <- insert_perm. constructor. exact IH.
  Qed.
  Lemma isort_in l x : In x (isort leb l) <-> In x l.
  Proof.
    split; apply Permutation_in; [symmetry|]; apply isort_perm.
  Qed.
  Lemma isort_length l : length (isort leb l) = length l.
  Proof. symmetry. apply Permutation_length, isort_perm. Qed.
  Lemma isort_nodup l : NoDup l -> NoDup (isort leb l).
  Proof. apply Permutation_NoDup, isort_perm. Qed.

  Context (total : forall x y, leb x y = true \/ leb y x = true)
          (trans : forall x y z, leb x y = true -> leb y z = true -> leb x z = true).
  Definition le x y := leb x y = true.
  Lemma insert_sorted x l : StronglySorted le l -> StronglySorted le (insert leb x l).
  Proof.
    induction l as [|y l IH]; intros H; cbn; [repeat constructor|].
    inversion H as [|? ? Hs Hf]; subst. destruct (leb x y) eqn:E.
    - constructor; [exact H|]. constructor; [exact E|].
      eapply Forall_impl; [|exact Hf]. intros z Hz. eapply trans; eassumption.
    - constructor; [apply IH, Hs|].
      apply (Permutation_Forall (insert_perm x l)). constructor; [|exact Hf].
      destruct (total x y); [congruence|assumption].
  Qed.
  Lemma isort_sorted l : StronglySorted le (isort leb l).
  Proof. induction l as [|x l IH]; cbn; [constructor|]. apply insert_sorted, IH. Qed.
End Sort.

Lemma mapM_ok {A B} (f : A -> res B) l l' :
  mapM f l = Ok l' <-> Forall2 (fun x y => f x = Ok y) l l'.
Proof.
  revert l'. induction l as [|x l IH]; intros l'; cbn.
  - split; [intros H; injection H as <-; constructor | intros H; inversion H; reflexivity].
  - split.
    + intros H. destruct (f x) as [y|] eqn:E; [|discriminate]. cbn in H.
      destruct (mapM f l) as [ys|] eqn:E2; [|discriminate]. cbn in H. injection H as <-.
      constructor; [exact E|]. apply IH. reflexivity.
    + intros H. inversion H as [|? y ? ys Hy Hys]; subst. rewrite Hy. cbn.
      apply IH in Hys. rewrite Hys. reflexivity.
Qed.
Lemma mapM_raise {A B} (f : A -> res B) l e :
  mapM f l = Raise e -> exists x, In x l /\ f x = Raise e.
Proof.
  induction l as [|x l IH]; cbn; [discriminate|]. destruct (f x) as [y|] eqn:E; cbn.
  - destruct (mapM f l) as [ys|e'] eqn:E2; cbn; [discriminate|]. intros H; injection H as ->.
    destruct (IH eq_refl) as (z & Hz & Hz'). exists z. auto.
  - intros H; injection H as ->. exists x. auto.
Qed.
Lemma mapM_total {A B} (f : A -> res B) (g : A -> B) l :
  (forall x, In x l -> f x = Ok (g x)) -> mapM f l = Ok (map g l).
Proof.
  intros H. apply mapM_ok. induction l as [|x l IH]; cbn; constructor.
  - apply H. left; reflexivity.
  - apply IH. intros y Hy. apply H. right; exact Hy.
Qed.

Lemma length_lenZ {A} (l : list A) : Z.to_nat (lenZ l) = length l.
Proof. unfold lenZ. lia. Qed.
Lemma py_get_nth {A} (l : list A) (i : Z) : (0 <= i < lenZ l)%Z -> py_get l i = nth_error l (Z.to_nat i).
Proof.
  intros H. unfold py_get, py_index. unfold lenZ in H.
  replace (0 <=? i)%Z with true by lia. replace (i <? Z.of_nat (length l))%Z with true by lia. reflexivity.
Qed.
Lemma NoDup_map_inj {A B} (f : A -> B) l :
  (forall x y, In x l -> In y l -> f x = f y -> x = y) -> NoDup l -> NoDup (map f l).
Proof.
  intros H Hd. induction Hd as [|x l Hx Hd IH]; cbn; constructor.
  - intros Hin. apply in_map_iff in Hin. destruct Hin as (y & E & Hy).
    apply H in E; [subst; contradiction | right; exact Hy | left; reflexivity].
  - apply IH. intros y z Hy Hz. apply H; right; assumption.
Qed.
From Verif Require Import Spec.
Lemma subsequence_refl {A} (l : list A) : subsequence l l.
Proof. induction l; constructor; assumption. Qed.
