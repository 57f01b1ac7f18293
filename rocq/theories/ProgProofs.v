(** Proofs about Prog.v: how the outcomes of a strategy are composed. *)
From Verif Require Import Base Prog Geometry Spec.
From Coq Require Import Sorting.Sorted.

Lemma may_bind {A B} (m : prog A) (f : A -> prog B) (o : outcome B) :
  may (bind m f) o <->
  (exists a, may m (Val a) /\ may (f a) o)
  \/ (exists e, o = Exn e /\ may m (Exn e))
  \/ (o = Rej /\ may m Rej).
Proof.
  induction m as [a|e| |lo hi k IH]; cbn [bind].
  - split.
    + intros H. left. exists a. split; [constructor | exact H].
    + intros [(a' & H1 & H2)|[(e & He & H)|(Ho & H)]]; inversion H1 || inversion H; subst; assumption.
  - split.
    + intros H. inversion H; subst. right; left. exists e. split; [reflexivity|constructor].
    + intros [(a' & H1 & H2)|[(e' & He & H)|(Ho & H)]]; [inversion H1|inversion H; subst; constructor|inversion H].
  - split.
    + intros H. inversion H; subst. right; right. split; [reflexivity|constructor].
    + intros [(a' & H1 & H2)|[(e' & He & H)|(Ho & H)]]; [inversion H1|inversion H|subst; constructor].
  - split.
    + intros H. inversion H as [| | |lo' hi' k' z o' Hr Hk]; subst.
      apply IH in Hk. destruct Hk as [(a & H1 & H2)|[(e & He & H1)|(Ho & H1)]].
      * left. exists a. split; [econstructor; eassumption | assumption].
      * right; left. exists e. split; [assumption | econstructor; eassumption].
      * right; right. split; [assumption | econstructor; eassumption].
    + intros [(a & H1 & H2)|[(e & He & H1)|(Ho & H1)]];
        inversion H1 as [| | |lo' hi' k' z o' Hr Hk]; subst;
        apply (may_choose lo hi _ z); auto; apply IH; eauto 8.
Qed.

Lemma gen_bind {A B} (m : prog A) (f : A -> prog B) (b : B) :
  generates (bind m f) b <-> exists a, generates m a /\ generates (f a) b.
Proof.
  unfold generates. rewrite may_bind. split.
  - intros [H|[(e & He & _)|(He & _)]]; [assumption|discriminate|discriminate].
  - intros H; left; exact H.
Qed.

Lemma raise_bind {A B} (m : prog A) (f : A -> prog B) (e : exn) :
  can_raise (bind m f) e <-> can_raise m e \/ exists a, generates m a /\ can_raise (f a) e.
Proof.
  unfold can_raise, generates. rewrite may_bind. split.
  - intros [H|[(e' & He & H)|(He & _)]]; [right; exact H | injection He as ->; left; exact H | discriminate].
  - intros [H|H]; [right; left; eauto | left; exact H].
Qed.

Lemma gen_ret {A} (a b : A) : generates (Ret a) b <-> b = a.
Proof. split; [intros H; inversion H; reflexivity | intros ->; constructor]. Qed.
Lemma raise_ret {A} (a : A) e : can_raise (Ret a) e <-> False.
Proof. split; [intros H; inversion H | tauto]. Qed.
Lemma gen_fail {A} e (b : A) : generates (Fail e) b <-> False.
Proof. split; [intros H; inversion H | tauto]. Qed.
Lemma raise_fail {A} e e' : can_raise (A := A) (Fail e) e' <-> e' = e.
Proof. split; [intros H; inversion H; reflexivity | intros ->; constructor]. Qed.
Lemma gen_reject {A} (b : A) : generates Reject b <-> False.
Proof. split; [intros H; inversion H | tauto]. Qed.
Lemma raise_reject {A} e : can_raise (A := A) Reject e <-> False.
Proof. split; [intros H; inversion H | tauto]. Qed.
Lemma gen_choose {A} lo hi (k : Z -> prog A) b :
  generates (Choose lo hi k) b <-> exists z, in_range lo hi z /\ generates (k z) b.
Proof.
  split.
  - intros H; inversion H; subst; eauto.
  - intros (z & Hr & H); econstructor; eauto.
Qed.
Lemma raise_choose {A} lo hi (k : Z -> prog A) e :
  can_raise (Choose lo hi k) e <-> exists z, in_range lo hi z /\ can_raise (k z) e.
Proof.
  split.
  - intros H; inversion H; subst; eauto.
  - intros (z & Hr & H); econstructor; eauto.
Qed.

Lemma gen_lift {A} (r : res A) b : generates (lift r) b <-> r = Ok b.
Proof.
  destruct r as [a|e]; cbn [lift].
  - rewrite gen_ret. split; congruence.
  - rewrite gen_fail. split; [tauto | discriminate].
Qed.
Lemma raise_lift {A} (r : res A) e : can_raise (lift r) e <-> r = Raise e.
Proof.
  destruct r as [a|e']; cbn [lift].
  - rewrite raise_ret. split; [tauto | discriminate].
  - rewrite raise_fail. split; congruence.
Qed.
Lemma gen_pmap {A B} (f : A -> B) m b : generates (pmap f m) b <-> exists a, generates m a /\ b = f a.
Proof. unfold pmap. rewrite gen_bind. setoid_rewrite gen_ret. reflexivity. Qed.
Lemma raise_pmap {A B} (f : A -> B) m e : can_raise (pmap f m) e <-> can_raise m e.
Proof. unfold pmap. rewrite raise_bind. setoid_rewrite raise_ret. firstorder. Qed.
Lemma gen_pfilter {A} (f : A -> bool) m a : generates (pfilter f m) a <-> generates m a /\ f a = true.
Proof.
  unfold pfilter. rewrite gen_bind. split.
  - intros (a' & H1 & H2). destruct (f a') eqn:E.
    + apply gen_ret in H2. subst. auto.
    + apply gen_reject in H2. tauto.
  - intros (H1 & H2). exists a. rewrite H2. split; [assumption | constructor].
Qed.
Lemma raise_pfilter {A} (f : A -> bool) m e : can_raise (pfilter f m) e <-> can_raise m e.
Proof.
  unfold pfilter. rewrite raise_bind. split; [|tauto].
  intros [H|(a & H1 & H2)]; [exact H|]. destruct (f a); inversion H2.
Qed.
Lemma gen_pfilter_res {A} (f : A -> res bool) m a :
  generates (pfilter_res f m) a <-> generates m a /\ f a = Ok true.
Proof.
  unfold pfilter_res. rewrite gen_bind. split.
  - intros (a' & H1 & H2). destruct (f a') as [[|]|e] eqn:E.
    + apply gen_ret in H2. subst. auto.
    + apply gen_reject in H2. tauto.
    + apply gen_fail in H2. tauto.
  - intros (H1 & H2). exists a. rewrite H2. split; [assumption | constructor].
Qed.
Lemma raise_pfilter_res {A} (f : A -> res bool) m e :
  can_raise (pfilter_res f m) e <-> can_raise m e \/ exists a, generates m a /\ f a = Raise e.
Proof.
  unfold pfilter_res. rewrite raise_bind. split; (intros [H|(a & H1 & H2)]; [tauto|right; exists a; split; [assumption|]]).
  - destruct (f a) as [[|]|e']; inversion H2; reflexivity.
  - rewrite H2. constructor.
Qed.
Lemma gen_alt {A} (p q : prog A) a : generates (alt p q) a <-> generates p a \/ generates q a.
Proof.
  unfold alt. rewrite gen_choose. split.
  - intros (z & _ & H). destruct (z =? 0)%Z; auto.
  - intros [H|H]; [exists 0%Z | exists 1%Z]; (split; [split; lia | exact H]).
Qed.
Lemma raise_alt {A} (p q : prog A) e : can_raise (alt p q) e <-> can_raise p e \/ can_raise q e.
Proof.
  unfold alt. rewrite raise_choose. split.
  - intros (z & _ & H). destruct (z =? 0)%Z; auto.
  - intros [H|H]; [exists 0%Z | exists 1%Z]; (split; [split; lia | exact H]).
Qed.

Lemma gen_integers lo hi z : generates (integers lo hi) z <-> in_range lo hi z.
Proof.
  unfold integers, in_range. destruct hi as [h|].
  - destruct (Z.ltb_spec h lo).
    + rewrite gen_fail. lia.
    + rewrite gen_choose. setoid_rewrite gen_ret. unfold in_range.
      split; [intros (z' & H1 & ->); exact H1 | intros H1; eauto].
  - rewrite gen_choose. setoid_rewrite gen_ret. unfold in_range.
    split; [intros (z' & H1 & ->); exact H1 | intros H1; eauto].
Qed.
Lemma raise_integers lo hi e :
  can_raise (integers lo hi) e <-> e = InvalidArgument /\ exists h, hi = Some h /\ (h < lo)%Z.
Proof.
  unfold integers. destruct hi as [h|].
  - destruct (Z.ltb_spec h lo).
    + rewrite raise_fail. split; [intros ->; eauto | tauto].
    + rewrite raise_choose. setoid_rewrite raise_ret. split; [intros (z & _ & []) |].
      intros (_ & h' & Hh & Hlt). injection Hh as ->. lia.
  - rewrite raise_choose. setoid_rewrite raise_ret. split; [intros (z & _ & []) |].
    intros (_ & h' & Hh & _). discriminate.
Qed.

Lemma gen_sampled_from {A} (l : list A) a : generates (sampled_from l) a <-> In a l.
Proof.
  destruct l as [|x l]; cbn [sampled_from].
  - rewrite gen_fail. reflexivity.
  - rewrite gen_choose. setoid_rewrite gen_ret. split.
    + intros (z & (H1 & H2) & ->). apply nth_In. unfold lenZ in H2. lia.
    + intros H. apply (In_nth _ _ x) in H. destruct H as (n & Hn & <-).
      exists (Z.of_nat n). rewrite Nat2Z.id. split; [|reflexivity].
      unfold in_range, lenZ. lia.
Qed.
Lemma raise_sampled_from {A} (l : list A) e :
  can_raise (sampled_from l) e <-> e = InvalidArgument /\ l = [].
Proof.
  destruct l as [|x l]; cbn [sampled_from].
  - rewrite raise_fail. tauto.
  - rewrite raise_choose. setoid_rewrite raise_ret. split; [intros (z & _ & [])|intros (_ & H); discriminate].
Qed.

Lemma gen_draw_n {A} n (p : prog A) l :
  generates (draw_n n p) l <-> length l = n /\ forall x, In x l -> generates p x.
Proof.
  revert l. induction n as [|n IH]; intros l; cbn [draw_n].
  - rewrite gen_ret. split; [intros ->; split; [reflexivity|intros x []] |].
    intros (H & _). destruct l; [reflexivity|discriminate].
  - rewrite gen_bind. setoid_rewrite gen_bind. setoid_rewrite gen_ret. split.
    + intros (a & Ha & l' & Hl & ->). apply IH in Hl. destruct Hl as (Hn & Hl).
      split; [cbn; congruence|]. intros x [->|Hx]; auto.
    + intros (Hn & Hl). destruct l as [|a l]; [discriminate|].
      exists a. split; [apply Hl; left; reflexivity|]. exists l. split; [|reflexivity].
      apply IH. split; [cbn in Hn; lia|]. intros x Hx. apply Hl. right; exact Hx.
Qed.
Lemma raise_draw_n {A} n (p : prog A) e : can_raise (draw_n n p) e -> can_raise p e.
Proof.
  induction n as [|n IH]; cbn [draw_n].
  - rewrite raise_ret. tauto.
  - rewrite raise_bind. setoid_rewrite raise_bind. setoid_rewrite raise_ret.
    intros [H|(a & _ & [H|(l & _ & [])])]; auto.
Qed.
Lemma gen_sequence {A} (ps : list (prog A)) l :
  generates (sequence ps) l <-> Forall2 generates ps l.
Proof.
  revert l. induction ps as [|p ps IH]; intros l; cbn [sequence].
  - rewrite gen_ret. split; [intros ->; constructor | intros H; inversion H; reflexivity].
  - rewrite gen_bind. setoid_rewrite gen_bind. setoid_rewrite gen_ret. split.
    + intros (a & Ha & l' & Hl & ->). constructor; [assumption|apply IH; assumption].
    + intros H; inversion H; subst. eexists; split; [eassumption|]. eexists; split; [|reflexivity].
      apply IH; assumption.
Qed.
Lemma raise_sequence {A} (ps : list (prog A)) e :
  can_raise (sequence ps) e -> exists p, In p ps /\ can_raise p e.
Proof.
  induction ps as [|p ps IH]; cbn [sequence].
  - rewrite raise_ret. tauto.
  - rewrite raise_bind. setoid_rewrite raise_bind. setoid_rewrite raise_ret.
    intros [H|(a & _ & [H|(l & _ & [])])]; [exists p; split; [left; reflexivity|exact H]|].
    destruct (IH H) as (q & Hq & Hr). exists q. split; [right; exact Hq|exact Hr].
Qed.

Lemma in_range_size lo hi z : in_range lo hi z <-> size_ok z lo hi.
Proof.
  unfold in_range, size_ok. destruct hi as [h|].
  - split; intros (H1 & H2); (split; [exact H1|]); [intros m E; injection E as <-; exact H2 | apply H2; reflexivity].
  - split; intros (H1 & H2); (split; [exact H1|]); [intros m E; discriminate | exact I].
Qed.

Lemma gen_lists {A} (p : prog A) mn mx l :
  generates (lists p mn mx) l <->
  (0 <= mn)%Z /\ size_ok (lenZ l) mn mx /\ (forall x, In x l -> generates p x).
Proof.
  unfold lists. destruct ((mn <? 0) || match mx with None => false | Some m => m <? mn end)%Z%bool eqn:E.
  - rewrite gen_fail. split; [tauto|]. intros (H0 & H1 & _). apply orb_true_iff in E.
    destruct E as [E|E]; [apply Z.ltb_lt in E; lia|]. destruct H1 as (H1 & H2).
    destruct mx as [m|]; [|discriminate]. apply Z.ltb_lt in E. specialize (H2 m eq_refl). lia.
  - apply orb_false_iff in E. destruct E as (E & _). apply Z.ltb_ge in E.
    rewrite gen_choose. setoid_rewrite gen_draw_n. setoid_rewrite in_range_size. split.
    + intros (z & Hz & Hl & Hx). split; [exact E|]. split; [|exact Hx].
      unfold lenZ. rewrite Hl. rewrite Z2Nat.id; [exact Hz|]. destruct Hz; lia.
    + intros (_ & Hs & Hx). exists (lenZ l). split; [exact Hs|]. split; [unfold lenZ; lia|exact Hx].
Qed.
Lemma raise_lists {A} (p : prog A) mn mx e :
  can_raise (lists p mn mx) e ->
  (e = InvalidArgument /\ ((mn < 0)%Z \/ exists m, mx = Some m /\ (m < mn)%Z)) \/ can_raise p e.
Proof.
  unfold lists. destruct ((mn <? 0) || match mx with None => false | Some m => m <? mn end)%Z%bool eqn:E.
  - rewrite raise_fail. intros ->. left. split; [reflexivity|]. apply orb_true_iff in E.
    destruct E as [E|E]; [left; apply Z.ltb_lt in E; exact E|].
    destruct mx as [m|]; [|discriminate]. right. exists m. apply Z.ltb_lt in E. auto.
  - rewrite raise_choose. intros (z & _ & H). right. eapply raise_draw_n; eassumption.
Qed.

Section Nodupb.
  Context {A : Type} (eqb : A -> A -> bool) (Heqb : forall x y, eqb x y = true <-> x = y).
  Lemma nodupb_spec l : nodupb eqb l = true <-> NoDup l.
  Proof.
    induction l as [|x l IH]; cbn [nodupb].
    - split; [constructor | reflexivity].
    - rewrite andb_true_iff, IH, negb_true_iff. split.
      + intros (H1 & H2). constructor; [|assumption]. intros Hin.
        assert (existsb (eqb x) l = true) as Hx by (apply existsb_exists; exists x; split; [assumption|apply Heqb; reflexivity]).
        congruence.
      + intros H; inversion H; subst. split; [|assumption].
        destruct (existsb (eqb x) l) eqn:E; [|reflexivity].
        apply existsb_exists in E. destruct E as (y & Hy & Ey). apply Heqb in Ey. subst. contradiction.
  Qed.
End Nodupb.

Lemma qeqb_eq x y : qeqb x y = true <-> x = y.
Proof.
  unfold qeqb. destruct (x ?= y)%Qc eqn:E; split; intros H; try discriminate; try reflexivity.
  - apply Qceq_alt in E. exact E.
  - subst. assert ((y ?= y)%Qc = Eq) by (apply Qceq_alt; reflexivity). congruence.
  - subst. assert ((y ?= y)%Qc = Eq) by (apply Qceq_alt; reflexivity). congruence.
Qed.

Lemma gen_unique_lists {A} (eqb : A -> A -> bool) (Heqb : forall x y, eqb x y = true <-> x = y)
  (p : prog A) mn mx l :
  generates (unique_lists eqb p mn mx) l <->
  NoDup l /\ (0 <= mn)%Z /\ size_ok (lenZ l) mn mx /\ (forall x, In x l -> generates p x).
Proof.
  unfold unique_lists. rewrite gen_pfilter, gen_lists, (nodupb_spec eqb Heqb). tauto.
Qed.

Lemma NoDup_incl_lenZ {A} (l l' : list A) : NoDup l -> incl l l' -> (lenZ l <= lenZ l')%Z.
Proof. intros H1 H2. unfold lenZ. apply inj_le. apply NoDup_incl_length; assumption. Qed.

Lemma gen_unique_scalars s mn mx l :
  generates (unique_scalars s mn mx) l <->
  NoDup l /\ (0 <= mn)%Z /\ size_ok (lenZ l) mn mx /\ (forall x, In x l -> generates (draw_scalar s) x).
Proof.
  destruct s as [p|xs]; cbn [unique_scalars draw_scalar].
  - apply gen_unique_lists. apply qeqb_eq.
  - assert (Hinc : NoDup l -> (forall x, In x l -> generates (sampled_from xs) x) -> (lenZ l <= lenZ xs)%Z).
    { intros Hd Hx. apply NoDup_incl_lenZ; [exact Hd|]. intros x Hin. apply gen_sampled_from, Hx, Hin. }
    destruct (Z.ltb_spec (lenZ xs) mn) as [Hlt|Hge].
    + rewrite gen_fail. split; [tauto|]. intros (Hd & _ & (Hs & _) & Hx). specialize (Hinc Hd Hx). lia.
    + rewrite (gen_unique_lists _ qeqb_eq). unfold size_ok. split.
      * intros (Hd & H0 & (Hs1 & Hs2) & Hx). repeat split; auto. intros m Hm. subst mx.
        specialize (Hs2 _ eq_refl). lia.
      * intros (Hd & H0 & (Hs1 & Hs2) & Hx). specialize (Hinc Hd Hx). repeat split; auto.
        intros m Hm. injection Hm as <-. destruct mx as [m|]; [specialize (Hs2 m eq_refl); lia | lia].
Qed.

Lemma raise_unique_scalars_drawn p mn mx e :
  can_raise (unique_scalars (Drawn p) mn mx) e ->
  (e = InvalidArgument /\ ((mn < 0)%Z \/ exists m, mx = Some m /\ (m < mn)%Z)) \/ can_raise p e.
Proof. cbn [unique_scalars]. unfold unique_lists. rewrite raise_pfilter. apply raise_lists. Qed.
Lemma raise_unique_scalars_sampled xs mn mx e :
  can_raise (unique_scalars (Sampled xs) mn mx) e ->
  e = InvalidArgument /\
  ((mn < 0)%Z \/ (exists m, mx = Some m /\ (m < mn)%Z) \/ (lenZ xs < mn)%Z \/ xs = []).
Proof.
  cbn [unique_scalars]. destruct (Z.ltb_spec (lenZ xs) mn).
  - rewrite raise_fail. intros ->. auto.
  - unfold unique_lists. rewrite raise_pfilter. intros Hr. apply raise_lists in Hr.
    destruct Hr as [(He & [Hn|(m & Hm & Hlt)])|Hr].
    + auto.
    + split; [exact He|]. injection Hm as <-. destruct mx as [m|]; [|lia].
      right; left. exists m. split; [reflexivity|]. lia.
    + apply raise_sampled_from in Hr. tauto.
Qed.

(** permutations *)
Lemma remove_nth_perm {A} (k : nat) (l : list A) (x : A) :
  k < length l -> Permutation l (nth k l x :: remove_nth k l).
Proof.
  revert k. induction l as [|y l IH]; intros k Hk; [cbn in Hk; lia|].
  destruct k as [|k]; cbn [nth remove_nth]; [reflexivity|].
  rewrite (IH k) at 1 by (cbn in Hk; lia). apply perm_swap.
Qed.
Lemma remove_nth_length {A} (k : nat) (l : list A) :
  k < length l -> length (remove_nth k l) = length l - 1.
Proof.
  intros Hk. destruct l as [|x l]; [cbn in Hk; lia|].
  pose proof (Permutation_length (remove_nth_perm k (x :: l) x Hk)) as H. cbn [length] in *. lia.
Qed.
Lemma gen_permute {A} n (l : list A) l' :
  length l = n -> (generates (permute n l) l' <-> Permutation l l').
Proof.
  revert l l'. induction n as [|n IH]; intros l l' Hn; cbn [permute].
  - destruct l; [|discriminate]. rewrite gen_ret. split; [intros ->; constructor|].
    intros H. apply Permutation_nil in H. exact H.
  - destruct l as [|x l]; [discriminate|]. rewrite gen_choose.
    setoid_rewrite gen_bind. setoid_rewrite gen_ret. split.
    + intros (z & (H1 & H2) & rest & Hr & ->). unfold lenZ in H2.
      assert (Hz : Z.to_nat z < length (x :: l)) by lia.
      apply IH in Hr; [|rewrite remove_nth_length; [lia|exact Hz]].
      rewrite (remove_nth_perm (Z.to_nat z) (x :: l) x Hz) at 1. constructor. exact Hr.
    + intros HP. destruct l' as [|y l']; [apply Permutation_sym, Permutation_nil in HP; discriminate|].
      assert (Hin : In y (x :: l)) by (eapply Permutation_in; [symmetry; exact HP | left; reflexivity]).
      apply (In_nth _ _ x) in Hin. destruct Hin as (k & Hk & Hy).
      exists (Z.of_nat k). rewrite Nat2Z.id. split; [unfold in_range, lenZ; lia|].
      exists l'. split; [|congruence]. apply IH; [rewrite remove_nth_length; lia|].
      apply (Permutation_cons_inv (a := y)). rewrite <- HP. rewrite <- Hy. symmetry.
      apply remove_nth_perm. exact Hk.
Qed.
Lemma gen_permutations {A} (l l' : list A) : generates (permutations l) l' <-> Permutation l l'.
Proof. apply gen_permute. reflexivity. Qed.
Lemma raise_permute {A} n (l : list A) e : can_raise (permute n l) e -> False.
Proof.
  revert l. induction n as [|n IH]; intros l; cbn [permute]; [apply raise_ret|].
  destruct l as [|x l]; [apply raise_ret|]. rewrite raise_choose.
  setoid_rewrite raise_bind. setoid_rewrite raise_ret.
  intros (z & _ & [H|(? & _ & [])]). eapply IH; eassumption.
Qed.
Lemma raise_permutations {A} (l : list A) e : ~ can_raise (permutations l) e.
Proof. intros H. eapply raise_permute; exact H. Qed.
Lemma gen_bits n l : generates (bits n) l <-> length l = n.
Proof.
  unfold bits. rewrite gen_draw_n. split; [tauto|]. intros H. split; [exact H|].
  intros x _. apply gen_choose. setoid_rewrite gen_ret. destruct x; [exists 0%Z|exists 1%Z];
    (split; [split; lia|reflexivity]).
Qed.
Lemma raise_bits n e : ~ can_raise (bits n) e.
Proof.
  unfold bits. intros H. apply raise_draw_n in H. apply raise_choose in H.
  destruct H as (z & _ & H). apply raise_ret in H. exact H.
Qed.

(** Executions are possible outcomes. *)
Lemma run_sound {A} (p : prog A) tape o : run tape p = Some o -> may p o.
Proof.
  revert tape. induction p as [a|e| |lo hi k IH]; intros tape H; cbn in H.
  - inversion H; subst; constructor.
  - inversion H; subst; constructor.
  - inversion H; subst; constructor.
  - destruct tape as [|z tape]; [discriminate|].
    destruct ((lo <=? z)%Z && match hi with None => true | Some h => (z <=? h)%Z end)%bool eqn:E; [|discriminate].
    apply andb_true_iff in E. destruct E as (E1 & E2). apply Z.leb_le in E1.
    apply (may_choose lo hi k z); [|eapply IH; eassumption].
    split; [exact E1|]. destruct hi as [h|]; [apply Z.leb_le in E2; exact E2|exact I].
Qed.
