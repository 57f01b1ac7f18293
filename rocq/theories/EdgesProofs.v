(** The traversal of edges visits a component. *)
From Verif Require Import Base QuadEdge Factories Edges QuadSpec EdgesSpec QuadProofs QuadApiProofs DelPolyTotal.
Import List ListNotations.

Section E.
Context (h : heap) (e : edge) (B : built h) (D : directed_in h e).

Lemma linked_directed f : linked h e f -> directed_in h f.
Proof. induction 1; [exact D| |]; apply (navigation_directed h f B IHlinked). Qed.
Lemma mem_edge_in x l : mem_edge x l = true <-> In x l.
Proof.
  unfold mem_edge. rewrite existsb_exists. split; [intros (y & H & E); apply edge_eqb_eq in E; subst; exact H|].
  intros H. exists x. split; [exact H|apply edge_eqb_refl].
Qed.
(** The turn to the right is a sequence of turns to the left, because the rings are finite. *)
Definition iter_lfs (n : nat) (f : edge) := Nat.iter n (left_from_start h) f.
Lemma linked_iter n f : linked h e f -> linked h e (iter_lfs n f).
Proof. intros H. induction n as [|n IH]; [exact H|]. cbn. apply linked_turn, IH. Qed.
Lemma iter_exists n f : exists_in h f -> exists_in h (iter_lfs n f).
Proof. intros H. induction n as [|n IH]; [exact H|]. cbn. apply (left_from_start_inverse h _ B IH). Qed.
Lemma lfs_injective a b : exists_in h a -> exists_in h b -> left_from_start h a = left_from_start h b -> a = b.
Proof. intros A C E. destruct (left_from_start_inverse h a B A) as (_ & _ & <- & _). destruct (left_from_start_inverse h b B C) as (_ & _ & <- & _). congruence. Qed.
Lemma iter_back n k f : exists_in h f -> iter_lfs n f = iter_lfs (n + S k) f -> f = iter_lfs (S k) f.
Proof.
  induction n as [|n IH]; intros V E; [exact E|]. apply IH; [exact V|]. apply lfs_injective; try apply iter_exists, V. exact E.
Qed.
Definition all_edges : list edge := flat_map (fun i => [(i, R0); (i, R1); (i, R2); (i, R3)]) (seq 0 (h_count h)).
Lemma all_edges_in f : exists_in h f -> In f all_edges.
Proof.
  intros V. unfold all_edges. apply in_flat_map. exists (fst f). split; [apply in_seq; unfold exists_in in V; lia|].
  destruct f as (i, []); cbn; auto 6.
Qed.
Lemma pigeon (f : nat -> edge) n : (forall i, exists_in h (f i)) -> length all_edges < n -> exists i j, i < j < n /\ f i = f j.
Proof.
  intros V L. destruct (ListDec.NoDup_dec edge_eq_dec (map f (seq 0 n))) as [N|N].
  - exfalso. assert (I : incl (map f (seq 0 n)) all_edges) by (intros x Hx; apply in_map_iff in Hx; destruct Hx as (i & <- & _); apply all_edges_in, V).
    pose proof (NoDup_incl_length N I) as X. rewrite map_length, seq_length in X. lia.
  - assert (X : exists i j, i < j < n /\ f i = f j); [|exact X].
    destruct (List.existsb (fun i => existsb (fun j => (i <? j) && edge_eqb (f i) (f j)) (seq 0 n)) (seq 0 n)) eqn:Ex.
    + apply existsb_exists in Ex. destruct Ex as (i & Hi & Ex). apply existsb_exists in Ex. destruct Ex as (j & Hj & Ex).
      apply andb_prop in Ex. destruct Ex as (E1 & E2). apply Nat.ltb_lt in E1. apply edge_eqb_eq in E2. apply in_seq in Hi, Hj. exists i, j. split; [lia|exact E2].
    + exfalso. apply N. apply NoDup_nth with (d := f 0). intros i j Hi Hj E. rewrite map_length, seq_length in Hi, Hj. rewrite !map_nth, !seq_nth in E by lia. cbn in E.
      assert (F : forall i j, i < n -> j < n -> i < j -> f i = f j -> False).
      { intros a b Ha Hb Hab Ef. assert (Y : existsb (fun i => existsb (fun j => (i <? j) && edge_eqb (f i) (f j)) (seq 0 n)) (seq 0 n) = true); [|congruence].
        apply existsb_exists. exists a. split; [apply in_seq; lia|]. apply existsb_exists. exists b. split; [apply in_seq; lia|].
        rewrite Ef, edge_eqb_refl. apply andb_true_intro. split; [apply Nat.ltb_lt, Hab|reflexivity]. }
      destruct (Nat.lt_trichotomy i j) as [L1|[L1|L1]]; [destruct (F i j)|exact L1|destruct (F j i)]; auto.
Qed.
Lemma linked_right f : linked h e f -> linked h e (right_from_start h f).
Proof.
  intros H. pose proof (proj1 (linked_directed f H)) as V. set (g := right_from_start h f).
  assert (Vg : exists_in h g) by apply (left_from_start_inverse h f B V).
  assert (Eg : left_from_start h g = f) by apply (left_from_start_inverse h f B V).
  destruct (pigeon (fun i => iter_lfs i g) (S (length all_edges)) (fun i => iter_exists i g Vg)) as (i & j & Lt & E); [lia|].
  assert (E' : iter_lfs i g = iter_lfs (i + S (j - i - 1)) g) by (replace (i + S (j - i - 1)) with j by lia; exact E).
  pose proof (iter_back i (j - i - 1) g Vg E') as X. rewrite X.
  assert (Y : forall n, iter_lfs (S n) g = iter_lfs n f).
  { induction n as [|n IH]; [exact Eg|]. change (iter_lfs (S (S n)) g) with (left_from_start h (iter_lfs (S n) g)). rewrite IH. reflexivity. }
  rewrite Y. apply linked_iter, H.
Qed.
Lemma linked_right_end f : linked h e f -> linked h e (right_from_end h f).
Proof. intros H. apply linked_turn, linked_reverse, H. Qed.
Lemma linked_left_end f : linked h e f -> linked h e (left_from_end h f).
Proof.
  intros H. rewrite (lfe_spec h). apply linked_right, linked_reverse, H.
Qed.

Definition inv (k : nat) (st : list edge * list edge * list edge) : Prop :=
  let '(queue, visited, yielded) := st in
  (forall x, In x queue -> linked h e x) /\ (forall x, In x yielded -> linked h e x) /\
  (forall x, In x visited <-> In x yielded \/ In (opposite x) yielded) /\
  NoDup (map fst yielded) /\
  (forall x, In x yielded -> forall y, In y [right_from_end h x; right_from_start h x; left_from_end h x; left_from_start h x] -> In y visited \/ In y queue) /\
  (In e visited \/ In e queue) /\
  length yielded <= h_count h /\ k = length queue + 4 * (h_count h - length yielded).
Definition good (yielded : list edge) : Prop :=
  NoDup (map fst yielded) /\ (forall x, In x yielded -> linked h e x) /\ (forall x, linked h e x -> In x yielded \/ In (opposite x) yielded).

Lemma same_line x y : directed_in h x -> directed_in h y -> fst x = fst y -> y = x \/ y = opposite x.
Proof. intros (_ & A) (_ & C) E. destruct x as (i, r), y as (j, s). cbn in *. subst j. destruct A, C; subst; cbn; auto. Qed.

Lemma step_ok k st : inv k st -> match to_edges_step h st with
  | Ok (inl st') => exists k', k' < k /\ inv k' st' | Ok (inr r) => good r | Raise _ => False end.
Proof.
  destruct st as [[queue visited] yielded]. intros (I1 & I2 & I3 & I4 & I5 & I6 & I7 & ->). unfold to_edges_step.
  destruct queue as [|c queue].
  - split; [exact I4|]. split; [exact I2|]. intros x Hx. apply I3. induction Hx as [|f Hf IH|f Hf IH].
    + destruct I6 as [I6|[]]. exact I6.
    + apply I3 in IH. destruct IH as [IH|IH].
      * destruct (I5 f IH (left_from_start h f)) as [X|[]]; [cbn; auto|exact X].
      * destruct (I5 (opposite f) IH (left_from_start h f)) as [X|[]]; [|exact X]. left. unfold right_from_end. rewrite opposite_opposite. reflexivity.
    + apply I3. apply I3 in IH. rewrite opposite_opposite. tauto.
  - destruct (mem_edge c visited) eqn:M.
    + apply mem_edge_in in M. eexists. split; [|split; [intros x Hx; apply I1; right; exact Hx|split; [exact I2|split; [exact I3|split; [exact I4|split; [|split; [|split; [exact I7|reflexivity]]]]]]]].
      * cbn [length]. lia.
      * intros x Hx y Hy. destruct (I5 x Hx y Hy) as [X|[X|X]]; auto. subst y. auto.
      * destruct I6 as [X|[X|X]]; auto. subst. auto.
    + assert (Nm : ~ In c visited) by (intros X; apply mem_edge_in in X; congruence).
      pose proof (I1 c (or_introl eq_refl)) as Lc. pose proof (linked_directed c Lc) as Dc.
      assert (Nf : ~ In (fst c) (map fst yielded)).
      { intros X. apply in_map_iff in X. destruct X as (y & Ey & Hy). apply Nm, I3.
        destruct (same_line c y Dc (linked_directed y (I2 y Hy)) (eq_sym Ey)) as [-> | ->]; auto. }
      assert (N' : NoDup (map fst (c :: yielded))) by (cbn [map]; constructor; assumption).
      assert (Len : length (c :: yielded) <= h_count h).
      { assert (X : incl (map fst (c :: yielded)) (seq 0 (h_count h))).
        { intros i Hi. apply in_map_iff in Hi. destruct Hi as (y & <- & Hy). apply in_seq. split; [lia|].
          assert (Ly : linked h e y) by (destruct Hy as [<- |Hy]; [exact Lc|apply I2, Hy]). apply (linked_directed y Ly). }
        pose proof (NoDup_incl_length N' X) as Y. rewrite map_length, seq_length in Y. exact Y. }
      eexists. split; [|split; [|split; [|split; [|split; [exact N'|split; [|split; [|split; [exact Len|reflexivity]]]]]]]].
      * cbn [length] in *. lia.
      * intros x [<- |[<- |[<- |[<- |Hx]]]]; [apply linked_right_end, Lc|apply linked_right, Lc|apply linked_left_end, Lc|apply linked_turn, Lc|apply I1; right; exact Hx].
      * intros x [<- |Hx]; [exact Lc|apply I2, Hx].
      * intros x. cbn [In]. rewrite I3. split.
        -- intros [->|[<- |[X|X]]]; auto. right. left. symmetry. apply opposite_opposite.
        -- intros [[->|X]|[X|X]]; auto. right. left. rewrite X. apply opposite_opposite.
      * intros x [<- |Hx] y Hy.
        -- right. cbn [In] in Hy |- *. tauto.
        -- destruct (I5 x Hx y Hy) as [X|[X|X]]; [left; cbn; auto|left; cbn; auto|right; cbn; auto 6].
      * destruct I6 as [X|[X|X]]; [left; cbn; auto|left; cbn; auto|right; cbn; auto 6].
Qed.
Lemma to_edges_ok fuel : 4 * h_count h + 1 < Pos.to_nat fuel ->
  exists es, to_edges fuel h e = Ok es /\ NoDup es /\ (forall f, In f es -> linked h e f) /\
    (forall f, linked h e f -> In f es \/ In (opposite f) es) /\ (forall f, In f es -> ~ In (opposite f) es).
Proof.
  intros Hf. destruct (while_ghost inv good (to_edges_step h) fuel ([e], [], []) (1 + 4 * h_count h) step_ok) as (r & E & G1 & G2 & G3).
  - split; [intros x [<- |[]]; apply linked_same|]. split; [intros x []|]. split; [cbn; tauto|]. split; [constructor|]. split; [intros x []|]. split; [right; left; reflexivity|]. cbn [length]. split; lia.
  - lia.
  - exists (rev r). unfold to_edges. rewrite E. cbn [rbind]. split; [reflexivity|].
    assert (I : forall x, In x (rev r) <-> In x r) by (intros x; symmetry; apply in_rev).
    split; [apply NoDup_rev, (NoDup_map_inv fst), G1|]. split; [intros f Hx; apply G2, I, Hx|]. split; [intros f Hx; rewrite !I; apply G3, Hx|].
    intros f F1 F2. apply I in F1, F2. clear - G1 F1 F2. induction r as [|x r IH]; [destruct F1|]. cbn [map] in G1. apply NoDup_cons_iff in G1. destruct G1 as (Nx & G1).
    destruct F1 as [-> |F1], F2 as [F2|F2].
    + apply (opposite_neq f). auto.
    + apply Nx. change (fst f) with (fst (opposite f)). apply in_map, F2.
    + subst x. apply Nx. change (fst (opposite f)) with (fst f). apply in_map, F1.
    + apply IH; assumption.
Qed.
End E.
