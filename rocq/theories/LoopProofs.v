(** Reasoning about [while_]: invariants and termination. *)
From Verif Require Import Base.

Section Loop.
  Context {S R : Type}.
  Fixpoint nloop (n : nat) (body : S -> S + R) (s : S) : S + R :=
    match n with
    | O => inl s
    | Datatypes.S n' => match body s with inl s' => nloop n' body s' | inr r => inr r end
    end.
  Lemma nloop_add body n m s :
    nloop (n + m) body s = match nloop n body s with inl s' => nloop m body s' | inr r => inr r end.
  Proof.
    revert s; induction n as [|n IH]; intros s; cbn; [reflexivity|].
    destruct (body s); [apply IH | reflexivity].
  Qed.
  Lemma loop_nloop body n : forall s, loop n body s = nloop (Pos.to_nat n) body s.
  Proof.
    induction n as [n IH|n IH|]; intros s.
    - rewrite Pos2Nat.inj_xI. replace (2 * Pos.to_nat n)%nat with (Pos.to_nat n + Pos.to_nat n)%nat by lia.
      cbn [loop nloop]. destruct (body s) as [s1|r]; [|reflexivity].
      rewrite nloop_add, <- IH. destruct (loop n body s1); [apply IH | reflexivity].
    - rewrite Pos2Nat.inj_xO. replace (2 * Pos.to_nat n)%nat with (Pos.to_nat n + Pos.to_nat n)%nat by lia.
      cbn [loop]. rewrite nloop_add, <- IH. destruct (loop n body s); [apply IH | reflexivity].
    - change (Pos.to_nat 1) with 1%nat. cbn. destruct (body s); reflexivity.
  Qed.
End Loop.

(** Total correctness: the measure decreases. *)
Lemma while_total {S R} (I : S -> Prop) (m : S -> nat) (Q : res R -> Prop) body n s :
  (forall s, I s -> match body s with
                    | Ok (inl s') => I s' /\ m s' < m s
                    | Ok (inr r) => Q (Ok r)
                    | Raise e => Q (Raise e)
                    end) ->
  I s -> m s < Pos.to_nat n -> Q (while_ n body s).
Proof.
  intros Hb. unfold while_. rewrite loop_nloop. revert s.
  induction (Pos.to_nat n) as [|k IH]; intros s Hi Hm; [lia|].
  cbn [nloop]. specialize (Hb s Hi). destruct (body s) as [[s'|r]|e].
  - apply IH; [apply Hb | lia].
  - exact Hb.
  - exact Hb.
Qed.

(** Partial correctness: the invariant, if the loop ends. *)
Lemma while_inv {S R} (I : S -> Prop) (Q : res R -> Prop) body n s :
  (forall s, I s -> match body s with
                    | Ok (inl s') => I s'
                    | Ok (inr r) => Q (Ok r)
                    | Raise e => Q (Raise e)
                    end) ->
  Q (Raise OutOfFuel) -> I s -> Q (while_ n body s).
Proof.
  intros Hb Hf. unfold while_. rewrite loop_nloop. revert s.
  induction (Pos.to_nat n) as [|k IH]; intros s Hi; [exact Hf|].
  cbn [nloop]. specialize (Hb s Hi). destruct (body s) as [[s'|r]|e]; auto.
Qed.

(** Only values matter. *)
Lemma while_ok {S R} (I : S -> Prop) (Q : R -> Prop) body n s r :
  (forall s, I s -> match body s with
                    | Ok (inl s') => I s'
                    | Ok (inr r) => Q r
                    | Raise e => True
                    end) ->
  I s -> while_ n body s = Ok r -> Q r.
Proof.
  intros Hb Hi.
  apply (while_inv I (fun x => x = Ok r -> Q r)); [|discriminate|exact Hi].
  intros s0 Hi0. specialize (Hb s0 Hi0). destruct (body s0) as [[s'|r']|e].
  - exact Hb.
  - intros H; injection H as <-; exact Hb.
  - discriminate.
Qed.
