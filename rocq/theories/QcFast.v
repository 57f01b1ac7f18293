(** Faster linear arithmetic over [Qc]: compound terms are named instead of rewritten. *)
From Verif Require Import Base Geometry QcTac.
From Coq Require Import Lqa.

Ltac qf_rel :=
  repeat match goal with
  | H : Qclt ?x ?y |- _ => change (Qlt (this x) (this y)) in H
  | H : Qcle ?x ?y |- _ => change (Qle (this x) (this y)) in H
  | H : @eq Qc ?x ?y |- _ => apply (proj1 (Qc_eq_this x y)) in H
  | |- Qclt ?x ?y => change (Qlt (this x) (this y))
  | |- Qcle ?x ?y => change (Qle (this x) (this y))
  | |- @eq Qc ?x ?y => apply Qc_is_canon
  | |- ~ _ => intro
  end.
Definition qf_mark (t : Q) : Prop := True.
Ltac qf_new t := lazymatch goal with H : qf_mark t |- _ => fail | _ => assert (qf_mark t) by exact I end.
Ltac qf_name t := let v := fresh "v" in set (v := t) in *; clearbody v.
(** The value of every compound term, then a name for it. *)
Ltac qf_values :=
  repeat match goal with
  | |- context [this (?x + ?y)%Qc] => qf_new (this (x + y)%Qc); pose proof (this_plus x y)
  | |- context [this (?x - ?y)%Qc] => qf_new (this (x - y)%Qc); pose proof (this_minus x y)
  | |- context [this (?x * ?y)%Qc] => qf_new (this (x * y)%Qc); pose proof (this_mult x y)
  | |- context [this (- ?x)%Qc] => qf_new (this (- x)%Qc); pose proof (this_opp x)
  | |- context [this (Q2Qc ?q)] => qf_new (this (Q2Qc q)); pose proof (this_Q2Qc q)
  | H : context [this (?x + ?y)%Qc] |- _ => qf_new (this (x + y)%Qc); pose proof (this_plus x y)
  | H : context [this (?x - ?y)%Qc] |- _ => qf_new (this (x - y)%Qc); pose proof (this_minus x y)
  | H : context [this (?x * ?y)%Qc] |- _ => qf_new (this (x * y)%Qc); pose proof (this_mult x y)
  | H : context [this (- ?x)%Qc] |- _ => qf_new (this (- x)%Qc); pose proof (this_opp x)
  | H : context [this (Q2Qc ?q)] |- _ => qf_new (this (Q2Qc q)); pose proof (this_Q2Qc q)
  end.
Ltac qf_atoms := qf_values; repeat match goal with H : qf_mark ?t |- _ => clear H; qf_name t end.
(** Discards everything but order facts. *)
Ltac qf_clean :=
  repeat match goal with
  | H : ?T |- _ =>
      lazymatch T with
      | Qlt _ _ => fail | Qle _ _ => fail | Qeq _ _ => fail | Q => fail | Qc => fail | point => fail
      | _ => clear H
      end
  end.
Ltac ql := intros; qf_rel; qf_clean; qf_atoms; lra.
Ltac qn := intros; qf_rel; qf_clean; qf_atoms; nra.
