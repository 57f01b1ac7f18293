(** Linear and polynomial arithmetic over [Qc], by transfer to [Q]. *)
From Verif Require Import Base.
From Coq Require Import Lqa Field.

Lemma Qc_eq_this (x y : Qc) : x = y <-> (this x == this y)%Q.
Proof. split; [intros ->; reflexivity | apply Qc_is_canon]. Qed.
Lemma this_plus (x y : Qc) : (this (x + y)%Qc == this x + this y)%Q.
Proof. apply Qred_correct. Qed.
Lemma this_mult (x y : Qc) : (this (x * y)%Qc == this x * this y)%Q.
Proof. apply Qred_correct. Qed.
Lemma this_opp (x : Qc) : (this (- x)%Qc == - this x)%Q.
Proof. apply Qred_correct. Qed.
Lemma this_minus (x y : Qc) : (this (x - y)%Qc == this x - this y)%Q.
Proof. unfold Qcminus, Qminus. rewrite this_plus, this_opp. reflexivity. Qed.
Lemma this_Q2Qc (q : Q) : (this (Q2Qc q) == q)%Q.
Proof. apply Qred_correct. Qed.
Lemma Qclt_this (x y : Qc) : (x < y)%Qc <-> (this x < this y)%Q.
Proof. reflexivity. Qed.
Lemma Qcle_this (x y : Qc) : (x <= y)%Qc <-> (this x <= this y)%Q.
Proof. reflexivity. Qed.

Ltac qc_unfold :=
  repeat match goal with
  | H : context [(?x < ?y)%Qc] |- _ => rewrite (Qclt_this x y) in H
  | H : context [(?x <= ?y)%Qc] |- _ => rewrite (Qcle_this x y) in H
  | H : @eq Qc ?x ?y |- _ => rewrite (Qc_eq_this x y) in H
  | H : ~ (@eq Qc ?x ?y) |- _ => rewrite (Qc_eq_this x y) in H
  | |- context [(?x < ?y)%Qc] => rewrite (Qclt_this x y)
  | |- context [(?x <= ?y)%Qc] => rewrite (Qcle_this x y)
  | |- context [@eq Qc ?x ?y] => rewrite (Qc_eq_this x y)
  end.
Ltac qc_push :=
  repeat match goal with
  | H : context [this (?x + ?y)%Qc] |- _ => setoid_rewrite this_plus in H
  | H : context [this (?x - ?y)%Qc] |- _ => setoid_rewrite this_minus in H
  | H : context [this (?x * ?y)%Qc] |- _ => setoid_rewrite this_mult in H
  | H : context [this (- ?x)%Qc] |- _ => setoid_rewrite this_opp in H
  | H : context [this (Q2Qc _)] |- _ => setoid_rewrite this_Q2Qc in H
  | |- context [this (?x + ?y)%Qc] => setoid_rewrite this_plus
  | |- context [this (?x - ?y)%Qc] => setoid_rewrite this_minus
  | |- context [this (?x * ?y)%Qc] => setoid_rewrite this_mult
  | |- context [this (- ?x)%Qc] => setoid_rewrite this_opp
  | |- context [this (Q2Qc _)] => setoid_rewrite this_Q2Qc
  end.
Ltac qcl := intros; qc_unfold; qc_push; lra.
Ltac qcn := intros; qc_unfold; qc_push; nra.

