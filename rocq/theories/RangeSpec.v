(** Vocabulary for the property that no draw asks Hypothesis for something impossible. *)
From Verif Require Import Base Prog.

(** What the caller gives can supply [n] different coordinates as far as Hypothesis can tell when
    a list of them is requested: a strategy of its own (which does not itself fail with
    [InvalidArgument]), or a sample of at least [n] values. *)
Definition supplies (s : scalars) (n : Z) : Prop :=
  match s with
  | Drawn p => ~ can_raise p InvalidArgument
  | Sampled l => (n <= lenZ l)%Z
  end.
Definition supplies_both (xs : scalars) (ys : option scalars) (n : Z) : Prop :=
  supplies xs n /\ forall s, ys = Some s -> supplies s n.

(** As [supplies], with a strategy of the caller's own that raises nothing at all. *)
Definition harmless (s : scalars) (n : Z) : Prop :=
  match s with
  | Drawn p => forall e, ~ can_raise p e
  | Sampled l => (n <= lenZ l)%Z
  end.
Definition harmless_both (xs : scalars) (ys : option scalars) (n : Z) : Prop :=
  harmless xs n /\ forall s, ys = Some s -> harmless s n.
