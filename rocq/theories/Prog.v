(** Model of the part of [hypothesis.strategies] that /repo uses.

    A strategy is a program that makes choices.  Everything Hypothesis leaves to chance
    (integers, sampled elements, alternatives, list lengths, permutations, random bits) is
    a [Choose]; a draw that Hypothesis discards and retries (a failed [filter], a repeated
    element of a [unique] list) ends in [Reject]. *)
From Verif Require Import Base.

(** A strategy, as a tree of choices (see above). *)
Inductive prog (A : Type) : Type :=
| Ret (a : A)
| Fail (e : exn)
| Reject
| Choose (lo : Z) (hi : option Z) (k : Z -> prog A).
Arguments Ret {A} _.
Arguments Fail {A} _.
Arguments Reject {A}.
Arguments Choose {A} _ _ _.

(** [draw] inside [st.composite], [strategy.flatmap]. *)
Fixpoint bind {A B} (m : prog A) (f : A -> prog B) : prog B :=
  match m with
  | Ret a => f a
  | Fail e => Fail e
  | Reject => Reject
  | Choose lo hi k => Choose lo hi (fun z => bind (k z) f)
  end.
Notation "'let!' x ':=' m 'in' k" := (bind m (fun x => k))
  (at level 200, x pattern, m at level 100, k at level 200, right associativity).

(** The possible outcomes of a draw. *)
Inductive outcome (A : Type) : Type :=
| Val (a : A)
| Exn (e : exn)
| Rej.
Arguments Val {A} _.
Arguments Exn {A} _.
Arguments Rej {A}.

(** The integers offered by one choice. *)
Definition in_range (lo : Z) (hi : option Z) (z : Z) : Prop :=
  (lo <= z)%Z /\ match hi with None => True | Some h => (z <= h)%Z end.

(** The outcomes that some sequence of choices leads to. *)
Inductive may {A} : prog A -> outcome A -> Prop :=
| may_ret a : may (Ret a) (Val a)
| may_fail e : may (Fail e) (Exn e)
| may_reject : may Reject Rej
| may_choose lo hi k z o : in_range lo hi z -> may (k z) o -> may (Choose lo hi k) o.

(** [generates p a]: the strategy can produce the value [a].
    [can_raise p e]: drawing from the strategy can raise [e]. *)
Definition generates {A} (p : prog A) (a : A) : Prop := may p (Val a).
(** Drawing can raise [e]. *)
Definition can_raise {A} (p : prog A) (e : exn) : Prop := may p (Exn e).

(** Execution on a given list of choices, for examples; [None] if a choice is missing or
    out of range. *)
Fixpoint run {A} (tape : list Z) (p : prog A) {struct p} : option (outcome A) :=
  match p with
  | Ret a => Some (Val a)
  | Fail e => Some (Exn e)
  | Reject => Some Rej
  | Choose lo hi k =>
      match tape with
      | [] => None
      | z :: tape' =>
          if ((lo <=? z) && match hi with None => true | Some h => z <=? h end)%Z%bool
          then run tape' (k z) else None
      end
  end.

(** Code without choices run while drawing. *)
Definition lift {A} (r : res A) : prog A :=
  match r with Ok a => Ret a | Raise e => Fail e end.

(** [strategy.map(f)] *)
Definition pmap {A B} (f : A -> B) (m : prog A) : prog B := bind m (fun a => Ret (f a)).
(** [strategy.filter(predicate)] *)
Definition pfilter {A} (f : A -> bool) (m : prog A) : prog A :=
  bind m (fun a => if f a then Ret a else Reject).
(** [strategy.filter(predicate)] with a predicate that may raise *)
Definition pfilter_res {A} (f : A -> res bool) (m : prog A) : prog A :=
  bind m (fun a => match f a with Ok true => Ret a | Ok false => Reject | Raise e => Fail e end).
(** [first | second] *)
Definition alt {A} (p q : prog A) : prog A :=
  Choose 0 (Some 1%Z) (fun z => if (z =? 0)%Z then p else q).

(** [st.integers(min_value, max_value)]; an empty range is an [InvalidArgument] *)
Definition integers (lo : Z) (hi : option Z) : prog Z :=
  match hi with
  | Some h => if (h <? lo)%Z then Fail InvalidArgument else Choose lo hi Ret
  | None => Choose lo None Ret
  end.
(** [st.sampled_from(elements)]; no elements is an [InvalidArgument] *)
Definition sampled_from {A} (l : list A) : prog A :=
  match l with
  | [] => Fail InvalidArgument
  | x :: _ => Choose 0 (Some (lenZ l - 1)%Z) (fun z => Ret (nth (Z.to_nat z) l x))
  end.
(** [n] draws from one strategy ([st.lists] of fixed size, [st.tuples] of equal strategies) *)
Fixpoint draw_n {A} (n : nat) (p : prog A) : prog (list A) :=
  match n with
  | O => Ret []
  | S n' => let! a := p in let! l := draw_n n' p in Ret (a :: l)
  end.
(** [st.tuples] of the strategies *)
Fixpoint sequence {A} (ps : list (prog A)) : prog (list A) :=
  match ps with
  | [] => Ret []
  | p :: ps' => let! a := p in let! l := sequence ps' in Ret (a :: l)
  end.
(** [st.lists(elements, min_size=..., max_size=...)] *)
Definition lists {A} (p : prog A) (min_size : Z) (max_size : option Z) : prog (list A) :=
  if ((min_size <? 0) || match max_size with None => false | Some m => m <? min_size end)%Z%bool
  then Fail InvalidArgument
  else Choose min_size max_size (fun n => draw_n (Z.to_nat n) p).
(** No two elements are equal (the check of [unique=True]). *)
Fixpoint nodupb {A} (eqb : A -> A -> bool) (l : list A) : bool :=
  match l with [] => true | x :: l' => negb (existsb (eqb x) l') && nodupb eqb l' end.
(** [st.lists(..., unique=True)] *)
Definition unique_lists {A} (eqb : A -> A -> bool) (p : prog A) (min_size : Z)
  (max_size : option Z) : prog (list A) :=
  pfilter (nodupb eqb) (lists p min_size max_size).

(** [st.permutations(values)]: pick the first element, then permute the rest. *)
Fixpoint permute {A} (n : nat) (l : list A) : prog (list A) :=
  match n with
  | O => Ret []
  | S n' =>
      match l with
      | [] => Ret []
      | x :: _ =>
          Choose 0 (Some (lenZ l - 1)%Z) (fun z =>
            let k := Z.to_nat z in
            let! rest := permute n' (remove_nth k l) in
            Ret (nth k l x :: rest))
      end
  end.
(** [st.permutations(values)] *)
Definition permutations {A} (l : list A) : prog (list A) := permute (length l) l.
(** [n] calls of [random.getrandbits(1)] or of [random.choice] on two elements *)
Definition bits (n : nat) : prog (list bool) :=
  draw_n n (Choose 0 (Some 1%Z) (fun z => Ret (z =? 0)%Z)).

(** A strategy for scalars: either an arbitrary one or a [st.sampled_from]; Hypothesis
    treats the latter specially in unique lists. *)
Inductive scalars : Type :=
| Drawn (p : prog Qc)
| Sampled (l : list Qc).
(** A draw from a strategy for scalars. *)
Definition draw_scalar (s : scalars) : prog Qc :=
  match s with Drawn p => p | Sampled l => sampled_from l end.
(** [st.lists(scalars, min_size=..., max_size=..., unique=True)]; asking for more elements
    than a [st.sampled_from] has is an [InvalidArgument], and the maximal size is capped by
    their number. *)
Definition unique_scalars (s : scalars) (min_size : Z) (max_size : option Z) : prog (list Qc) :=
  match s with
  | Drawn p => unique_lists qeqb p min_size max_size
  | Sampled l =>
      if (lenZ l <? min_size)%Z then Fail InvalidArgument
      else unique_lists qeqb (sampled_from l) min_size
             (Some (match max_size with None => lenZ l | Some m => Z.min m (lenZ l) end))
  end.
