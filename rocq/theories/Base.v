(** Shared vocabulary of the model: exceptions, sorting, Python sequences.

    Everything here models a feature of the Python language or of its standard
    library, not a function of /repo.  Scalars are [Qc], the canonical rationals:
    the library is generic in the scalar type and is tested with
    [fractions.Fraction] (tests/strategies/base.py:39, README.md), and a normalised
    [Fraction] is exactly an element of [Qc] (Leibniz equality = Python [==]). *)
From Coq Require Export ZArith QArith Qcanon List Bool Lia Arith Permutation.
Export ListNotations.
Global Open Scope nat_scope.

(** Python exceptions that the modelled code can raise, plus [OutOfFuel], which is
    not an exception of Python: it is the value returned when a modelled [while]
    loop has not finished within the given number of iterations. *)
Inductive exn : Type :=
| ValueError
| AssertionError
| KeyError
| IndexError
| ZeroDivisionError
| OverflowError
| InvalidArgument   (* hypothesis.errors.InvalidArgument *)
| StopIteration
| OutOfFuel.

(** The result of Python code: a value, or a raised exception. Not code of /repo. *)
Inductive res (A : Type) : Type :=
| Ok (a : A)
| Raise (e : exn).
Arguments Ok {A} _.
Arguments Raise {A} _.

(** Sequencing: an exception skips the rest. Not code of /repo. *)
Definition rbind {A B} (m : res A) (f : A -> res B) : res B :=
  match m with Ok a => f a | Raise e => Raise e end.

Notation "'let*' x ':=' m 'in' k" := (rbind m (fun x => k))
  (at level 200, x pattern, m at level 100, k at level 200, right associativity).

(** [assert cond] *)
Definition assert_ (b : bool) : res unit :=
  if b then Ok tt else Raise AssertionError.

(** Python [list.sort]/[sorted]: a stable sort.  [leb] is the comparison of keys. *)
Section Sort.
  Context {A : Type} (leb : A -> A -> bool).
  Fixpoint insert (x : A) (l : list A) : list A :=
    match l with
    | [] => [x]
    | y :: l' => if leb x y then x :: l else y :: insert x l'
    end.
  (** Stable insertion sort: equal keys keep their order, as in Python [sorted]. *)
  Fixpoint isort (l : list A) : list A :=
    match l with [] => [] | x :: l' => insert x (isort l') end.
End Sort.

(** Scalar comparisons (Python [<], [<=], [==] on fractions). *)
Definition qltb (x y : Qc) : bool :=
  match (x ?= y)%Qc with Lt => true | _ => false end.
(** Python [x <= y]. *)
Definition qleb (x y : Qc) : bool :=
  match (x ?= y)%Qc with Gt => false | _ => true end.
(** Python [x == y]. *)
Definition qeqb (x y : Qc) : bool :=
  match (x ?= y)%Qc with Eq => true | _ => false end.
Definition qmin (x y : Qc) : Qc := if qltb y x then y else x.  (* Python min(x, y) *)
Definition qmax (x y : Qc) : Qc := if qltb x y then y else x.  (* Python max(x, y) *)

(** Python sequence indexing [l[i]] with negative indices, [del l[i]]. *)
Definition py_index {A} (l : list A) (i : Z) : option nat :=
  let n := Z.of_nat (length l) in
  if (0 <=? i)%Z then (if (i <? n)%Z then Some (Z.to_nat i) else None)
  else if (- n <=? i)%Z then Some (Z.to_nat (n + i)) else None.
(** Python [l[i]]. *)
Definition py_get {A} (l : list A) (i : Z) : option A :=
  match py_index l i with Some k => nth_error l k | None => None end.
(** [l] without its element number [k]. *)
Fixpoint remove_nth {A} (k : nat) (l : list A) : list A :=
  match l, k with
  | [], _ => []
  | _ :: l', O => l'
  | x :: l', S k' => x :: remove_nth k' l'
  end.
(** Python [del l[i]]. *)
Definition py_del {A} (l : list A) (i : Z) : list A :=
  match py_index l i with Some k => remove_nth k l | None => l end.
(** Python [l[:n]] and [l[n:]] for a possibly negative [n]. *)
Definition py_bound {A} (l : list A) (i : Z) : nat :=
  let n := Z.of_nat (length l) in
  if (0 <=? i)%Z then Z.to_nat (Z.min i n) else Z.to_nat (Z.max 0 (n + i)).
(** Python [l[:i]]. *)
Definition py_take {A} (l : list A) (i : Z) : list A := firstn (py_bound l i) l.
(** Python [l[i:]]. *)
Definition py_drop {A} (l : list A) (i : Z) : list A := skipn (py_bound l i) l.
(** [l[i:j]] *)
Definition py_slice {A} (l : list A) (i j : Z) : list A :=
  let a := py_bound l i in let b := py_bound l j in
  firstn (b - a) (skipn a l).

(** Python [len(l)]. *)
Definition lenZ {A} (l : list A) : Z := Z.of_nat (length l).
(** Python [int(b)] of a boolean used in arithmetic. *)
Definition b2z (b : bool) : Z := if b then 1%Z else 0%Z.

(** A Python [while] loop: [body s = inl s'] is one more iteration, [body s = inr r]
    leaves the loop with [r].  [loop n body s] performs at most [n] iterations and
    stops as soon as the loop is left. *)
Fixpoint loop {S R : Type} (n : positive) (body : S -> S + R) (s : S) : S + R :=
  match n with
  | xH => body s
  | xO n' =>
      match loop n' body s with
      | inl s' => loop n' body s'
      | inr r => inr r
      end
  | xI n' =>
      match body s with
      | inl s1 =>
          match loop n' body s1 with
          | inl s2 => loop n' body s2
          | inr r => inr r
          end
      | inr r => inr r
      end
  end.
(** Loop whose body may raise; running out of iterations is [OutOfFuel]. *)
Definition while_ {S R : Type} (n : positive) (body : S -> res (S + R)) (s : S) : res R :=
  match loop n (fun s => match body s with
                         | Ok (inl s') => inl s'
                         | Ok (inr r) => inr (Ok r)
                         | Raise e => inr (Raise e)
                         end) s with
  | inl _ => Raise OutOfFuel
  | inr r => r
  end.
