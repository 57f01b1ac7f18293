(** Model of hypothesis_geometry/_core/utils.py (pure helpers) and constants.py. *)
From Verif Require Import Base.
Open Scope Z_scope.

(** constants.py:4-13 *)
Definition CONCAVE : Z := 4.
(** constants.py:4-7 [MinContourSize] *)
Definition CONVEX : Z := 3.
(** constants.py:10 *)
Definition MIN_CONTOUR_SIZE : Z := Z.min CONCAVE CONVEX.
(** constants.py:11 *)
Definition MIN_MULTIPOINT_SIZE : Z := 1.
(** constants.py:12 *)
Definition MIN_MULTICONTOUR_SIZE : Z := 2.
(** constants.py:12 *)
Definition MIN_MULTIPOLYGON_SIZE : Z := 2.
(** constants.py:12 *)
Definition MIN_MULTISEGMENT_SIZE : Z := 2.
(** constants.py:13 *)
Definition MIN_MIX_COMPONENTS_COUNT : Z := 2.

(** Python [int.bit_length] of a non-negative number. *)
Definition bit_length (n : Z) : Z := if n =? 0 then 0 else Z.log2 (Z.abs n) + 1.

(** utils.py:18-19 [ceil_log2] *)
Definition ceil_log2 (number : Z) : Z :=
  bit_length number - b2z (Z.land number (number - 1) =? 0).

(** utils.py:22-23 [cut] *)
Definition cut {A} (values : list A) (limit : Z) : list A :=
  if limit <? lenZ values then py_take values limit else values.

(** utils.py:45-56 [_is_prime]; the [assert value % 2 != 0] of line 46 is the first test.
    The [while] loop runs while [(divisor - 1)^2 <= value]; its iteration count is bounded
    by [|value|] (proved sufficient in PrimeProofs.v). *)
Definition is_prime (value : Z) : res bool :=
  if value mod 2 =? 0 then Raise AssertionError
  else if value mod 3 =? 0 then Ok false
  else while_ (Z.to_pos (Z.abs value + 1)) (fun divisor =>
         if divisor * divisor - 2 * divisor + 1 <=? value then
           if value mod (divisor - 1) =? 0 then Ok (inr false)
           else if value mod (divisor + 1) =? 0 then Ok (inr false)
           else Ok (inl (divisor + 6))
         else Ok (inr true)) 6.

(** utils.py:29-34 [to_prior_prime] *)
Definition to_prior_prime (value : Z) : res Z :=
  let* _ := assert_ (value >? 2) in
  while_ (Z.to_pos (value + 1)) (fun step =>
    let* prime := is_prime step in
    if prime then Ok (inr step) else Ok (inl (step - 2)))
    (value + (Z.land value 1 - 1)).

(** utils.py:37-42 [to_next_prime].  The bound on the number of iterations is Euclid's
    [value!] (proved sufficient in PrimeProofs.v). *)
Fixpoint factorial (n : nat) : Z :=
  match n with O => 1 | S n' => Z.of_nat n * factorial n' end.
(** utils.py:37-42 [to_next_prime] *)
Definition to_next_prime (value : Z) : res Z :=
  let* _ := assert_ (value >? 2) in
  while_ (Z.to_pos (factorial (Z.to_nat value) + 1)) (fun step =>
    let* prime := is_prime step in
    if prime then Ok (inr step) else Ok (inl (step + 2)))
    (Z.lor value 1).

(** utils.py:65-73 [pairwise] *)
Fixpoint pairwise {A} (l : list A) : list (A * A) :=
  match l with
  | x :: ((y :: _) as l') => (x, y) :: pairwise l'
  | _ => []
  end.

(** utils.py:83-89 [sort_pair]; Python's [is not] between two booleans. *)
Definition sort_pair {A} (ltb : A -> A -> bool) (pair : A * A) (reverse : bool) : A * A :=
  let '(first, second) := pair in
  if negb (Bool.eqb (ltb first second) reverse) then (first, second) else (second, first).
Close Scope Z_scope.
