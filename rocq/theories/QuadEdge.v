(** Model of hypothesis_geometry/_core/subdivisional.py.

    A Python [QuadEdge] object is one of the four mutually rotated objects created by
    one call of [from_endpoints]; the attribute [_rotated] of these four objects is
    assigned there (subdivisional.py:42-45) and never again, so a reference is modelled
    as a pair (index of the call, rotation) and [_rotated] is the successor of the
    rotation.  The attributes that do change, [_left_from_start] and [_start], live in a
    heap. *)
From Verif Require Import Base Geometry.

(** subdivisional.py:26-45: which of the four objects of one [from_endpoints] call. *)
Inductive rot := R0 | R1 | R2 | R3.
(** subdivisional.py:42-45: the attribute [_rotated]. *)
Definition rot_succ (r : rot) : rot :=
  match r with R0 => R1 | R1 => R2 | R2 => R3 | R3 => R0 end.
(** Equality of rotations. *)
Definition rot_eqb (a b : rot) : bool :=
  match a, b with R0, R0 | R1, R1 | R2, R2 | R3, R3 => true | _, _ => false end.

(** subdivisional.py:13: a reference to a [QuadEdge] object. *)
Definition edge : Type := nat * rot.
(** Python [is] on edges. *)
Definition edge_eqb (a b : edge) : bool := Nat.eqb (fst a) (fst b) && rot_eqb (snd a) (snd b).

(** subdivisional.py:26-45: the mutable attributes of all the objects created so far. *)
Record heap := Heap {
  h_count : nat;               (* number of [from_endpoints] calls so far *)
  h_lfs : edge -> edge;        (* [_left_from_start] *)
  h_org : edge -> point        (* [_start]; meaningless for the dual objects, whose
                                  [_start] is [None] and is never read *)
}.

(** Assignment of one attribute of one object. *)
Definition upd {B} (f : edge -> B) (e : edge) (v : B) : edge -> B :=
  fun x => if edge_eqb x e then v else f x.

(** No object has been created; [p] stands for the [_start] of such objects, which is never
    read (subdivisional.py:26-45). *)
Definition empty_heap (p : point) : heap := Heap 0 (fun e => e) (fun _ => p).

(** subdivisional.py:92-99 [rotated] *)
Definition rotated (e : edge) : edge := (fst e, rot_succ (snd e)).
(** subdivisional.py:71-76 [opposite]: [self.rotated.rotated] *)
Definition opposite (e : edge) : edge := rotated (rotated e).
(** subdivisional.py:62-69 [left_from_start] *)
Definition left_from_start (h : heap) (e : edge) : edge := h_lfs h e.
(** subdivisional.py:101-108 [start] *)
Definition start (h : heap) (e : edge) : point := h_org h e.
(** subdivisional.py:48-53 [end] *)
Definition end_ (h : heap) (e : edge) : point := start h (opposite e).
(** subdivisional.py:55-60 [left_from_end]:
    [self.rotated.opposite.left_from_start.rotated] *)
Definition left_from_end (h : heap) (e : edge) : edge :=
  rotated (left_from_start h (opposite (rotated e))).
(** subdivisional.py:78-83 [right_from_end]: [self.opposite.left_from_start] *)
Definition right_from_end (h : heap) (e : edge) : edge := left_from_start h (opposite e).
(** subdivisional.py:85-90 [right_from_start]: [self.rotated.left_from_start.rotated] *)
Definition right_from_start (h : heap) (e : edge) : edge :=
  rotated (left_from_start h (rotated e)).

(** subdivisional.py:23-46 [from_endpoints] *)
Definition from_endpoints (h : heap) (s e : point) : edge * heap :=
  let q := h_count h in
  let lfs := upd (upd (upd (upd (h_lfs h) (q, R0) (q, R0)) (q, R2) (q, R2))
                      (q, R1) (q, R3)) (q, R3) (q, R1) in
  let org := upd (upd (h_org h) (q, R0) s) (q, R2) e in
  ((q, R0), Heap (S q) lfs org).

(** subdivisional.py:148-159 [splice]: the two pairs of [_left_from_start] are swapped
    one pair after the other, as in the two tuple assignments. *)
Definition swap_lfs (h : heap) (a b : edge) : heap :=
  let va := left_from_start h a in
  let vb := left_from_start h b in
  Heap (h_count h) (upd (upd (h_lfs h) a vb) b va) (h_org h).
(** subdivisional.py:148-159 [splice] *)
Definition splice (h : heap) (a b : edge) : heap :=
  let alpha := rotated (left_from_start h a) in
  let beta := rotated (left_from_start h b) in
  swap_lfs (swap_lfs h a b) alpha beta.

(** subdivisional.py:130-137 [connect] *)
Definition connect (h : heap) (e other : edge) : edge * heap :=
  let '(result, h1) := from_endpoints h (end_ h e) (start h other) in
  let h2 := splice h1 result (left_from_end h1 e) in
  let h3 := splice h2 (opposite result) other in
  (result, h3).

(** subdivisional.py:139-142 [delete] *)
Definition delete (h : heap) (e : edge) : heap :=
  let h1 := splice h e (right_from_start h e) in
  splice h1 (opposite e) (right_from_start h1 (opposite e)).

(** subdivisional.py:144-146 [orientation_of] *)
Definition orientation_of (h : heap) (e : edge) (p : point) : orientation :=
  angle_orientation (start h e) (end_ h e) p.

(** subdivisional.py:161-171 [flip] *)
Definition set_start (h : heap) (e : edge) (p : point) : heap :=
  Heap (h_count h) (h_lfs h) (upd (h_org h) e p).
(** subdivisional.py:161-171 [flip] *)
Definition flip (h : heap) (e : edge) : heap :=
  let side := right_from_start h e in
  let opp := opposite e in
  let opposite_side := right_from_start h opp in
  let h1 := splice h e side in
  let h2 := splice h1 opp opposite_side in
  let h3 := splice h2 e (left_from_end h2 side) in
  let h4 := splice h3 opp (left_from_end h3 opposite_side) in
  let h5 := set_start h4 e (end_ h4 side) in
  set_start h5 opp (end_ h5 opposite_side).

(** subdivisional.py:174-182 [to_edge_neighbours] *)
Definition to_edge_neighbours (h : heap) (e : edge) : list edge :=
  let candidate := left_from_start h e in
  if orientation_eqb (orientation_of h e (end_ h candidate)) COUNTERCLOCKWISE
  then [candidate; right_from_end h candidate] else [].
