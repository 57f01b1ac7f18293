(** A concrete instance of the services of [Ctx.v], used in examples and refutations.  That it
    has the properties the theorems ask for is proved in ReferenceProofs.v.  Nothing here models
    code of /repo. *)
From Verif Require Import Base Geometry Ctx Contracts Factories Spec.

(** Monotone chain without the points in the middle of an edge; [result] last point first. *)
Fixpoint chain_pop (result : list point) (p : point) : list point :=
  match result with
  | b :: ((a :: _) as rest) =>
      if orientation_eqb (angle_orientation a b p) COUNTERCLOCKWISE then result else chain_pop rest p
  | _ => result
  end.
Definition half_hull (l : list point) : list point :=
  rev (fold_left (fun result p => p :: chain_pop result p) l []).
Definition chain_hull (l : list point) : list point :=
  let l := isort point_leb (points_set l) in
  match l with
  | [] | [_] => l
  | _ => removelast (half_hull l) ++ removelast (half_hull (rev l))
  end.

Definition member (p : point) (l : list point) : bool := existsb (point_eqb p) l.
Fixpoint distinct (l : list point) : bool :=
  match l with [] => true | p :: l' => negb (member p l') && distinct l' end.
Definition not_clockwise (o : orientation) : bool :=
  match o with CLOCKWISE => false | _ => true end.
(** The contract of the hull, decided. *)
Definition hull_check (l h : list point) : bool :=
  distinct h && forallb (fun p => member p l) h
  && forallb (fun s => forallb (fun p => not_clockwise (angle_orientation (seg_start s) (seg_end s) p)) l)
       (contour_segments h)
  && forallb (fun s => forallb (fun p => point_eqb p (seg_start s) || point_eqb p (seg_end s)
        || orientation_eqb (angle_orientation (seg_start s) (seg_end s) p) COUNTERCLOCKWISE) h)
       (contour_segments h).
Definition ref_hull (l : list point) : list point :=
  let h := chain_hull l in if hull_check l h then h else [].

(** As few coins as possible, in ascending order. *)
Definition ref_coins (n : nat) : list nat :=
  match n mod 3 with
  | 0 => repeat 3 (n / 3)
  | 1 => 2 :: 2 :: repeat 3 ((n - 4) / 3)
  | _ => 2 :: repeat 3 ((n - 2) / 3)
  end.

(** A rational function with the order of the angle. *)
Definition ref_atan2 (y x : Qc) : res Qc :=
  let abs q := if qltb q 0 then (- q)%Qc else q in
  let r := (abs x + abs y)%Qc in
  Ok (if qeqb r 0 then Q2Qc 0
      else if qltb y 0 then (x / r - 1)%Qc else (1 - x / r)%Qc).

(** The first segment that has a common point with the given one, or any. *)
Definition on_segment_b (p a b : point) : bool :=
  is_collinear a b p
  && qleb (qmin (px a) (px b)) (px p) && qleb (px p) (qmax (px a) (px b))
  && qleb (qmin (py a) (py b)) (py p) && qleb (py p) (qmax (py a) (py b)).
Definition segments_meet (s t : segment) : bool :=
  on_segment_b (seg_start s) (seg_start t) (seg_end t) || on_segment_b (seg_end s) (seg_start t) (seg_end t)
  || on_segment_b (seg_start t) (seg_start s) (seg_end s) || on_segment_b (seg_end t) (seg_start s) (seg_end s)
  || segments_cross_or_overlap s t.
Definition ref_nearest (l : list segment) (s : segment) : segment :=
  match find (fun t => segments_meet t s) l with
  | Some t => t
  | None => hd s l
  end.

Definition reference : context :=
  Context 65536 ref_coins ref_hull ref_atan2 ref_nearest.
