(** Points inside a closed contour: the winding number. *)
From Verif Require Import Base Geometry Spec.

(** The directed edges of a contour: from each vertex to the next one, from the last one to the
    first one. *)
Definition cycle_edges (vs : contour) : list (point * point) :=
  match vs with
  | [] => []
  | v :: rest => combine vs (rest ++ [v])
  end.

(** How the directed edge from [a] to [b] passes the ray that goes vertically upwards from [q]:
    [1] if from right to left, [-1] if from left to right, [0] if not at all.  (An edge meets
    the ray if one of its ends is on or to the left of the line of the ray, the other one to
    the right of it, and [q] is strictly below the edge.) *)
Definition passes (q a b : point) : Z :=
  if qleb (px b) (px q) && qltb (px q) (px a) && qltb 0 (cross a b q) then 1%Z
  else if qleb (px a) (px q) && qltb (px q) (px b) && qltb (cross a b q) 0 then (-1)%Z
  else 0%Z.
(** The number of counterclockwise turns of the contour around [q]: [0] outside. *)
Definition winding (q : point) (vs : contour) : Z :=
  fold_right Z.add 0%Z (map (fun e => passes q (fst e) (snd e)) (cycle_edges vs)).
(** [q] is inside the counterclockwise contour [vs]. *)
Definition within (q : point) (vs : contour) : Prop := winding q vs = 1%Z /\ ~ on_contour q vs.
(** A closed curve that does not meet itself: two different edges have no point in common,
    except that an edge ends where the next one starts. *)
Definition jordan (vs : contour) : Prop :=
  NoDup vs /\
  forall a b c d p, contour_edge vs a b -> contour_edge vs c d -> (a, b) <> (c, d) ->
    on_segment p a b -> on_segment p c d -> (p = b /\ p = c) \/ (p = a /\ p = d).

(** Twice the signed area enclosed by a contour (positive if it is counterclockwise). *)
Definition signed_area (vs : contour) : Qc :=
  fold_right Qcplus 0%Qc
    (map (fun e => px (fst e) * py (snd e) - px (snd e) * py (fst e))%Qc (cycle_edges vs)).

(** The border of the polygon is a counterclockwise closed curve that does not meet itself and
    has no straight angle, and all points of the holes are inside it. *)
Definition well_bordered (p : polygon) : Prop :=
  jordan (border p) /\ strict (border p) /\ (0 < signed_area (border p))%Qc
  /\ forall vs q, In vs (holes p) -> on_contour q vs -> within q (border p).

(** No angle of the contour is straight except possibly the ones at its first two vertices. *)
Definition later_strict (vs : contour) : Prop :=
  forall i a b c, (1 <= i)%nat -> nth_error vs i = Some a -> nth_error vs (S i) = Some b ->
    nth_error vs (S (S i) mod length vs)%nat = Some c -> ~ collinear a b c.
