(** Moving and rescaling the plane: x -> k x + a, y -> k y + b with k > 0. *)
From Verif Require Import Base Prog Geometry Ctx Strategies Planar.

Definition move_scalar (k a x : Qc) : Qc := (k * x + a)%Qc.
Definition move_point (k a b : Qc) (p : point) : point := Pt (move_scalar k a (px p)) (move_scalar k b (py p)).
Definition move_segment (k a b : Qc) (s : segment) : segment := Seg (move_point k a b (seg_start s)) (move_point k a b (seg_end s)).
Definition move_box (k a b : Qc) (o : box) : box :=
  Box (move_scalar k a (min_x o)) (move_scalar k a (max_x o)) (move_scalar k b (min_y o)) (move_scalar k b (max_y o)).
Definition move_contour (k a b : Qc) (c : contour) : contour := map (move_point k a b) c.
Definition move_polygon (k a b : Qc) (p : polygon) : polygon := Poly (move_contour k a b (border p)) (map (move_contour k a b) (holes p)).
Definition move_part {A} (m : A -> A) (p : part A) : part A :=
  match p with EmptyPart => EmptyPart | SinglePart x => SinglePart (m x) | MultiPart l => MultiPart (map m l) end.
Definition move_mix (k a b : Qc) (m : mix) : mix :=
  Mix (move_part (move_point k a b) (discrete m)) (move_part (move_segment k a b) (linear m)) (move_part (move_polygon k a b) (shaped m)).

(** The strategy of the moved coordinates. *)
Definition move_scalars (k a : Qc) (s : scalars) : scalars :=
  match s with Drawn p => Drawn (pmap (move_scalar k a) p) | Sampled l => Sampled (map (move_scalar k a) l) end.

(** What the services of the dependencies have to do with motions: moving the points moves the
    hull and the nearest segment, and positive multiples of a direction have the same angle. *)
Definition follows_motion (ctx : context) (k a b : Qc) : Prop :=
  (forall l, ctx_hull ctx (map (move_point k a b) l) = map (move_point k a b) (ctx_hull ctx l)) /\
  (forall l s, ctx_nearest ctx (map (move_segment k a b) l) (move_segment k a b s) = move_segment k a b (ctx_nearest ctx l s)) /\
  (forall y x, ctx_atan2 ctx (k * y)%Qc (k * x)%Qc = ctx_atan2 ctx y x).

(** The second call gives exactly the moved values of the first, the same warnings and the same
    exceptions. *)
Definition moved {A} (m : A -> A) (c c' : call A) : Prop :=
  match c, c' with
  | Ok (w, s), Ok (w', s') =>
      w' = w /\ (forall v', generates s' v' <-> exists v, generates s v /\ v' = m v) /\ (forall e, can_raise s' e <-> can_raise s e)
  | Raise e, Raise e' => e' = e
  | _, _ => False
  end.
