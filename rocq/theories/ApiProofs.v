(** The exact supports, stated for the public API. *)
From Verif Require Import Base Prog Geometry Ctx Utils Contracts Factories Strategies Planar Spec ProgProofs GeomProofs SimpleProofs PlanarProofs.

Lemma points_exact xs ys w s : points xs ys = Ok (w, s) ->
  forall p, generates s p <-> drawable xs (px p) /\ drawable (ordinates xs ys) (py p).
Proof. intros H. injection H as _ <-. apply gen_point. Qed.
Lemma multipoints_exact xs ys mn mx w s : multipoints xs ys mn mx = Ok (w, s) ->
  forall l, generates s l <->
    NoDup l /\ size_ok (lenZ l) (Z.max mn 1) mx /\ forall p, In p l -> drawable_point xs ys p.
Proof.
  unfold multipoints. intros Hok; validate; try discriminate. injection Hok as _ <-. intros l.
  unfold to_multipoint_strategy. rewrite gen_unique_points. change MIN_MULTIPOINT_SIZE with 1%Z.
  assert (0 <= Z.max mn 1)%Z by lia. tauto.
Qed.
Lemma segments_exact xs ys w s : segments xs ys = Ok (w, s) ->
  forall g, generates s g <->
    seg_start g <> seg_end g /\ drawable_point xs ys (seg_start g) /\ drawable_point xs ys (seg_end g).
Proof. intros H. injection H as _ <-. apply gen_segment. Qed.
Lemma boxes_exact xs ys w s : boxes xs ys = Ok (w, s) ->
  forall b, generates s b <->
    (min_x b < max_x b)%Qc /\ (min_y b < max_y b)%Qc
    /\ drawable xs (min_x b) /\ drawable xs (max_x b)
    /\ drawable (ordinates xs ys) (min_y b) /\ drawable (ordinates xs ys) (max_y b).
Proof. intros H. injection H as _ <-. apply gen_box. Qed.
Lemma rectangular_exact xs ys w s : rectangular_contours xs ys = Ok (w, s) ->
  forall vs, generates s vs <->
    exists x1 x2 y1 y2, vs = [Pt x1 y1; Pt x2 y1; Pt x2 y2; Pt x1 y2]
      /\ (x1 < x2)%Qc /\ (y1 < y2)%Qc /\ drawable xs x1 /\ drawable xs x2
      /\ drawable (ordinates xs ys) y1 /\ drawable (ordinates xs ys) y2.
Proof. intros H. injection H as _ <-. apply gen_rectangle. Qed.
Lemma rectangular_convex xs ys w s vs : rectangular_contours xs ys = Ok (w, s) ->
  generates s vs -> convex_ccw vs.
Proof.
  intros H Hg. apply (rectangular_exact _ _ _ _ H) in Hg.
  destruct Hg as (x1 & x2 & y1 & y2 & -> & Hx & Hy & _). apply rectangle_convex; assumption.
Qed.
Lemma triangular_exact xs ys w s : triangular_contours xs ys = Ok (w, s) ->
  forall vs, generates s vs <->
    exists a b c, vs = [a; b; c] /\ left_turn a b c /\ drawable_point xs ys a
      /\ drawable_point xs ys b /\ drawable_point xs ys c.
Proof. intros H. injection H as _ <-. apply gen_triangle. Qed.

Lemma multipolygons_negative ctx xs ys : exists s,
  multipolygons ctx xs ys 2 None 3 None (-1) None 3 None = Ok (["min_holes_size"%string], s)
  /\ can_raise s AssertionError /\ forall l, ~ generates s l.
Proof.
  eexists. split; [reflexivity|]. split.
  - constructor.
  - intros l H. inversion H.
Qed.
