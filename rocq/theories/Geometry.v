(** Planar primitives supplied by the dependency [ground] (package [ground.context]),
    which is not part of /repo.  The definitions below are the documented contract of
    the methods of [Context] that /repo calls; they are part of the trusted base. *)
From Verif Require Import Base.

(** [ground.hints.Point]: attributes [x], [y]; ordered lexicographically. *)
Record point := Pt { px : Qc; py : Qc }.

(** [Point.__eq__]. *)
Definition point_eqb (p q : point) : bool := qeqb (px p) (px q) && qeqb (py p) (py q).
(** [Point.__le__] / [__lt__]: lexicographic on (x, y). *)
Definition point_leb (p q : point) : bool :=
  qltb (px p) (px q) || (qeqb (px p) (px q) && qleb (py p) (py q)).
(** [Point.__lt__]: lexicographic on (x, y). *)
Definition point_ltb (p q : point) : bool :=
  qltb (px p) (px q) || (qeqb (px p) (px q) && qltb (py p) (py q)).

(** [ground.hints.Segment], [Contour], [Polygon], [Box], ... *)
Record segment := Seg { seg_start : point; seg_end : point }.
(** [ground.hints.Box]. *)
Record box := Box { min_x : Qc; max_x : Qc; min_y : Qc; max_y : Qc }.
Definition contour := list point.   (* [Contour.vertices] *)
(** [ground.hints.Polygon]: attributes [border], [holes]. *)
Record polygon := Poly { border : contour; holes : list contour }.

(** [ground.enums.Orientation] (an [IntEnum]: CLOCKWISE = -1, COLLINEAR = 0,
    COUNTERCLOCKWISE = 1). *)
Inductive orientation := CLOCKWISE | COLLINEAR | COUNTERCLOCKWISE.
(** Python [is] between two members of [Orientation]. *)
Definition orientation_eqb (a b : orientation) : bool :=
  match a, b with
  | CLOCKWISE, CLOCKWISE | COLLINEAR, COLLINEAR | COUNTERCLOCKWISE, COUNTERCLOCKWISE => true
  | _, _ => false
  end.

Open Scope Qc_scope.

(** Signed doubled area of the triangle (o, a, b). *)
Definition cross (o a b : point) : Qc :=
  (px a - px o) * (py b - py o) - (py a - py o) * (px b - px o).

(** [Context.angle_orientation(vertex, first_ray_point, second_ray_point)]. *)
Definition angle_orientation (v f s : point) : orientation :=
  match cross v f s ?= 0 with
  | Lt => CLOCKWISE | Eq => COLLINEAR | Gt => COUNTERCLOCKWISE
  end.

(** [Context.locate_point_in_point_point_point_circle(point, first, second, third)]:
    sign of the in-circle determinant.  All calls in /repo pass a counterclockwise
    (first, second, third), for which "positive" means INTERIOR. *)
Definition incircle (p a b c : point) : Qc :=
  let adx := px a - px p in let ady := py a - py p in
  let bdx := px b - px p in let bdy := py b - py p in
  let cdx := px c - px p in let cdy := py c - py p in
  (adx * adx + ady * ady) * (bdx * cdy - bdy * cdx)
  - (bdx * bdx + bdy * bdy) * (adx * cdy - ady * cdx)
  + (cdx * cdx + cdy * cdy) * (adx * bdy - ady * bdx).
(** The comparison of that location with [Location.INTERIOR] (triangular.py:112, 140, 160). *)
Definition in_circle_interior (p a b c : point) : bool := qltb 0 (incircle p a b c).

(** [[f(l[i - 1], l[i]) for i in range(len(l))]] (Python: [l[-1]] is the last element). *)
Definition zip_with_prev {A B} (f : A -> A -> B) (l : list A) : list B :=
  match l with
  | [] => []
  | x :: _ => map (fun ab => f (fst ab) (snd ab)) (combine (last l x :: l) l)
  end.

(** [Context.contour_segments(contour)]: the edges
    [Segment(vertices[index - 1], vertices[index]) for index in range(len(vertices))]. *)
Definition contour_segments (vs : contour) : list segment := zip_with_prev Seg vs.

(** Python [sum] of fractions. *)
Definition qsum (l : list Qc) : Qc := fold_right Qcplus 0 l.
(** An integer as a fraction. *)
Definition Qc_of_Z (z : Z) : Qc := Q2Qc (inject_Z z).

(** [Context.multipoint_centroid]. *)
Definition multipoint_centroid (ps : list point) : point :=
  let n := Qc_of_Z (Z.of_nat (length ps)) in
  Pt (qsum (map px ps) / n) (qsum (map py ps) / n).

(** [Context.region_centroid(contour)]: the area centroid.  A contour of zero signed
    area makes the real implementation divide by zero. *)
Definition shoelace (p q : point) : Qc := px p * py q - px q * py p.
(** Twice the signed area, as [Context.region_centroid] computes it. *)
Definition doubled_area (vs : contour) : Qc := qsum (zip_with_prev shoelace vs).
(** [Context.region_centroid(contour)]. *)
Definition region_centroid (vs : contour) : res point :=
  let d := doubled_area vs in
  if qeqb d 0 then Raise ZeroDivisionError
  else Ok (Pt (qsum (zip_with_prev (fun p q => (px p + px q) * shoelace p q) vs) / ((1 + 1 + 1) * d))
              (qsum (zip_with_prev (fun p q => (py p + py q) * shoelace p q) vs) / ((1 + 1 + 1) * d))).

(** [Context.segments_relation(left, right)] collapsed to the only distinction /repo
    makes (factories.py:175-178): neither DISJOINT nor TOUCH. *)
Definition segments_cross_or_overlap (s t : segment) : bool :=
  let a := seg_start s in let b := seg_end s in
  let c := seg_start t in let d := seg_end t in
  let o1 := angle_orientation a b c in
  let o2 := angle_orientation a b d in
  let o3 := angle_orientation c d a in
  let o4 := angle_orientation c d b in
  match o1, o2 with
  | COLLINEAR, COLLINEAR =>
      let lo p q := if point_leb p q then p else q in
      let hi p q := if point_leb p q then q else p in
      point_ltb (hi (lo a b) (lo c d)) (lo (hi a b) (hi c d))
  | CLOCKWISE, COUNTERCLOCKWISE | COUNTERCLOCKWISE, CLOCKWISE =>
      match o3, o4 with
      | CLOCKWISE, COUNTERCLOCKWISE | COUNTERCLOCKWISE, CLOCKWISE => true
      | _, _ => false
      end
  | _, _ => false
  end.

(** [bentley_ottmann.planar.segments_cross_or_overlap(segments)]: some pair does. *)
Fixpoint some_segments_cross_or_overlap (l : list segment) : bool :=
  match l with
  | [] => false
  | s :: l' => existsb (segments_cross_or_overlap s) l' || some_segments_cross_or_overlap l'
  end.
Close Scope Qc_scope.

(** Key orders used for sorting points. *)
Definition vertical_leb (p q : point) : bool :=
  qltb (py p) (py q) || (qeqb (py p) (py q) && qleb (px p) (px q)).
