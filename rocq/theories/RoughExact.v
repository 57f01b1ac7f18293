(** With exact arithmetic the functions of the rough model are those of the model.  Both sides unfold
    to the same term; what does not depend on arithmetic is kept folded while they are compared. *)
From Verif Require Import Base Prog Geometry Ctx QuadEdge Utils Contracts Triangulation Factories Strategies Planar
  RoughArith RoughFactories RoughStrategies RoughPlanar.

Local Opaque Geometry.angle_orientation Geometry.in_circle_interior Geometry.multipoint_centroid Geometry.region_centroid
  Geometry.segments_cross_or_overlap Geometry.some_segments_cross_or_overlap Qcplus Qcminus from_endpoints splice connect
  delete flip.
Lemma exact_api :
  @RoughPlanar.multisegments exact = Planar.multisegments /\ @RoughPlanar.contours exact = Planar.contours /\
  @RoughPlanar.convex_contours exact = Planar.convex_contours /\ @RoughPlanar.concave_contours exact = Planar.concave_contours /\
  @RoughPlanar.triangular_contours exact = Planar.triangular_contours /\ @RoughPlanar.star_contours exact = Planar.star_contours /\
  @RoughPlanar.multicontours exact = Planar.multicontours /\ @RoughPlanar.polygons exact = Planar.polygons /\
  @RoughPlanar.multipolygons exact = Planar.multipolygons /\ @RoughPlanar.mixes exact = Planar.mixes.
Proof. repeat (apply conj; [reflexivity|]). reflexivity. Qed.
