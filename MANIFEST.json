{
 "claims": [
  {
   "property": "C01",
   "status": "proved",
   "theorems": [
    "C01_multipoints",
    "C01_multisegments",
    "C01_contours",
    "C01_convex_contours",
    "C01_concave_contours",
    "C01_star_contours",
    "C01_multicontours",
    "C01_polygons",
    "C01_multipolygons",
    "C01_mixes"
   ],
   "note": ""
  },
  {
   "property": "C02",
   "status": "proved",
   "theorems": [
    "C02_multipoints",
    "C02_multisegments",
    "C02_contours",
    "C02_convex_contours",
    "C02_concave_contours",
    "C02_star_contours",
    "C02_multicontours",
    "C02_polygons",
    "C02_multipolygons",
    "C02_mixes"
   ],
   "note": ""
  },
  {
   "property": "C03",
   "status": "partial",
   "theorems": [
    "C03_multipoints",
    "C03_multisegments",
    "C03_contours",
    "C03_convex_contours",
    "C03_concave_contours",
    "C03_star_contours",
    "C03_multicontours",
    "C03_polygons",
    "C03_mixes",
    "C03_multipolygons_nonnegative_holes",
    "C03_multipolygons_negative_refuted"
   ],
   "note": "Proved for every function; for multipolygons under 0 <= min_holes_size. The code does not clamp that argument and the unrestricted statement is refuted."
  },
  {
   "property": "C04",
   "status": "proved",
   "theorems": [
    "C04_mix_needs_two_kinds"
   ],
   "note": ""
  },
  {
   "property": "C05",
   "status": "proved",
   "theorems": [
    "C05_points"
   ],
   "note": ""
  },
  {
   "property": "C06",
   "status": "proved",
   "theorems": [
    "C06_omitted_ordinates"
   ],
   "note": ""
  },
  {
   "property": "C07",
   "status": "proved",
   "theorems": [
    "C07_multipoints"
   ],
   "note": ""
  },
  {
   "property": "C08",
   "status": "proved",
   "theorems": [
    "C08_segments"
   ],
   "note": ""
  },
  {
   "property": "C09",
   "status": "proved",
   "theorems": [
    "C09_boxes"
   ],
   "note": ""
  },
  {
   "property": "C10",
   "status": "proved",
   "theorems": [
    "C10_rectangular_contours",
    "C10_rectangular_contours_convex"
   ],
   "note": ""
  },
  {
   "property": "C11",
   "status": "proved",
   "theorems": [
    "C11_triangular_contours"
   ],
   "note": ""
  },
  {
   "property": "C12",
   "status": "proved",
   "theorems": [
    "C12_convex_contours"
   ],
   "note": ""
  },
  {
   "property": "C13",
   "status": "proved",
   "theorems": [
    "C13_convex_contours_sizes"
   ],
   "note": ""
  },
  {
   "property": "C14",
   "status": "proved",
   "theorems": [
    "C14_convex_contours_range"
   ],
   "note": ""
  },
  {
   "property": "C15",
   "status": "proved",
   "theorems": [
    "C15_star_contours_sizes"
   ],
   "note": ""
  },
  {
   "property": "C16",
   "status": "proved",
   "theorems": [
    "C16_star_contours_angles"
   ],
   "note": ""
  },
  {
   "property": "C17",
   "status": "proved",
   "theorems": [
    "C17_star_contours_turns"
   ],
   "note": ""
  },
  {
   "property": "C18",
   "status": "proved",
   "theorems": [
    "C18_contours_sizes"
   ],
   "note": ""
  },
  {
   "property": "C19",
   "status": "partial",
   "theorems": [
    "C19_contours_angles_partial"
   ],
   "note": "Unconditional for the convex and star alternatives; for contours carved out of a triangulation every turn that does not touch the closing edge is proved strict, and all turns when the carved vertices are distinct. Missing: the cutting of ears (which happens only if three of the points are on one line) leaves the cut vertex on the boundary as a spike, i.e. visits its neighbour twice, and it is not proved that the final removal of straight angles always removes spikes at the first and last vertex too; a search over millions of draws found no exception. With coordinates in general position: C71."
  },
  {
   "property": "C20",
   "status": "partial",
   "theorems": [
    "C20_contours_simple_refuted",
    "C20_contours_simple_partial"
   ],
   "note": "The statement is refuted: a self-crossing contour can be generated (by the alternative that carves it out of a triangulation). Proved: contours of three vertices are simple; convex contours are (C12). With coordinates in general position the statement holds: C71."
  },
  {
   "property": "C21",
   "status": "partial",
   "theorems": [
    "C21_concave_contours_partial"
   ],
   "note": "Sizes and the absence of convexity are proved; what is missing is the same as in C19. With coordinates in general position: C70."
  },
  {
   "property": "C22",
   "status": "proved",
   "theorems": [
    "C22_multisegments_sizes"
   ],
   "note": ""
  },
  {
   "property": "C23",
   "status": "proved",
   "theorems": [
    "C23_multisegments_ends"
   ],
   "note": ""
  },
  {
   "property": "C24",
   "status": "partial",
   "theorems": [
    "C24_multisegments_apart_refuted",
    "C24_multisegments_apart_partial"
   ],
   "note": "The statement is refuted: a multisegment cut from a self-crossing contour crosses itself. Proved: in a multisegment that crosses itself the segments are edges of one generated contour that is not simple; all the other alternatives are free of crossings. With coordinates in general position the statement holds: C72."
  },
  {
   "property": "C25",
   "status": "proved",
   "theorems": [
    "C25_multicontours_sizes"
   ],
   "note": ""
  },
  {
   "property": "C26",
   "status": "proved",
   "theorems": [
    "C26_multicontours_apart"
   ],
   "note": ""
  },
  {
   "property": "C27",
   "status": "proved",
   "theorems": [
    "C27_polygons_sizes"
   ],
   "note": ""
  },
  {
   "property": "C28",
   "status": "proved",
   "theorems": [
    "C28_polygons_holes_apart",
    "C28_holes_check"
   ],
   "note": ""
  },
  {
   "property": "C29",
   "status": "partial",
   "theorems": [
    "C29_borders_angles_partial",
    "C29_holes_angles_partial"
   ],
   "note": "Proved for borders of polygons and mixes, for borders of multipolygons when a hole is required or present, for triangular holes, and for all angles of a hole but the ones at its first two vertices. Missing: those two angles, and borders of multipolygons taken from contours (see C19)."
  },
  {
   "property": "C30",
   "status": "proved",
   "theorems": [
    "C30_holes_off_border"
   ],
   "note": "Stronger: no point of an edge of a hole is on the border."
  },
  {
   "property": "C31",
   "status": "proved",
   "theorems": [
    "C31_multipolygons_sizes"
   ],
   "note": ""
  },
  {
   "property": "C32",
   "status": "proved",
   "theorems": [
    "C32_multipolygons_apart"
   ],
   "note": ""
  },
  {
   "property": "C33",
   "status": "proved",
   "theorems": [
    "C33_mixes_sizes"
   ],
   "note": ""
  },
  {
   "property": "C34",
   "status": "proved",
   "theorems": [
    "C34_mixes_two_components"
   ],
   "note": ""
  },
  {
   "property": "C35",
   "status": "proved",
   "theorems": [
    "C35_mixes_component_types"
   ],
   "note": ""
  },
  {
   "property": "C36",
   "status": "proved",
   "theorems": [
    "C36_mixes_points_aside",
    "C36_mixes_apart"
   ],
   "note": ""
  },
  {
   "property": "C37",
   "status": "proved",
   "theorems": [
    "C37_grid_exact",
    "C37_grid_sparse",
    "C37_grid_never_fails"
   ],
   "note": ""
  },
  {
   "property": "C38",
   "status": "proved",
   "theorems": [
    "C38_to_next_prime",
    "C38_to_prior_prime",
    "C38_small_values"
   ],
   "note": ""
  },
  {
   "property": "C39",
   "status": "proved",
   "theorems": [
    "C39_points",
    "C39_multipoints",
    "C39_segments",
    "C39_boxes",
    "C39_rectangular_contours",
    "C39_triangular_contours",
    "C39_multisegments",
    "C39_contours",
    "C39_convex_contours",
    "C39_concave_contours",
    "C39_star_contours",
    "C39_multicontours",
    "C39_polygons",
    "C39_multipolygons",
    "C39_mixes"
   ],
   "note": ""
  },
  {
   "property": "C40",
   "status": "proved",
   "theorems": [
    "C40_max_hull_is_boundary",
    "C40_max_hull_has_vertices",
    "C40_hull_at_most_max"
   ],
   "note": ""
  },
  {
   "property": "C41",
   "status": "proved",
   "theorems": [
    "C41_rotated_order_four",
    "C41_left_from_start_bijective",
    "C41_rotation_compatible",
    "C41_navigation_primal",
    "C41_splice_involutive",
    "C41_connect_new_edge",
    "C41_connect_left_face",
    "C41_delete_after_connect",
    "C41_delete_isolates",
    "C41_delete_others",
    "C41_delete_undo"
   ],
   "note": ""
  },
  {
   "property": "C42",
   "status": "proved",
   "theorems": [
    "C42_rings",
    "C42_flip"
   ],
   "note": "The structures are those whose splices join equal starts and whose flipped edges are diagonals of strictly convex quadrilaterals, the test the code performs before the flips of the mouth phase; flips of the ear phase are performed without it and are covered by C41 and C43 only."
  },
  {
   "property": "C43",
   "status": "proved",
   "theorems": [
    "C43_boundary_terminates",
    "C43_boundary_cycle",
    "C43_boundary_joined"
   ],
   "note": "Termination and the cycle property allow arbitrary flips; that consecutive edges share their end needs the flips to be of convex diagonals."
  },
  {
   "property": "C44",
   "status": "proved",
   "theorems": [
    "C44_triangulation_points",
    "C44_contour_points",
    "C44_multicontour_points",
    "C44_polygon_points"
   ],
   "note": ""
  },
  {
   "property": "C45",
   "status": "proved",
   "theorems": [
    "C45_compress_contour",
    "C45_compress_contour_unchanged",
    "C45_compress_contour_repeated_refuted"
   ],
   "note": ""
  },
  {
   "property": "C46",
   "status": "proved",
   "theorems": [
    "C46_angle_contains_point"
   ],
   "note": ""
  },
  {
   "property": "C47",
   "status": "proved",
   "theorems": [
    "C47_has_vertical_leftmost_segment",
    "C47_has_horizontal_lowermost_segment",
    "C47_vertical_false",
    "C47_horizontal_false",
    "C47_raise"
   ],
   "note": ""
  },
  {
   "property": "C48",
   "status": "proved",
   "theorems": [
    "C48_ceil_log2",
    "C48_cut",
    "C48_pairwise",
    "C48_sort_pair"
   ],
   "note": ""
  },
  {
   "property": "C49",
   "status": "proved",
   "theorems": [
    "C49_star_terminates"
   ],
   "note": ""
  },
  {
   "property": "C50",
   "status": "proved",
   "theorems": [
    "C50_multipolygons_coordinates",
    "C50_mixes_coordinates"
   ],
   "note": ""
  },
  {
   "property": "C51",
   "status": "partial",
   "theorems": [
    "C51_multicontours_simple_refuted",
    "C51_multicontours_simple_partial"
   ],
   "note": "The statement is refuted by a draw with a self-crossing contour. Proved: contours of three vertices are simple."
  },
  {
   "property": "C52",
   "status": "partial",
   "theorems": [
    "C52_points",
    "C52_multipoints",
    "C52_segments",
    "C52_boxes",
    "C52_rectangular_contours",
    "C52_triangular_contours",
    "C52_convex_contours",
    "C52_star_contours_refuted",
    "C52_star_contours_partial"
   ],
   "note": "Proved without reservation for all but star contours. For star contours the statement is refuted: seven points are drawn of which, after dropping vertices and sorting the rest around a centroid outside of them, a region of zero area remains. Proved: no other exception is possible."
  },
  {
   "property": "C53",
   "status": "partial",
   "theorems": [
    "C53_polygons_assertion_refuted",
    "C53_polygons_without_holes_partial",
    "C53_bounded_polygons_without_holes_partial"
   ],
   "note": "The statement is refuted by a draw that ends with AssertionError. Proved for polygons when no holes are allowed: no exception, except that without a bound on the sizes the model may reach its iteration bound."
  },
  {
   "property": "C54",
   "status": "proved",
   "theorems": [
    "C54_borders_simple"
   ],
   "note": "Hypotheses: coin change gives twos and threes for every number from two, the nearest-segment query finds a touching segment if there is one; both proved for the reference services."
  },
  {
   "property": "C55",
   "status": "proved",
   "theorems": [
    "C55_holes_inside_border"
   ],
   "note": "As C54."
  },
  {
   "property": "C56",
   "status": "proved",
   "theorems": [
    "C56_delaunay"
   ],
   "note": "For lists of distinct points; C59 proves that the construction succeeds on them."
  },
  {
   "property": "C57",
   "status": "proved",
   "theorems": [
    "C57_hole_edges_apart"
   ],
   "note": ""
  },
  {
   "property": "C58",
   "status": "partial",
   "theorems": [
    "C58_multipolygons_simple_refuted",
    "C58_multipolygons_simple_partial"
   ],
   "note": "The statement is refuted: if no holes are required, a multipolygon may be made of contours, one of which may cross itself. Proved when a hole is required or present."
  },
  {
   "property": "C59",
   "status": "proved",
   "theorems": [
    "C59_delaunay_total"
   ],
   "note": "The number of iterations of each loop is at most n*n+n for n points."
  },
  {
   "property": "C60",
   "status": "proved",
   "theorems": [
    "C60_polygon_without_holes",
    "C60_only_holes_fail"
   ],
   "note": "The number of iterations of each loop is at most n*n+4n for n points."
  },
  {
   "property": "C61",
   "status": "proved",
   "theorems": [
    "C61_points_not_on_a_line"
   ],
   "note": ""
  },
  {
   "property": "C62",
   "status": "proved",
   "theorems": [
    "C62_bound_irrelevant"
   ],
   "note": ""
  },
  {
   "property": "C63",
   "status": "proved",
   "theorems": [
    "C63_carving",
    "C63_multicontour",
    "C63_polygon"
   ],
   "note": ""
  },
  {
   "property": "C64",
   "status": "proved",
   "theorems": [
    "C64_multicontours_simple"
   ],
   "note": "Hypothesis general_coordinates: met by integers up to k and powers of k + 2, both as samples and as unbounded strategies."
  },
  {
   "property": "C65",
   "status": "proved",
   "theorems": [
    "C65_polygons_valid"
   ],
   "note": "As C64."
  },
  {
   "property": "C66",
   "status": "proved",
   "theorems": [
    "C66_multicontours_fuel",
    "C66_multicontours_silent"
   ],
   "note": "The model's iteration bound is never met when the number of points is bounded (_silent); without a size bound it is the only exception the model can raise (_fuel). "
  },
  {
   "property": "C67",
   "status": "proved",
   "theorems": [
    "C67_polygons_fuel",
    "C67_polygons_silent"
   ],
   "note": "The model's iteration bound is never met when the number of points is bounded (_silent); without a size bound it is the only exception the model can raise (_fuel). "
  },
  {
   "property": "C68",
   "status": "proved",
   "theorems": [
    "C68_multipolygons_fuel",
    "C68_multipolygons_silent"
   ],
   "note": "The model's iteration bound is never met when the number of points is bounded (_silent); without a size bound it is the only exception the model can raise (_fuel). "
  },
  {
   "property": "C69",
   "status": "proved",
   "theorems": [
    "C69_star_contours_convex",
    "C69_star_contours_simple"
   ],
   "note": "Hypothesis orders_directions: the computed angle orders directions (idealises the conversion of coordinates to floats); proved for the reference context."
  },
  {
   "property": "C70",
   "status": "proved",
   "theorems": [
    "C70_star_never_concave",
    "C70_concave_contours_general"
   ],
   "note": "Hypotheses on the services as in C54 and C69, all proved for the reference context."
  },
  {
   "property": "C71",
   "status": "proved",
   "theorems": [
    "C71_contours_general"
   ],
   "note": "Hypotheses on the services as in C54 and C69, all proved for the reference context."
  },
  {
   "property": "C72",
   "status": "proved",
   "theorems": [
    "C72_multisegments_general",
    "C72_mixes_general"
   ],
   "note": "Hypotheses on the services as in C54 and C69, all proved for the reference context."
  },
  {
   "property": "C73",
   "status": "proved",
   "theorems": [
    "C73_raises",
    "C73_bounded",
    "C73_division"
   ],
   "note": "Hypotheses on the services as in C54, and an angle that is computed without an exception; all proved for the reference context. OutOfFuel is the bound on iterations of the model; the _bounded theorem shows it is not met when the numbers of points are bounded and the bound is large enough. C73_division shows that ZeroDivisionError does occur."
  },
  {
   "property": "C74",
   "status": "proved",
   "theorems": [
    "C74_raises",
    "C74_bounded"
   ],
   "note": "Hypotheses on the services as in C54, and an angle that is computed without an exception; all proved for the reference context. OutOfFuel is the bound on iterations of the model; the _bounded theorem shows it is not met when the numbers of points are bounded and the bound is large enough."
  },
  {
   "property": "C75",
   "status": "proved",
   "theorems": [
    "C75_convex_contours_bounds",
    "C75_contours_bounds",
    "C75_bounds_kept"
   ],
   "note": "Assumes the hull contract, orders_directions (StarSpec.v) and tells_sides (ValtrSpec.v), all proved for the reference context. With floats, angles of two nearly vertical vectors can be rounded to the same value, which is what the clamp in the code is for."
  },
  {
   "property": "C76",
   "status": "proved",
   "theorems": [
    "C76_convex_contours_cap",
    "C76_star_contours_cap",
    "C76_contours_cap",
    "C76_concave_contours_cap",
    "C76_contours_general_cap",
    "C76_concave_contours_general_cap",
    "C76_six_is_five"
   ],
   "note": "Convex contours assume the hull contract; the general-position theorems assume the contracts of C54 and C69. All proved for the reference context. Without coordinates in general position a carved contour could, for all we can prove (C19), repeat vertices, hence the NoDup hypothesis."
  },
  {
   "property": "C77",
   "status": "proved",
   "theorems": [
    "C77_multipoints",
    "C77_contours",
    "C77_convex_contours",
    "C77_star_contours",
    "C77_concave_contours",
    "C77_multisegments",
    "C77_multicontours",
    "C77_polygons",
    "C77_multipolygons",
    "C77_mixes",
    "C77_prime_needed"
   ],
   "note": "C77_prime_needed shows that the condition on the prime number can not be dropped. mixes: the maximal number of points is kept, all other bounds are relaxed. multipolygons: the new minimal number of holes is not negative."
  },
  {
   "property": "C78",
   "status": "proved",
   "theorems": [
    "C78_points",
    "C78_segments",
    "C78_boxes",
    "C78_rectangular_contours",
    "C78_triangular_contours",
    "C78_multipoints",
    "C78_contours",
    "C78_convex_contours",
    "C78_star_contours",
    "C78_concave_contours",
    "C78_multisegments",
    "C78_multicontours",
    "C78_polygons",
    "C78_multipolygons",
    "C78_mixes"
   ],
   "note": "multipolygons: the minimal number of holes is not negative."
  },
  {
   "property": "C79",
   "status": "proved",
   "theorems": [
    "C79_star_contours_empty"
   ],
   "note": ""
  },
  {
   "property": "C80",
   "status": "proved",
   "theorems": [
    "C80_convex_contours",
    "C80_contours",
    "C80_multisegments"
   ],
   "note": ""
  },
  {
   "property": "C81",
   "status": "proved",
   "theorems": [
    "C81_convex_triangles",
    "C81_convex_triangles_only",
    "C81_convex_rectangles",
    "C81_convex_contours_are_contours",
    "C81_multisegments"
   ],
   "note": ""
  },
  {
   "property": "C82",
   "status": "proved",
   "theorems": [
    "C82_contours",
    "C82_contours_reached",
    "C82_contours_missed"
   ],
   "note": "C82_contours (necessary, all bounds), C82_contours_reached (necessary and sufficient when triangles are allowed: cmn <= 3), C82_contours_missed (corollary). Sufficiency for a least contour size above 3 is not claimed: the contours carved from exactly that many points may have fewer vertices."
  },
  {
   "property": "C83",
   "status": "proved",
   "theorems": [
    "C83_holes",
    "C83_holes_reached",
    "C83_holes_missed"
   ],
   "note": "C83_holes (necessary, all bounds), C83_holes_reached (necessary and sufficient when mn <= 3 and smn <= 3), C83_holes_missed (corollary). The hypothesis on ctx_fuel only bounds the loops of the model."
  },
  {
   "property": "C84",
   "status": "proved",
   "theorems": [
    "C84_to_edges"
   ],
   "note": ""
  },
  {
   "property": "C85",
   "status": "proved",
   "theorems": [
    "C85_multicontours_regions",
    "C85_holes_regions",
    "C85_multipolygons_regions",
    "C85_mixes_regions"
   ],
   "note": ""
  },
  {
   "property": "C86",
   "status": "proved",
   "theorems": [
    "C86_multipolygons_holes_clear",
    "C86_mixes_holes_clear"
   ],
   "note": ""
  },
  {
   "property": "C87",
   "status": "partial",
   "theorems": [
    "C87_contours_assertion_refuted",
    "C87_no_assertion_partial",
    "C87_multicontours_assertion_refuted",
    "C87_multicontours_no_assertion_partial"
   ],
   "note": "The statement is refuted by a draw of nineteen points that ends with AssertionError in contours, concave_contours and multisegments, and by one of twenty-three points in multicontours and multipolygons. Proved for coordinates in general position, with the hypotheses of C73, C66 and C68."
  },
  {
   "property": "C88",
   "status": "partial",
   "theorems": [
    "C88_contours_counterclockwise_refuted",
    "C88_contours_counterclockwise_partial",
    "C88_multicontours_counterclockwise_refuted"
   ],
   "note": "The statement is refuted by generated contours of negative area, also as members of multicontours and borders of polygons of multipolygons. Proved for coordinates in general position (for multicontours: C64); for borders of polygons drawn with holes see C54 and C65."
  },
  {
   "property": "C89",
   "status": "proved",
   "theorems": [
    "C89_convex_contours",
    "C89_contours",
    "C89_multisegments",
    "C89_mixes"
   ],
   "note": "For the remaining functions all coordinates are drawn ones (C05-C11, C15, C27, C50)."
  },
  {
   "property": "C90",
   "status": "proved",
   "theorems": [
    "C90_points",
    "C90_multipoints",
    "C90_segments",
    "C90_boxes",
    "C90_rectangular_contours",
    "C90_triangular_contours",
    "C90_multisegments",
    "C90_contours",
    "C90_convex_contours",
    "C90_concave_contours",
    "C90_star_contours",
    "C90_multicontours",
    "C90_polygons",
    "C90_multipolygons",
    "C90_mixes",
    "C90_translations_keep_angles"
   ],
   "note": ""
  },
  {
   "property": "C91",
   "status": "proved",
   "theorems": [
    "C91_exact",
    "C91_convex_contours",
    "C91_contours",
    "C91_concave_contours",
    "C91_star_contours",
    "C91_triangular_contours",
    "C91_multisegments",
    "C91_multicontours_sizes",
    "C91_multicontours_apart",
    "C91_polygons_sizes",
    "C91_polygons_holes_apart",
    "C91_multipolygons_sizes",
    "C91_multipolygons_drawable",
    "C91_multipolygons_apart",
    "C91_mixes_sizes",
    "C91_mixes_two_components",
    "C91_mixes_component_types",
    "C91_mixes_coordinates",
    "C91_mixes_points_aside",
    "C91_mixes_apart"
   ],
   "note": ""
  },
  {
   "property": "C92",
   "status": "proved",
   "theorems": [
    "C92_multipolygons",
    "C92_multipolygons_reached",
    "C92_mixes_reached"
   ],
   "note": ""
  },
  {
   "property": "C93",
   "status": "proved",
   "theorems": [
    "C93_contour_hull",
    "C93_border_hull"
   ],
   "note": ""
  },
  {
   "property": "C94",
   "status": "proved",
   "theorems": [
    "C94_mouths_suffice",
    "C94_never_past",
    "C94_ear_rated"
   ],
   "note": ""
  },
  {
   "property": "C95",
   "status": "proved",
   "theorems": [
    "C95_mouths_end",
    "C95_carved",
    "C95_hull",
    "C95_border_hull",
    "C95_border_more"
   ],
   "note": ""
  },
  {
   "property": "C96",
   "status": "proved",
   "theorems": [
    "C96_multipolygons",
    "C96_multicontours",
    "C96_mixes_polygons",
    "C96_mixes_points",
    "C96_star_contours",
    "C96_concave_contours"
   ],
   "note": ""
  },
  {
   "property": "C97",
   "status": "proved",
   "theorems": [
    "C97_points_exchanged",
    "C97_multipoints_exchanged",
    "C97_segments_exchanged",
    "C97_boxes_exchanged",
    "C97_rectangular_contours_exchanged",
    "C97_triangular_contours_exchanged",
    "C97_points_reversed",
    "C97_multipoints_reversed",
    "C97_segments_reversed",
    "C97_boxes_reversed",
    "C97_rectangular_contours_reversed",
    "C97_triangular_contours_reversed"
   ],
   "note": ""
  },
  {
   "property": "C98",
   "status": "proved",
   "theorems": [
    "C98_carving",
    "C98_contours",
    "C98_polygons",
    "C98_mixes"
   ],
   "note": ""
  },
  {
   "property": "C99",
   "status": "proved",
   "theorems": [
    "C99_shapes",
    "C99_contours",
    "C99_collections",
    "C99_sampled"
   ],
   "note": ""
  },
  {
   "property": "C100",
   "status": "proved",
   "theorems": [
    "C100_multisegments",
    "C100_parts",
    "C100_pairs",
    "C100_pairs_exchanged",
    "C100_pairs_reversed"
   ],
   "note": ""
  },
  {
   "property": "C101",
   "status": "proved",
   "theorems": [
    "C101_star_contours",
    "C101_concave_contours",
    "C101_contours",
    "C101_multicontours",
    "C101_polygons",
    "C101_multipolygons",
    "C101_mixes",
    "C101_no_boxes"
   ],
   "note": ""
  },
  {
   "property": "C102",
   "status": "proved",
   "theorems": [
    "C102_star_contours",
    "C102_concave_contours",
    "C102_multicontours",
    "C102_polygons",
    "C102_multipolygons",
    "C102_mixes",
    "C102_convex_contours",
    "C102_contours",
    "C102_four"
   ],
   "note": ""
  }
 ]
}