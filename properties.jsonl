{"id": "C01", "title": "Size bounds are rejected exactly when inconsistent", "statement": "Calling multipoints, multisegments, contours, convex_contours, concave_contours, star_contours, multicontours, polygons, multipolygons or mixes raises ValueError exactly when some (minimum, maximum) pair of sizes has a maximum that is given and is below the smallest legal size, below the minimum, or accompanied by a negative minimum (for mixes also when fewer than two component kinds are allowed); it raises nothing else and returns a strategy otherwise.", "quantifier": "all integer bounds, maxima possibly None", "why_tests_cant": "the size arguments range over all integers; the suite samples them", "anchors": ["hypothesis_geometry/planar.py:_validate_sizes", "hypothesis_geometry/planar.py:multipoints", "hypothesis_geometry/planar.py:polygons", "hypothesis_geometry/planar.py:mixes"]}
{"id": "C02", "title": "A too small minimum only warns", "statement": "A call that does not raise emits exactly one HypothesisWarning per minimum that is below the smallest legal size for that argument, and none otherwise.", "quantifier": "all integer bounds", "why_tests_cant": "same as C01", "anchors": ["hypothesis_geometry/planar.py:_validate_sizes"]}
{"id": "C03", "title": "Lowering a minimum below the legal size changes nothing but the warning", "statement": "For every strategy with minima except multipolygons, a call with a minimum below the legal smallest size builds the same strategy as the call with that smallest size; multipolygons does not do this for the minimal number of holes: a negative one makes the call fail with AssertionError or the strategy draw impossible sizes.", "quantifier": "all integer bounds", "why_tests_cant": "the buggy range (negative minimum, no maximum) is never passed by the suite", "anchors": ["hypothesis_geometry/planar.py:multipolygons", "hypothesis_geometry/_core/base.py:to_multipolygon_strategy", "hypothesis_geometry/_core/utils.py:to_next_prime"]}
{"id": "C04", "title": "A mix needs two component kinds", "statement": "mixes raises ValueError whenever at most one of points, segments, polygons is allowed by its maxima.", "quantifier": "all bounds", "why_tests_cant": "unbounded integers", "anchors": ["hypothesis_geometry/planar.py:mixes"]}
{"id": "C05", "title": "points generates exactly the product of the coordinate supports", "statement": "A point is generated by points(xs, ys) if and only if its x can be drawn from xs and its y from ys.", "quantifier": "all coordinate strategies", "why_tests_cant": "support equality is about all draws, a test sees finitely many", "anchors": ["hypothesis_geometry/_core/base.py:to_point_strategy", "hypothesis_geometry/planar.py:points"]}
{"id": "C06", "title": "Missing y_coordinates means x_coordinates", "statement": "Every strategy called with y_coordinates=None has the same outcomes as when called with y_coordinates equal to x_coordinates.", "quantifier": "all strategies of the API, all coordinate strategies and bounds", "why_tests_cant": "equality of supports of infinitely many draws", "anchors": ["hypothesis_geometry/_core/base.py"]}
{"id": "C07", "title": "multipoints: sizes, uniqueness and support, exactly", "statement": "A list of points is generated by multipoints if and only if it has no repetition, its length is within the (clamped) bounds and each coordinate can be drawn.", "quantifier": "all strategies and bounds", "why_tests_cant": "universally quantified draws", "anchors": ["hypothesis_geometry/_core/base.py:to_unique_point_sequence_strategy", "hypothesis_geometry/_core/base.py:to_multipoint_strategy", "hypothesis_geometry/planar.py:multipoints"]}
{"id": "C08", "title": "segments: non-degenerate, exactly", "statement": "A segment is generated by segments if and only if its endpoints differ and each coordinate can be drawn.", "quantifier": "all strategies", "why_tests_cant": "universally quantified draws", "anchors": ["hypothesis_geometry/_core/base.py:to_segment_strategy", "hypothesis_geometry/planar.py:segments"]}
{"id": "C09", "title": "boxes: ordered and non-degenerate, exactly", "statement": "A box is generated by boxes if and only if min_x < max_x, min_y < max_y and each bound can be drawn from the matching coordinate strategy.", "quantifier": "all strategies", "why_tests_cant": "universally quantified draws", "anchors": ["hypothesis_geometry/_core/base.py:to_box_strategy", "hypothesis_geometry/_core/utils.py:sort_pair", "hypothesis_geometry/planar.py:boxes"]}
{"id": "C10", "title": "rectangular_contours are exactly the counterclockwise boundaries of boxes", "statement": "A contour is generated by rectangular_contours if and only if it is (x1,y1),(x2,y1),(x2,y2),(x1,y2) with x1<x2, y1<y2 drawable; it is strictly convex and counterclockwise.", "quantifier": "all strategies", "why_tests_cant": "universally quantified draws", "anchors": ["hypothesis_geometry/_core/base.py:to_rectangular_vertex_sequence_strategy", "hypothesis_geometry/planar.py:rectangular_contours"]}
{"id": "C11", "title": "triangular_contours are exactly the counterclockwise triangles", "statement": "A contour is generated by triangular_contours if and only if it consists of three drawable points in counterclockwise (non-collinear) order.", "quantifier": "all strategies", "why_tests_cant": "universally quantified draws", "anchors": ["hypothesis_geometry/_core/base.py:to_triangular_vertex_sequence_strategy", "hypothesis_geometry/planar.py:triangular_contours"]}
{"id": "C12", "title": "convex_contours are strictly convex, counterclockwise and simple", "statement": "For every generated convex contour each vertex that is not on an edge lies strictly to its left; in particular no two edges cross or overlap and all turns are left turns.", "quantifier": "every pair of coordinate strategies, every size bound accepted by the function, every value the strategy can draw (every sequence of random choices)", "why_tests_cant": "needs to hold for every random bit string and shuffle", "anchors": ["hypothesis_geometry/_core/base.py:to_convex_vertex_sequence_strategy", "hypothesis_geometry/_core/factories.py:to_convex_vertex_sequence", "hypothesis_geometry/planar.py:convex_contours"]}
{"id": "C13", "title": "convex_contours: sizes", "statement": "The number of vertices of a generated convex contour is at least the (clamped) minimum and at most the maximum.", "quantifier": "every pair of coordinate strategies, every size bound accepted by the function, every value the strategy can draw (every sequence of random choices)", "why_tests_cant": "universally quantified draws", "anchors": ["hypothesis_geometry/_core/base.py:to_convex_vertex_sequence_strategy", "hypothesis_geometry/_core/contracts.py:has_valid_size"]}
{"id": "C14", "title": "convex_contours stay within the drawn coordinate range", "statement": "Each coordinate of a vertex of a generated convex contour lies between two values that can be drawn from the matching coordinate strategy.", "quantifier": "every pair of coordinate strategies, every size bound accepted by the function, every value the strategy can draw (every sequence of random choices)", "why_tests_cant": "depends on running sums over arbitrary many random choices; floating point angles must not matter", "anchors": ["hypothesis_geometry/_core/factories.py:to_convex_vertex_sequence"]}
{"id": "C15", "title": "star_contours: sizes and support", "statement": "A generated star contour has a number of vertices within the bounds and its vertices have drawable coordinates.", "quantifier": "every pair of coordinate strategies, every size bound accepted by the function, every value the strategy can draw (every sequence of random choices)", "why_tests_cant": "universally quantified draws", "anchors": ["hypothesis_geometry/_core/base.py:to_star_vertex_sequence_strategy", "hypothesis_geometry/_core/factories.py:to_star_contour_vertices"]}
{"id": "C16", "title": "star_contours: no straight angle, centroid inside every angle", "statement": "In a generated star contour no three consecutive vertices are collinear and the centroid of the region lies in the angle at every vertex, whatever the (floating point) angles used for sorting.", "quantifier": "every pair of coordinate strategies, every size bound accepted by the function, every value the strategy can draw (every sequence of random choices)", "why_tests_cant": "depends on a fixpoint loop and on all rounding behaviours of atan2", "anchors": ["hypothesis_geometry/_core/factories.py:to_star_contour_vertices", "hypothesis_geometry/_core/contracts.py:angle_contains_point", "hypothesis_geometry/_core/factories.py:compress_contour"]}
{"id": "C17", "title": "star_contours turn in one direction", "statement": "In a generated star contour whose centroid is on no line through an edge, all turns have the same direction, i.e. no reflex vertex survives.", "quantifier": "every pair of coordinate strategies, every size bound accepted by the function, every value the strategy can draw (every sequence of random choices)", "why_tests_cant": "a negative statement over all draws: no test can show that no draw is concave", "anchors": ["hypothesis_geometry/_core/factories.py:to_star_contour_vertices", "hypothesis_geometry/_core/contracts.py:angle_contains_point"]}
{"id": "C18", "title": "contours: sizes and support", "statement": "A generated contour has a number of vertices within the bounds; its vertices come from the drawn coordinates (within their range for the convex alternative).", "quantifier": "every pair of coordinate strategies, every size bound accepted by the function, every value the strategy can draw (every sequence of random choices)", "why_tests_cant": "universally quantified draws", "anchors": ["hypothesis_geometry/_core/base.py:to_vertex_sequence_strategy", "hypothesis_geometry/_core/base.py:_to_vertex_sequences", "hypothesis_geometry/_core/factories.py:to_vertex_sequence", "hypothesis_geometry/planar.py:contours"]}
{"id": "C19", "title": "contours have no straight angles", "statement": "No three consecutive vertices of a generated contour (convex, star, or carved out of a triangulation) are collinear.", "quantifier": "every pair of coordinate strategies, every size bound accepted by the function, every value the strategy can draw (every sequence of random choices)", "why_tests_cant": "universally quantified draws; in-place deletions with negative indices", "anchors": ["hypothesis_geometry/_core/factories.py:compress_contour", "hypothesis_geometry/_core/factories.py:_triangulation_to_border_vertices"]}
{"id": "C20", "title": "contours are simple", "statement": "The edges of a generated contour do not cross or overlap. (Does not hold: see the refutation.)", "quantifier": "every pair of coordinate strategies, every size bound accepted by the function, every value the strategy can draw (every sequence of random choices)", "why_tests_cant": "violations occur about once in 100000 draws", "anchors": ["hypothesis_geometry/_core/factories.py:_to_vertex_sequence", "hypothesis_geometry/_core/base.py:to_vertex_sequence_strategy"]}
{"id": "C21", "title": "concave_contours are not convex", "statement": "A generated concave contour has both a left and a right turn; sizes within bounds (at least 4).", "quantifier": "every pair of coordinate strategies, every size bound accepted by the function, every value the strategy can draw (every sequence of random choices)", "why_tests_cant": "universally quantified draws", "anchors": ["hypothesis_geometry/_core/base.py:to_concave_vertex_sequence_strategy", "hypothesis_geometry/_core/contracts.py:are_vertices_non_convex"]}
{"id": "C22", "title": "multisegments: sizes", "statement": "A generated multisegment has a number of segments within the bounds.", "quantifier": "every pair of coordinate strategies, every size bound accepted by the function, every value the strategy can draw (every sequence of random choices)", "why_tests_cant": "four alternatives, each with its own arithmetic on the bounds", "anchors": ["hypothesis_geometry/_core/base.py:to_non_crossing_non_overlapping_segment_sequence_strategy"]}
{"id": "C23", "title": "multisegments: segments are non-degenerate and drawable", "statement": "Every segment of a generated multisegment has distinct endpoints.", "quantifier": "every pair of coordinate strategies, every size bound accepted by the function, every value the strategy can draw (every sequence of random choices)", "why_tests_cant": "universally quantified draws", "anchors": ["hypothesis_geometry/_core/base.py:to_non_crossing_non_overlapping_segment_sequence_strategy"]}
{"id": "C24", "title": "multisegments do not cross or overlap", "statement": "No two segments of a generated multisegment cross or overlap. (Does not hold: see the refutation; segments can cross only when they are edges of one generated contour that is not simple.)", "quantifier": "every pair of coordinate strategies, every size bound accepted by the function, every value the strategy can draw (every sequence of random choices)", "why_tests_cant": "universally quantified draws", "anchors": ["hypothesis_geometry/_core/base.py:to_non_crossing_non_overlapping_segment_sequence_strategy", "hypothesis_geometry/_core/contracts.py:are_segments_non_crossing_non_overlapping"]}
{"id": "C25", "title": "multicontours: sizes", "statement": "The number of contours and the number of vertices of each are within the bounds.", "quantifier": "every pair of coordinate strategies, every size bound accepted by the function, every value the strategy can draw (every sequence of random choices)", "why_tests_cant": "universally quantified draws", "anchors": ["hypothesis_geometry/_core/base.py:to_multicontour_strategy", "hypothesis_geometry/_core/contracts.py:multicontour_has_valid_sizes"]}
{"id": "C26", "title": "multicontours: different contours never cross or overlap", "statement": "No edge of one contour of a generated multicontour crosses or overlaps an edge of another one; two contours share at most one point.", "quantifier": "every pair of coordinate strategies, every size bound accepted by the function, every value the strategy can draw (every sequence of random choices)", "why_tests_cant": "holds for every sequence of sorting keys chosen at random", "anchors": ["hypothesis_geometry/_core/factories.py:to_multicontour"]}
{"id": "C27", "title": "polygons: sizes and support", "statement": "Border size, number of holes and hole sizes of a generated polygon are within the bounds and all vertices have drawable coordinates.", "quantifier": "every pair of coordinate strategies, every size bound accepted by the function, every value the strategy can draw (every sequence of random choices)", "why_tests_cant": "universally quantified draws", "anchors": ["hypothesis_geometry/_core/base.py:to_polygon_strategy", "hypothesis_geometry/_core/factories.py:to_polygon"]}
{"id": "C28", "title": "polygon holes never cross or overlap each other", "statement": "No edge of one hole of a generated polygon crosses or overlaps an edge of another one, and the internal assertion that re-checks this can only fail because of a single self-intersecting hole.", "quantifier": "every pair of coordinate strategies, every size bound accepted by the function, every value the strategy can draw (every sequence of random choices)", "why_tests_cant": "holds for every sequence of sorting keys", "anchors": ["hypothesis_geometry/_core/factories.py:to_polygon"]}
{"id": "C29", "title": "polygon border and holes have no straight angles", "statement": "No three consecutive vertices of the border or of a hole of a generated polygon are collinear.", "quantifier": "every pair of coordinate strategies, every size bound accepted by the function, every value the strategy can draw (every sequence of random choices)", "why_tests_cant": "universally quantified draws", "anchors": ["hypothesis_geometry/_core/factories.py:to_polygon", "hypothesis_geometry/_core/factories.py:compress_contour"]}
{"id": "C30", "title": "polygon border stays clear of the holes", "statement": "The border of a generated polygon does not cross its holes.", "quantifier": "every pair of coordinate strategies, every size bound accepted by the function, every value the strategy can draw (every sequence of random choices)", "why_tests_cant": "depends on the nearest-segment query of another library for every tie", "anchors": ["hypothesis_geometry/_core/factories.py:to_polygon"]}
{"id": "C31", "title": "multipolygons: sizes", "statement": "Number of polygons, border sizes, hole counts and hole sizes are within the bounds.", "quantifier": "every pair of coordinate strategies, every size bound accepted by the function, every value the strategy can draw (every sequence of random choices)", "why_tests_cant": "universally quantified draws", "anchors": ["hypothesis_geometry/_core/base.py:to_multipolygon_strategy"]}
{"id": "C32", "title": "multipolygons: different polygons never cross or overlap", "statement": "Borders of different polygons of a generated multipolygon do not cross or overlap, and all vertices of one are on one side of some vertical or horizontal line (or on it), all vertices of the other on the other side (or on it).", "quantifier": "every pair of coordinate strategies, every size bound accepted by the function, every value the strategy can draw (every sequence of random choices)", "why_tests_cant": "depends on arithmetic of slices for every draw", "anchors": ["hypothesis_geometry/_core/base.py:to_multipolygon_strategy", "hypothesis_geometry/_core/contracts.py:has_vertical_leftmost_segment", "hypothesis_geometry/_core/contracts.py:has_horizontal_lowermost_segment"]}
{"id": "C33", "title": "mixes: sizes", "statement": "Numbers of points, segments and polygons, border sizes, hole counts and hole sizes of a generated mix are within the bounds.", "quantifier": "every pair of coordinate strategies, every size bound accepted by the function, every value the strategy can draw (every sequence of random choices)", "why_tests_cant": "universally quantified draws", "anchors": ["hypothesis_geometry/_core/base.py:to_mix_strategy", "hypothesis_geometry/planar.py:mixes"]}
{"id": "C34", "title": "mixes have at least two non-empty components", "statement": "At least two of the discrete, linear, shaped components of a generated mix are non-empty.", "quantifier": "every pair of coordinate strategies, every size bound accepted by the function, every value the strategy can draw (every sequence of random choices)", "why_tests_cant": "universally quantified draws", "anchors": ["hypothesis_geometry/planar.py:mixes", "hypothesis_geometry/_core/base.py:to_mix_strategy"]}
{"id": "C35", "title": "mix components have canonical types", "statement": "A component of a generated mix with no elements is empty, a linear (shaped) one with one element is that segment (polygon), and multi-geometries in a mix have at least two elements (one for multipoints).", "quantifier": "every pair of coordinate strategies, every size bound accepted by the function, every value the strategy can draw (every sequence of random choices)", "why_tests_cant": "universally quantified draws", "anchors": ["hypothesis_geometry/_core/base.py:to_mix_strategy"]}
{"id": "C36", "title": "mix components do not touch the discrete part nor cross each other", "statement": "In a generated mix the points are distinct; a vertical or horizontal line separates each of them strictly from each segment and from each polygon, so that none lies on them; segments of different draws, segments and polygon borders, borders of different polygons do not cross or overlap and are on the two sides of some vertical or horizontal line.", "quantifier": "every pair of coordinate strategies, every size bound accepted by the function, every value the strategy can draw (every sequence of random choices)", "why_tests_cant": "depends on arithmetic of slices for every permutation of the drawers", "anchors": ["hypothesis_geometry/_core/base.py:to_mix_strategy", "hypothesis_geometry/_core/contracts.py:has_vertical_leftmost_segment"]}
{"id": "C37", "title": "The point grid is well formed", "statement": "Whenever both coordinate strategies are non-constant enough to fill the grid, the internal grid generator returns as many distinct points as the largest prime not exceeding the number of coordinates, with every x (resp. y) index used once and no row or column used more than twice; its sparsity assertion never fires.", "quantifier": "every drawn list of coordinates, every scale", "why_tests_cant": "number theoretic fact about all primes", "anchors": ["hypothesis_geometry/_core/base.py:to_point_sequence_in_general_position_strategy", "hypothesis_geometry/_core/utils.py:to_prior_prime", "hypothesis_geometry/_core/utils.py:to_next_prime"]}
{"id": "C38", "title": "Prime helpers", "statement": "For every value above 4 to_next_prime returns the smallest prime not below it and to_prior_prime the largest prime not above it; both terminate; for 3 and 4 they return 5, 5 and 1, 1.", "quantifier": "all integers", "why_tests_cant": "all integers", "anchors": ["hypothesis_geometry/_core/utils.py:to_next_prime", "hypothesis_geometry/_core/utils.py:to_prior_prime", "hypothesis_geometry/_core/utils.py:_is_prime"]}
{"id": "C39", "title": "Drawing never fails because of an impossible size range", "statement": "If the coordinate strategies are not sampled from too few values, drawing from any strategy of the API with accepted bounds never raises InvalidArgument: every integer range, sample and list-size range constructed internally is non-empty.", "quantifier": "every pair of coordinate strategies, every size bound accepted by the function, every value the strategy can draw (every sequence of random choices)", "why_tests_cant": "arithmetic over all bounds and draws; relies on the distribution of primes for mixes", "anchors": ["hypothesis_geometry/_core/base.py:to_polygon_strategy", "hypothesis_geometry/_core/base.py:to_mix_strategy", "hypothesis_geometry/_core/base.py:to_multipolygon_strategy"]}
{"id": "C40", "title": "The convex hulls agree", "statement": "to_max_convex_hull of distinct points contains every vertex of the convex hull, so polygons never ask for a border smaller than the hull allows.", "quantifier": "all point lists", "why_tests_cant": "all point lists", "anchors": ["hypothesis_geometry/_core/factories.py:to_max_convex_hull", "hypothesis_geometry/_core/factories.py:_to_sub_hull", "hypothesis_geometry/_core/base.py:to_polygon_strategy"]}
{"id": "C41", "title": "Quad-edge algebra", "statement": "On every reachable quad-edge structure: rotated has order four, left_from_start is a bijection compatible with rotation, splice is an involution, connect followed by delete (and delete followed by re-splicing) restores the structure, and navigation never leaves the primal edges.", "quantifier": "every history of from_endpoints, splice, connect, delete, flip calls", "why_tests_cant": "unbounded histories of pointer updates", "anchors": ["hypothesis_geometry/_core/subdivisional.py:QuadEdge"]}
{"id": "C42", "title": "Flip rotates a diagonal", "statement": "Flipping the diagonal of a strictly convex quadrilateral re-attaches it to the two opposite vertices of its adjacent faces and leaves every other edge start unchanged; vertex rings stay consistent (all edges of a ring have the same start) under every operation.", "quantifier": "every reachable structure", "why_tests_cant": "unbounded histories", "anchors": ["hypothesis_geometry/_core/subdivisional.py:QuadEdge.flip"]}
{"id": "C43", "title": "Boundary traversal terminates and is a cycle", "statement": "to_boundary_edges returns, for every triangulation obtained from the one of a point sequence by deleting and flipping edges, a finite cycle without repetition of edges; each edge starts where the previous one ends if the flipped edges were diagonals of convex quadrilaterals.", "quantifier": "every reachable triangulation", "why_tests_cant": "unbounded histories", "anchors": ["hypothesis_geometry/_core/triangular.py:to_boundary_edges", "hypothesis_geometry/_core/triangular.py:Triangulation.delete"]}
{"id": "C44", "title": "Triangulations and contours only use the given points", "statement": "Every edge of the triangulation of a point sequence joins two of the given points, and every vertex produced from it (contours, multicontours, polygons, holes) is one of the given points.", "quantifier": "all point sequences and sizes", "why_tests_cant": "all inputs", "anchors": ["hypothesis_geometry/_core/triangular.py:Triangulation.delaunay", "hypothesis_geometry/_core/factories.py:to_vertex_sequence", "hypothesis_geometry/_core/factories.py:to_polygon"]}
{"id": "C45", "title": "compress_contour removes exactly the redundant vertices", "statement": "For every sequence of distinct vertices compress_contour returns a subsequence of it without collinear consecutive triples or of length at most two, and keeps a sequence that has no such triple unchanged.", "quantifier": "all vertex sequences", "why_tests_cant": "all inputs; index arithmetic over negative indices", "anchors": ["hypothesis_geometry/_core/factories.py:compress_contour"]}
{"id": "C46", "title": "angle_contains_point", "statement": "For a non-degenerate angle the predicate says exactly that the point lies in the closed angle (other than at its vertex or behind it).", "quantifier": "all points", "why_tests_cant": "all rational inputs", "anchors": ["hypothesis_geometry/_core/contracts.py:angle_contains_point"]}
{"id": "C47", "title": "Edge-extremity predicates", "statement": "has_vertical_leftmost_segment is true exactly if some vertical segment lies on the line of the greatest left endpoint abscissa; if it is false, no segment lies on the vertical line bounding the segments from the right. Same for the horizontal variant.", "quantifier": "all non-empty segment lists", "why_tests_cant": "all inputs", "anchors": ["hypothesis_geometry/_core/contracts.py:has_vertical_leftmost_segment", "hypothesis_geometry/_core/contracts.py:has_horizontal_lowermost_segment"]}
{"id": "C48", "title": "Helpers", "statement": "ceil_log2(n) is the least k with n <= 2**k; cut returns a prefix of the requested length; pairwise pairs neighbours; sort_pair sorts.", "quantifier": "all inputs", "why_tests_cant": "all inputs", "anchors": ["hypothesis_geometry/_core/utils.py:ceil_log2", "hypothesis_geometry/_core/utils.py:cut", "hypothesis_geometry/_core/utils.py:pairwise", "hypothesis_geometry/_core/utils.py:sort_pair"]}
{"id": "C49", "title": "Drawing a star contour terminates", "statement": "The loop that turns drawn points into a star contour always ends, for every sequence of points and whatever the angles computed with floating point numbers are.", "quantifier": "all point sequences, all angle functions", "why_tests_cant": "a non-terminating input would be one among infinitely many", "anchors": ["hypothesis_geometry/_core/factories.py:to_star_contour_vertices", "hypothesis_geometry/planar.py:star_contours"]}
{"id": "C50", "title": "multipolygons and mixes use only the given coordinates", "statement": "Every vertex of a generated multipolygon, and every point and polygon vertex of a generated mix, has coordinates drawn from the given strategies; segments of a mix are not degenerate and lie within the range of the given coordinates.", "quantifier": "every pair of coordinate strategies, every size bound accepted by the function, every value the strategy can draw (every sequence of random choices)", "why_tests_cant": "universally quantified draws; the coordinates pass through slices, hulls and triangulations", "anchors": ["hypothesis_geometry/_core/base.py:to_multipolygon_strategy", "hypothesis_geometry/_core/base.py:to_mix_strategy"]}
{"id": "C51", "title": "Contours of a multicontour are simple", "statement": "No two edges of one contour of a multicontour cross or overlap, and no vertex is repeated.", "quantifier": "every pair of coordinate strategies, every size bound accepted by the function, every value the strategy can draw", "why_tests_cant": "violations are rare (one in tens of thousands of draws)", "anchors": ["hypothesis_geometry/planar.py:multicontours", "hypothesis_geometry/_core/factories.py:to_multicontour", "hypothesis_geometry/_core/factories.py:to_vertex_sequence"]}
{"id": "C52", "title": "Drawing simple shapes raises nothing", "statement": "If drawing coordinates raises nothing (and a sample of coordinates is large enough), drawing a point, multipoint, segment, box, rectangular, triangular, convex or star contour raises nothing.", "quantifier": "every pair of coordinate strategies, every size bound accepted by the function, every sequence of random choices", "why_tests_cant": "all sequences of random choices", "anchors": ["hypothesis_geometry/planar.py:points", "hypothesis_geometry/planar.py:multipoints", "hypothesis_geometry/planar.py:segments", "hypothesis_geometry/planar.py:boxes", "hypothesis_geometry/planar.py:rectangular_contours", "hypothesis_geometry/planar.py:triangular_contours", "hypothesis_geometry/planar.py:convex_contours", "hypothesis_geometry/planar.py:star_contours"]}
{"id": "C53", "title": "Drawing polygons raises nothing", "statement": "If drawing coordinates raises nothing (and a sample of coordinates is large enough), drawing a polygon does not end with an AssertionError.", "quantifier": "every pair of coordinate strategies, every size bound accepted by the function, every sequence of random choices", "why_tests_cant": "violations are rare", "anchors": ["hypothesis_geometry/planar.py:polygons", "hypothesis_geometry/_core/factories.py:to_polygon"]}
{"id": "C54", "title": "Polygon borders are simple and counterclockwise", "statement": "The border of a generated polygon, alone or in a mix, and of a polygon of a multipolygon for which holes are required or present, has distinct vertices, no two of its edges meet except neighbours at their common vertex, and its signed area is positive.", "quantifier": "every pair of coordinate strategies, every size bound accepted by the function, every value the strategy can draw (every sequence of random choices), every correct coin change and nearest-segment query", "why_tests_cant": "needs correctness of the triangulation for every point set, and of every sequence of boundary changes", "anchors": ["hypothesis_geometry/_core/factories.py:to_polygon", "hypothesis_geometry/_core/triangular.py:Triangulation.delaunay", "hypothesis_geometry/planar.py:polygons", "hypothesis_geometry/planar.py:multipolygons", "hypothesis_geometry/planar.py:mixes"]}
{"id": "C55", "title": "Holes lie inside the border", "statement": "The border of a generated polygon winds exactly once around every point of every edge of every hole, and contains none of them.", "quantifier": "every pair of coordinate strategies, every size bound accepted by the function, every value the strategy can draw (every sequence of random choices), every correct coin change and nearest-segment query", "why_tests_cant": "continuum of points of the edges, all draws", "anchors": ["hypothesis_geometry/_core/factories.py:to_polygon", "hypothesis_geometry/_core/triangular.py:Triangulation.delaunay", "hypothesis_geometry/planar.py:polygons", "hypothesis_geometry/planar.py:multipolygons", "hypothesis_geometry/planar.py:mixes"]}
{"id": "C56", "title": "The triangulation is a Delaunay triangulation", "statement": "For distinct points the triangulation contains exactly the given points, its edges do not cross, every inner face is a triangle whose circumscribed circle contains none of the points inside, and its sides start at the lexicographically extreme points.", "quantifier": "every list of distinct points, every correct coin change", "why_tests_cant": "all point sets, including cocircular and collinear ones", "anchors": ["hypothesis_geometry/_core/triangular.py:Triangulation.delaunay", "hypothesis_geometry/_core/subdivisional.py:QuadEdge"]}
{"id": "C57", "title": "Edges of one hole neither cross nor overlap", "statement": "No two edges of one hole of a generated polygon cross or overlap.", "quantifier": "every pair of coordinate strategies, every size bound accepted by the function, every value the strategy can draw (every sequence of random choices)", "why_tests_cant": "all draws; depends on an assertion of the code that fails for other draws", "anchors": ["hypothesis_geometry/_core/factories.py:to_polygon", "hypothesis_geometry/_core/triangular.py:Triangulation.delaunay", "hypothesis_geometry/planar.py:polygons", "hypothesis_geometry/planar.py:multipolygons", "hypothesis_geometry/planar.py:mixes"]}
{"id": "C58", "title": "Borders of multipolygons are simple", "statement": "No two edges of the border of a polygon of a generated multipolygon cross or overlap.", "quantifier": "every pair of coordinate strategies, every size bound accepted by the function, every value the strategy can draw (every sequence of random choices), every correct coin change and nearest-segment query", "why_tests_cant": "violations are rare", "anchors": ["hypothesis_geometry/planar.py:multipolygons", "hypothesis_geometry/_core/base.py:to_multipolygon_strategy"]}
{"id": "C59", "title": "Triangulating distinct points always succeeds", "statement": "For two or more distinct points, collinear or not, the construction of the triangulation terminates and raises no exception.", "quantifier": "every list of two or more distinct points, every correct coin change", "why_tests_cant": "termination and absence of assertion failures for all point sets, including collinear and cocircular ones", "anchors": ["hypothesis_geometry/_core/triangular.py:Triangulation.delaunay", "hypothesis_geometry/_core/subdivisional.py:QuadEdge"]}
{"id": "C60", "title": "Making a polygon fails only if drawing a hole fails", "statement": "For distinct points which do not all lie on one line a polygon without holes is always made, whatever border size is requested; with holes requested, it is made if the holes can be drawn, and its holes are those.", "quantifier": "every list of points, every correct coin change and nearest-segment query, every requested border size, hole sizes and choices", "why_tests_cant": "all point sets", "anchors": ["hypothesis_geometry/_core/factories.py:to_polygon", "hypothesis_geometry/_core/triangular.py:Triangulation.to_boundary_edges"]}
{"id": "C61", "title": "Points in general position are not all on one line", "statement": "The points polygons are made of never all lie on one line.", "quantifier": "every pair of coordinate strategies, every size bound, every value drawn", "why_tests_cant": "all draws of coordinates, all primes", "anchors": ["hypothesis_geometry/_core/base.py:to_point_sequence_in_general_position_strategy"]}
{"id": "C62", "title": "The model's iteration bound does not influence results", "statement": "A triangulation, contour, multicontour or polygon computed within some bound on the number of iterations of every loop is the one computed within any larger bound.", "quantifier": "every list of points, every pair of bounds", "why_tests_cant": "a statement about the model: the code has no bound", "anchors": ["hypothesis_geometry/_core/factories.py", "hypothesis_geometry/_core/triangular.py"]}
{"id": "C63", "title": "Contours and polygons are made of points in general position", "statement": "Of three or more distinct points no three of which are on one line, a contour, a row of contours and a polygon with holes are made without an exception, whatever sizes are asked for within the number of points; the contours do not meet themselves, have no straight angle and are counterclockwise, and the holes are clockwise.", "quantifier": "every list of distinct points in general position, every requested size, every sequence of choices, every correct coin change and nearest-segment query", "why_tests_cant": "termination, absence of exceptions and a geometric claim for all point sets", "anchors": ["hypothesis_geometry/_core/factories.py:to_vertex_sequence", "hypothesis_geometry/_core/factories.py:to_multicontour", "hypothesis_geometry/_core/factories.py:to_polygon"]}
{"id": "C64", "title": "Multicontours of coordinates in general position are simple", "statement": "With coordinates of which no three points in a row can be made other than on a vertical or horizontal line, every contour of a generated multicontour is a counterclockwise closed curve that does not meet itself and has no straight angle.", "quantifier": "every such pair of coordinate strategies, every size bound accepted by the function, every value drawn, every correct coin change", "why_tests_cant": "all draws; without the condition on coordinates the claim is false (C51)", "anchors": ["hypothesis_geometry/planar.py:multicontours", "hypothesis_geometry/_core/base.py:to_multicontour_strategy"]}
{"id": "C65", "title": "Polygons of coordinates in general position are valid", "statement": "With coordinates of which no three points in a row can be made other than on a vertical or horizontal line, every generated polygon, polygon of a multipolygon and polygon of a mix has a counterclockwise border and clockwise holes that do not meet themselves and have no straight angle, and no point of a hole is outside the border.", "quantifier": "every such pair of coordinate strategies, every size bound accepted by the functions, every value drawn, every correct coin change and nearest-segment query", "why_tests_cant": "all draws; without the condition on coordinates the claim is false (C58)", "anchors": ["hypothesis_geometry/planar.py:polygons", "hypothesis_geometry/_core/base.py:to_polygon_strategy", "hypothesis_geometry/planar.py:multipolygons", "hypothesis_geometry/_core/base.py:to_multipolygon_strategy", "hypothesis_geometry/planar.py:mixes", "hypothesis_geometry/_core/base.py:to_mix_strategy"]}
{"id": "C66", "title": "Drawing multicontours of coordinates in general position raises nothing", "statement": "With coordinates of which no three points in a row can be made other than on a vertical or horizontal line and enough of them, drawing a multicontour raises no exception.", "quantifier": "every such pair of coordinate strategies, every size bound accepted by the function, every sequence of draws", "why_tests_cant": "absence of exceptions for all draws", "anchors": ["hypothesis_geometry/planar.py:multicontours", "hypothesis_geometry/_core/base.py:to_multicontour_strategy"]}
{"id": "C67", "title": "Drawing polygons of coordinates in general position raises nothing", "statement": "With coordinates of which no three points in a row can be made other than on a vertical or horizontal line and enough of them, drawing a polygon, with or without holes, raises no exception.", "quantifier": "every such pair of coordinate strategies, every size bound accepted by the function, every sequence of draws", "why_tests_cant": "absence of exceptions for all draws; without the condition on coordinates the claim is false (C53)", "anchors": ["hypothesis_geometry/planar.py:polygons", "hypothesis_geometry/_core/base.py:to_polygon_strategy"]}
{"id": "C68", "title": "Drawing multipolygons of coordinates in general position raises nothing", "statement": "With coordinates of which no three points in a row can be made other than on a vertical or horizontal line and enough of them, drawing a multipolygon with a non-negative number of holes raises no exception.", "quantifier": "every such pair of coordinate strategies, every size bound accepted by the function, every sequence of draws", "why_tests_cant": "absence of exceptions for all draws", "anchors": ["hypothesis_geometry/planar.py:multipolygons", "hypothesis_geometry/_core/base.py:to_multipolygon_strategy"]}
{"id": "C69", "title": "Star contours are convex", "statement": "A star contour is strictly convex, listed counterclockwise or clockwise; in particular it does not meet itself and has no straight angle.", "quantifier": "every pair of coordinate strategies, every size bound, every sequence of draws, every angle function that orders directions", "why_tests_cant": "quantifies over all draws; the vertices are found by a loop that drops vertices, sorts the rest around a moving point and stops when nothing changes", "anchors": ["hypothesis_geometry/planar.py:star_contours", "hypothesis_geometry/_core/factories.py:to_star_contour_vertices", "hypothesis_geometry/_core/base.py:to_star_vertex_sequence_strategy"]}
{"id": "C70", "title": "Concave contours of coordinates in general position", "statement": "A star contour is never a concave contour. With coordinates of which no three points in a row can be made other than on a vertical or horizontal line, a concave contour is a counterclockwise closed curve that does not meet itself, without straight angles, with a left and with a right turn.", "quantifier": "every such pair of coordinate strategies, every size bound, every sequence of draws", "why_tests_cant": "quantifies over all draws; without the condition on coordinates the claim is false (C20)", "anchors": ["hypothesis_geometry/planar.py:concave_contours", "hypothesis_geometry/_core/base.py:to_concave_vertex_sequence_strategy", "hypothesis_geometry/_core/contracts.py:are_vertices_non_convex"]}
{"id": "C71", "title": "Contours of coordinates in general position are simple", "statement": "With coordinates of which no three points in a row can be made other than on a vertical or horizontal line, a contour is a closed curve that does not meet itself and has no straight angle; it is counterclockwise or a clockwise convex one.", "quantifier": "every such pair of coordinate strategies, every size bound, every sequence of draws", "why_tests_cant": "quantifies over all draws; without the condition on coordinates the claim is false (C20)", "anchors": ["hypothesis_geometry/planar.py:contours", "hypothesis_geometry/_core/base.py:to_vertex_sequence_strategy"]}
{"id": "C72", "title": "Segments of coordinates in general position do not cross or overlap", "statement": "With coordinates of which no three points in a row can be made other than on a vertical or horizontal line, no two segments of a multisegment, or of the linear part of a mix, cross or overlap.", "quantifier": "every such pair of coordinate strategies, every size bound, every sequence of draws, every pair of segments", "why_tests_cant": "quantifies over all draws; without the condition on coordinates the claim is false (C24)", "anchors": ["hypothesis_geometry/planar.py:multisegments", "hypothesis_geometry/planar.py:mixes", "hypothesis_geometry/_core/base.py:to_non_crossing_non_overlapping_segment_sequence_strategy"]}
{"id": "C73", "title": "Exceptions of contours and multisegments of coordinates in general position", "statement": "With coordinates of which no three points in a row can be made other than on a vertical or horizontal line, and which can be drawn without an exception in sufficient number, drawing a contour, a concave contour or a multisegment raises nothing but, possibly, the ZeroDivisionError of star contours (C52).", "quantifier": "every such pair of coordinate strategies, every accepted size bound, every sequence of draws", "why_tests_cant": "quantifies over all draws; assertion failures and missing keys in the carving of contours would show for rare draws only", "anchors": ["hypothesis_geometry/planar.py:contours", "hypothesis_geometry/planar.py:concave_contours", "hypothesis_geometry/planar.py:multisegments", "hypothesis_geometry/_core/base.py:to_carved_vertex_sequence_strategy", "hypothesis_geometry/_core/base.py:to_sub_sequence_strategy"]}
{"id": "C74", "title": "Exceptions of mixes of coordinates in general position", "statement": "With coordinates of which no three points in a row can be made other than on a vertical or horizontal line, given as strategies that raise nothing or as samples of equal sufficient size, drawing a mix raises nothing but, possibly, the ZeroDivisionError of star contours (C52): the counts of points split among the components always leave each component enough coordinates.", "quantifier": "every such pair of coordinate strategies, all accepted bounds of components, every sequence of draws", "why_tests_cant": "quantifies over all draws and all splits of the coordinates among the components", "anchors": ["hypothesis_geometry/planar.py:mixes", "hypothesis_geometry/_core/base.py:to_mix_strategy"]}
{"id": "C75", "title": "Bounding boxes of contours are made of drawn coordinates", "statement": "The least and the greatest abscissa, and the least and the greatest ordinate, of the vertices of a generated convex contour (and of any contour) can be drawn from the matching coordinate strategy, although the values in between may be new: the random convex polygon fits the drawn range exactly, so that moving its points back into the range moves none of them. Vectors pointing to opposite sides of an axis must not be given the same angle.", "quantifier": "every pair of coordinate strategies, all accepted size bounds, every sequence of draws", "why_tests_cant": "quantifies over all drawn coordinates, random bits and shuffles", "anchors": ["hypothesis_geometry/planar.py:convex_contours", "hypothesis_geometry/planar.py:contours", "hypothesis_geometry/_core/factories.py:to_convex_vertex_sequence"]}
{"id": "C76", "title": "The number of vertices is capped by a prime number", "statement": "If there is a prime number greater than 3 between the minimum and the maximum size asked for, a generated contour (convex, star; any contour with distinct vertices, in particular with coordinates in general position) has at most as many vertices as some prime number not greater than the maximum: with a maximum of 6 there are at most 5 vertices, with a maximum of 10 at most 7.", "quantifier": "every pair of coordinate strategies, all size bounds with such a prime number, every sequence of draws", "why_tests_cant": "absence of larger contours can not be established by drawing some", "anchors": ["hypothesis_geometry/planar.py:contours", "hypothesis_geometry/planar.py:convex_contours", "hypothesis_geometry/planar.py:concave_contours", "hypothesis_geometry/planar.py:star_contours", "hypothesis_geometry/_core/base.py:to_point_sequence_in_general_position_strategy"]}
{"id": "C77", "title": "Relaxing the size bounds loses no values when a prime number lies between them", "statement": "A value that can be generated with some size bounds can be generated with wider bounds and the same coordinates, provided that there is no new maximum or there is a prime number greater than 3 between the old minimum and the new maximum (for multicontours, polygons, multipolygons and mixes: between the old least and the new greatest total number of vertices). Without the prime number values are lost: lowering the minimum from 6 to 3 with a maximum of 6 loses convex hexagons.", "quantifier": "every pair of coordinate strategies, all accepted old and new bounds, every value", "why_tests_cant": "compares the sets of all values of two strategies", "anchors": ["hypothesis_geometry/planar.py:multipoints", "hypothesis_geometry/planar.py:contours", "hypothesis_geometry/planar.py:convex_contours", "hypothesis_geometry/planar.py:concave_contours", "hypothesis_geometry/planar.py:star_contours", "hypothesis_geometry/planar.py:multisegments", "hypothesis_geometry/planar.py:multicontours", "hypothesis_geometry/planar.py:polygons", "hypothesis_geometry/planar.py:multipolygons", "hypothesis_geometry/planar.py:mixes", "hypothesis_geometry/_core/base.py:to_point_sequence_in_general_position_strategy"]}
{"id": "C78", "title": "More coordinates lose no values", "statement": "If every abscissa and every ordinate that can be drawn from some strategies can be drawn from other strategies too, every value that a call can generate with the former can be generated by the same call with the latter.", "quantifier": "every two pairs of coordinate strategies (strategies or samples), all accepted bounds, every value, every function of the API", "why_tests_cant": "compares the sets of all values of two strategies", "anchors": ["hypothesis_geometry/planar.py:points", "hypothesis_geometry/planar.py:segments", "hypothesis_geometry/planar.py:boxes", "hypothesis_geometry/planar.py:rectangular_contours", "hypothesis_geometry/planar.py:triangular_contours", "hypothesis_geometry/planar.py:multipoints", "hypothesis_geometry/planar.py:contours", "hypothesis_geometry/planar.py:convex_contours", "hypothesis_geometry/planar.py:concave_contours", "hypothesis_geometry/planar.py:star_contours", "hypothesis_geometry/planar.py:multisegments", "hypothesis_geometry/planar.py:multicontours", "hypothesis_geometry/planar.py:polygons", "hypothesis_geometry/planar.py:multipolygons", "hypothesis_geometry/planar.py:mixes"]}
{"id": "C79", "title": "Star contours of exactly a prime number of vertices do not exist", "statement": "star_contours accepts a minimum that is a prime number of at least 11 together with a maximum below the next prime number, but the strategy it returns can generate no value, whatever coordinates can be drawn (drawing from it never succeeds). With exactly 7 vertices it can.", "quantifier": "every pair of coordinate strategies, every prime minimum of at least 11, every maximum below the next prime number, every possible value", "why_tests_cant": "a negative statement about all draws; a test that fails to find a value proves nothing", "anchors": ["hypothesis_geometry/planar.py:star_contours", "hypothesis_geometry/_core/base.py:to_star_vertex_sequence_strategy", "hypothesis_geometry/_core/base.py:to_point_sequence_in_general_position_strategy", "hypothesis_geometry/_core/factories.py:to_star_contour_vertices"]}
{"id": "C80", "title": "Every size of convex contours, contours and multisegments can be generated", "statement": "If the whole numbers from 0 to 4n^2 can be drawn as abscissas and as ordinates, then convex_contours and contours can generate a (convex) contour of exactly n vertices whenever the bounds allow n and either n is the minimum, or n is at most 4, or there is a prime number greater than 3 between n and the maximum (always so without a maximum). If the whole numbers from 0 to n can be drawn, multisegments can generate n segments whenever the bounds allow n.", "quantifier": "every size n of at least 3 (2 for multisegments), every pair of bounds that allow it, every pair of coordinate strategies with enough values, every hull and atan2 meeting their contracts", "why_tests_cant": "existence of a draw for every size: random testing finds large convex polygons with vanishing probability and cannot range over all sizes", "anchors": ["hypothesis_geometry/planar.py:convex_contours", "hypothesis_geometry/planar.py:contours", "hypothesis_geometry/planar.py:multisegments", "hypothesis_geometry/_core/base.py:to_convex_vertex_sequence_strategy", "hypothesis_geometry/_core/base.py:to_point_sequence_in_general_position_strategy", "hypothesis_geometry/_core/factories.py:to_convex_vertex_sequence"]}
{"id": "C81", "title": "Triangles, rectangles, convex contours and multisegments that are never missed", "statement": "convex_contours with a minimum of at most 3 can generate every counterclockwise triangle of drawable points, and with maximum 3 nothing else; if the bounds allow 4 vertices it can generate every drawable rectangle. contours can generate everything convex_contours can with the same arguments. multisegments can generate every list, of an allowed size, of non-degenerate segments between drawable points that do not cross or overlap.", "quantifier": "every pair of coordinate strategies, every pair of bounds, every triangle, rectangle, convex contour and list of segments", "why_tests_cant": "completeness of the set of possible draws: no finite number of draws shows that nothing is missing", "anchors": ["hypothesis_geometry/planar.py:convex_contours", "hypothesis_geometry/planar.py:contours", "hypothesis_geometry/planar.py:multisegments", "hypothesis_geometry/_core/base.py:to_convex_vertex_sequence_strategy", "hypothesis_geometry/_core/base.py:to_vertex_sequence_strategy", "hypothesis_geometry/_core/base.py:to_non_crossing_non_overlapping_segment_sequence_strategy"]}
{"id": "C82", "title": "Which numbers of contours can be generated", "statement": "multicontours draws its points in prime numbers: a multicontour of k contours is generated only if some prime number, at least k times the least contour size, does not exceed the product of the two maxima (or is the least prime number that reaches the product of the two minima). If triangles are allowed and there are enough coordinates, this is also sufficient, and k triangles can be generated. So with triangles only the maximal number of contours is never generated when a prime number lies between the least and the greatest number of vertices.", "quantifier": "every pair of coordinate strategies, all bounds, every number of contours (for sufficiency: coordinates that include enough whole numbers)", "why_tests_cant": "both halves are about all draws: that some number of contours is never drawn, and that another one can be for unbounded sizes", "anchors": ["hypothesis_geometry/planar.py:multicontours", "hypothesis_geometry/_core/base.py:to_multicontour_strategy", "hypothesis_geometry/_core/base.py:to_point_sequence_in_general_position_strategy", "hypothesis_geometry/_core/factories.py:to_multicontour"]}
{"id": "C83", "title": "Which numbers of holes can be generated", "statement": "polygons draws its points in prime numbers: a polygon with k holes is generated only if some prime number, at least 3 plus k times the least hole size, does not exceed the greatest possible number of vertices (or is the least prime number that reaches the least number of vertices). If triangles are allowed both for the border and for the holes and there are enough coordinates, this is also sufficient, and a triangle with k triangular holes can be generated. So a triangle with at most one triangular hole never has one.", "quantifier": "every pair of coordinate strategies, all bounds, every number of holes (for sufficiency: coordinates that include enough whole numbers)", "why_tests_cant": "both halves are about all draws: that some number of holes is never drawn, and that another one can be for unbounded sizes", "anchors": ["hypothesis_geometry/planar.py:polygons", "hypothesis_geometry/_core/base.py:to_polygon_strategy", "hypothesis_geometry/_core/base.py:to_point_sequence_in_general_position_strategy", "hypothesis_geometry/_core/factories.py:to_polygon"]}
{"id": "C84", "title": "The traversal of edges visits every edge once", "statement": "On every quad-edge structure built by any sequence of operations (creation, splicing, connecting, deletion, flipping), the traversal of edges from a given edge ends and yields exactly one of the two directions of every edge that is reached from the given one by turning around starts and reversing, and nothing else.", "quantifier": "every structure built by any sequence of operations, every edge of it", "why_tests_cant": "the structures are unbounded and need not be planar after flips; that nothing is missed or repeated is a statement about all of them", "anchors": ["hypothesis_geometry/_core/factories.py:to_edges", "hypothesis_geometry/_core/subdivisional.py:QuadEdge"]}
{"id": "C85", "title": "Regions of different contours do not overlap", "statement": "For two different contours of a generated multicontour, two holes of a generated polygon, or two contours (borders or holes) of different polygons of a generated multipolygon or mix: no point inside one of them (one around which it winds) is inside the other or on it, so one is never nested in the other. In a mix no point of the discrete part is inside or on a contour of a polygon, and no point of a segment is inside one.", "quantifier": "all bounds, all coordinate strategies, every generated value, every point of the plane", "why_tests_cant": "a statement about every point of the plane and every generated value; tests of crossings do not see nested contours", "anchors": ["hypothesis_geometry/planar.py:multicontours", "hypothesis_geometry/planar.py:polygons", "hypothesis_geometry/planar.py:multipolygons", "hypothesis_geometry/planar.py:mixes", "hypothesis_geometry/_core/factories.py:to_multicontour"]}
{"id": "C86", "title": "Holes are clear of the borders of all other polygons and of segments", "statement": "Every point of a hole of a polygon of a generated multipolygon or mix is outside the borders of all other polygons, earlier or later ones, and is on no segment of the mix.", "quantifier": "all bounds, all coordinate strategies, every generated value, every point of every hole", "why_tests_cant": "all points of all holes of all generated values", "anchors": ["hypothesis_geometry/planar.py:multipolygons", "hypothesis_geometry/planar.py:mixes", "hypothesis_geometry/_core/base.py:to_multipolygon_strategy", "hypothesis_geometry/_core/base.py:to_mix_strategy"]}
{"id": "C87", "title": "Carving fails no assertion", "statement": "Drawing a contour, a concave contour, a multisegment, a multicontour or a multipolygon never ends with an AssertionError, whatever the coordinates.", "quantifier": "every pair of coordinate strategies, every accepted size bound, every sequence of draws", "why_tests_cant": "the assertion fails only for rare arrangements of nineteen points or so; random tests have not met them", "anchors": ["hypothesis_geometry/planar.py:contours", "hypothesis_geometry/planar.py:concave_contours", "hypothesis_geometry/planar.py:multisegments", "hypothesis_geometry/planar.py:multicontours", "hypothesis_geometry/planar.py:multipolygons", "hypothesis_geometry/_core/factories.py:to_vertex_sequence", "hypothesis_geometry/_core/triangular.py:Triangulation.delete"]}
{"id": "C88", "title": "Contours with turns of both directions are counterclockwise", "statement": "A generated contour or concave contour that has a left turn, and every contour of a multicontour, is listed counterclockwise: its signed area is positive.", "quantifier": "every pair of coordinate strategies, every accepted size bound, every sequence of draws", "why_tests_cant": "needs rare arrangements of points for which the carved contour crosses itself", "anchors": ["hypothesis_geometry/planar.py:contours", "hypothesis_geometry/planar.py:concave_contours", "hypothesis_geometry/planar.py:multicontours", "hypothesis_geometry/_core/factories.py:to_vertex_sequence"]}
{"id": "C89", "title": "Computed coordinates stay in every set closed by differences", "statement": "Vertices of convex contours need not have drawn coordinates; but every set of numbers that contains the differences of its members and all abscissae (ordinates) that can be drawn contains the abscissae (ordinates) of all vertices of generated convex contours and contours, and of all ends of segments of generated multisegments and mixes. So integer coordinates give integer vertices, multiples of a step give multiples of the step.", "quantifier": "every such set, every pair of coordinate strategies, every accepted size bound, every sequence of draws", "why_tests_cant": "quantifies over all sets closed by differences and all draws; tests check a few numeric types", "anchors": ["hypothesis_geometry/planar.py:convex_contours", "hypothesis_geometry/planar.py:contours", "hypothesis_geometry/planar.py:multisegments", "hypothesis_geometry/planar.py:mixes", "hypothesis_geometry/_core/factories.py:to_convex_vertex_sequence"]}
{"id": "C90", "title": "Moved and rescaled coordinates give the moved and rescaled geometries", "statement": "If every abscissa is replaced by k x + a and every ordinate by k y + b with k > 0, each function of the API accepts or rejects the same arguments with the same warnings, its strategy can raise exactly the same exceptions, and it generates exactly the images under (x, y) -> (k x + a, k y + b) of the geometries generated before.", "quantifier": "every k > 0, every a and b, every pair of coordinate strategies, every size bound, every sequence of draws; for the functions using them, convex hull and nearest-segment services that commute with the motion and an atan2 that does not depend on the length of the direction (automatic for translations)", "why_tests_cant": "quantifies over all motions and over all outcomes of two strategies; an absolute tolerance, an origin-dependent comparison or a forgotten shift shows only for particular coordinates", "anchors": ["hypothesis_geometry/planar.py", "hypothesis_geometry/_core/base.py", "hypothesis_geometry/_core/factories.py", "hypothesis_geometry/_core/triangular.py", "hypothesis_geometry/_core/subdivisional.py", "hypothesis_geometry/_core/contracts.py"]}
{"id": "C91", "title": "What survives inexact arithmetic", "statement": "Suppose sums and differences of coordinates are rounded, and the orientation, in-circle, crossing and centroid services are wrong, in any way whatsoever, as may happen with floating-point coordinates; comparisons are exact and the convex hull service returns some of the points it is given. Then every generated multisegment, contour, multicontour, polygon, multipolygon and mix still has sizes within the requested bounds; its coordinates are still drawn ones (within the range of drawn ones for convex contours and segments); the contours of a multicontour, the holes of a polygon and the polygons of a multipolygon are still apart from one another; a mix still has two non-empty components and its points, segments and polygons are still apart. With exact arithmetic the functions are those of the other properties.", "quantifier": "every arithmetic (no law assumed), every hull service whose results are among its arguments, every nearest-segment and angle service, every pair of coordinate strategies, every size bound, every sequence of draws", "why_tests_cant": "quantifies over all rounding errors; a test exercises the rounding of one machine on the drawn coordinates", "anchors": ["hypothesis_geometry/planar.py", "hypothesis_geometry/_core/base.py", "hypothesis_geometry/_core/factories.py", "hypothesis_geometry/_core/triangular.py", "hypothesis_geometry/_core/subdivisional.py", "hypothesis_geometry/_core/contracts.py"]}
{"id": "C92", "title": "Every admissible number of points, segments and polygons of a mix, and which numbers of polygons of a multipolygon, can be generated", "statement": "If triangular borders and holes are allowed and enough coordinates can be drawn, mixes generates, for every number of points and of segments within the requested bounds and every list of numbers of holes within the bounds (with at least two of the three kinds present), a mix of so many points and segments and of polygons with these numbers of holes, provided a prime number at least 3 + 3 k for each number k of holes is at most the greatest number of vertices of a polygon or is the smallest above the least one. multipolygons does the same if one of its maxima is missing. If all maxima are given, it generates polygons as long as their number times that prime is at most the product of the greatest number of polygons and the greatest number of vertices, or their number is the least one; and, if holes are asked for, never more: of triangles with one triangular hole, two or three of them, there are never three.", "quantifier": "every admissible number of each component, every size bound that allows triangles, every pair of coordinate strategies that draws the whole numbers up to a bound computed from the numbers, every service within its contract; the upper bound for every sequence of draws of every such strategy", "why_tests_cant": "a random test cannot show that a number of components never occurs, nor that each of infinitely many does", "anchors": ["hypothesis_geometry/planar.py", "hypothesis_geometry/_core/base.py"]}
{"id": "C93", "title": "Carved contours and borders keep the convex hull", "statement": "Of distinct points no three of which are collinear, a contour carved out of their triangulation, and the border of a polygon carved out of it, passes through every vertex of their convex hull. It has at most as many vertices as asked for, unless the hull has more. If no more vertices are asked for than the hull has, it is the hull.", "quantifier": "every list of distinct points in general position, every requested size, every number and sizes of holes, every order of coins and every nearest segment within the contracts", "why_tests_cant": "the mouths cut depend on the whole triangulation, and a random test samples a few of the infinitely many configurations", "anchors": ["hypothesis_geometry/_core/factories.py", "to_vertex_sequence", "to_polygon"]}
{"id": "C94", "title": "Carving out of points with collinear triples gives the requested contour whenever mouths suffice", "statement": "Of distinct points that are not all collinear, with any number of collinear triples among them, whenever cutting mouths (joining inner points to the boundary) alone reaches the requested number of vertices, the carved contour is simple, counterclockwise, without straight angles, made of the given points, and has exactly as many vertices as asked for, or as their convex hull if that has more: the count kept while carving is the number of corners of the contour, so carving never goes past the request. The number by which an ear of the boundary is rated, likewise, is the change of the number of corners that cutting it off makes.", "quantifier": "every list of distinct, not all collinear points, every requested size, every order of coins within the contract; for ears, every boundary edge whose end is a corner", "why_tests_cant": "which angles become straight depends on the whole triangulation; collinear triples have measure zero and random coordinates rarely give them in the places that matter", "anchors": ["hypothesis_geometry/_core/factories.py", "_to_vertex_sequence", "_mouth_to_increment", "_ear_to_increment"]}
{"id": "C95", "title": "Carving ends whatever the points, and gives the hull when no more is asked for", "statement": "Of distinct points that are not all collinear, with any number of collinear triples among them, the loop that cuts mouths always ends, after a number of steps bounded by a quadratic polynomial in the number of points, and raises nothing but AssertionError; if it leaves nothing to carve, the carving succeeds with a contour as in C94. Asked for no more vertices than the convex hull has, carving a contour succeeds and gives the hull, and a polygon built out of the points, with or without holes, has the hull for its border. Asked for more, a border (unlike a contour) may get more vertices than asked for.", "quantifier": "every list of distinct, not all collinear points, every requested size, every hole sizes and choices, every order of coins within the contract", "why_tests_cant": "a test cannot tell a loop that never ends from a slow one, and collinear triples where they matter are rare in random coordinates", "anchors": ["hypothesis_geometry/_core/factories.py", "_to_vertex_sequence", "to_polygon"]}
{"id": "C96", "title": "Parts of collections can be drawn alone, and special contours are contours", "statement": "Every polygon of a mix is a value that polygons can generate with the same coordinates and the same bounds of borders and holes; the points of a mix, if any, are a value of multipoints with the same bounds. The polygons of a multipolygon are either all values of polygons in the same way, or (only if min_holes_size is 0) have no holes and their borders together are a value of multicontours; conversely every such value of multicontours gives a multipolygon. Every star contour is a value of contours with the same arguments, and the values of concave_contours are exactly the values of contours whose turns do not all go the same way.", "quantifier": "every coordinate strategies, bounds and draws (multipolygons: min_holes_size not negative), every geometric context within the contracts", "why_tests_cant": "that a value of one strategy can be generated by another one is a statement about all draws of both: no number of draws shows it", "anchors": ["hypothesis_geometry/planar.py", "multipolygons", "mixes", "contours", "concave_contours", "star_contours", "polygons", "multicontours", "hypothesis_geometry/_core/base.py"]}
{"id": "C97", "title": "Simple shapes have the symmetries of the square", "statement": "Passing the strategy of the ordinates for the abscissas and the other way round exchanges the coordinates of all values of points, multipoints, segments, boxes, rectangular_contours and triangular_contours, and nothing else; passing strategies of opposite abscissas mirrors them in the same way. Contours are listed the other way round afterwards, so that they stay counterclockwise.", "quantifier": "all coordinate strategies whose values correspond, all size bounds, all values", "why_tests_cant": "equality of the sets of values of two strategies is a statement about all draws of both", "anchors": ["hypothesis_geometry/planar.py", "points", "multipoints", "segments", "boxes", "rectangular_contours", "triangular_contours", "hypothesis_geometry/_core/base.py"]}
{"id": "C98", "title": "Whatever the coordinates, drawing raises nothing but AssertionError and ZeroDivisionError", "statement": "With coordinates in any position, collinear or not, the only exceptions which leave draws from contours, concave_contours, multisegments, multicontours, polygons, multipolygons and mixes are AssertionError and, for contours, concave_contours, multisegments and mixes, ZeroDivisionError (or the budget of iterations of the model is over). There are no KeyError, IndexError, ValueError, AttributeError, StopIteration or other failures of the triangulation and of the bookkeeping of its edges; carving a contour out of two or more distinct points raises AssertionError at most.", "quantifier": "all coordinate strategies with enough distinct values, all accepted size bounds, all draws, all coins, all hulls, nearest segments and angles that meet their contracts", "why_tests_cant": "the bookkeeping of edges during carving runs into rare configurations of collinear points only, and absence of an exception is a statement about all draws", "anchors": ["hypothesis_geometry/_core/factories.py", "to_vertex_sequence", "hypothesis_geometry/_core/triangular.py", "hypothesis_geometry/_core/subdivisional.py", "hypothesis_geometry/planar.py", "contours", "concave_contours", "multisegments", "multicontours", "polygons", "multipolygons", "mixes"]}
{"id": "C99", "title": "Nothing but the set of drawable coordinates matters", "statement": "If the same abscissas and the same ordinates can be drawn from two pairs of coordinate strategies, then every function of the API treats them alike: it raises the same exception, or gives the same warnings and returns strategies which can produce the same values. The order and the repetitions of sampled coordinates, the kind of the strategies, and whether the ordinates are left out or passed as a strategy of the same values make no difference. (For multipolygons min_holes_size must not be negative.)", "quantifier": "all pairs of coordinate strategies with the same values, all size bounds, all values, whatever the services of the dependencies return", "why_tests_cant": "equality of the sets of values of two strategies is a statement about all draws of both", "anchors": ["hypothesis_geometry/planar.py", "points", "multipoints", "segments", "multisegments", "boxes", "contours", "convex_contours", "concave_contours", "star_contours", "rectangular_contours", "triangular_contours", "multicontours", "polygons", "multipolygons", "mixes", "hypothesis_geometry/_core/base.py"]}
{"id": "C100", "title": "What multisegments can generate, exactly", "statement": "A list of segments can be generated by multisegments exactly when its size is admitted and it either consists of non-degenerate segments with drawable ends that neither cross nor overlap, or of edges of a contour that contours can generate with the same bounds (at least three vertices), each at most once and in any order. So all or some segments of a value, in any order, are a value as well unless they are too few; and with max_size=2 the values are exactly the pairs of drawable segments that neither cross nor overlap, and have the symmetries of C97.", "quantifier": "all coordinate strategies, all accepted size bounds, all lists of segments, any service for hulls that meets its contract", "why_tests_cant": "both directions quantify over all draws and over all lists of segments", "anchors": ["hypothesis_geometry/planar.py", "multisegments", "contours", "hypothesis_geometry/_core/base.py", "to_multisegment_strategy", "to_non_crossing_non_overlapping_segment_sequence_strategy", "to_sub_sequence_strategy"]}
{"id": "C101", "title": "No vertical or no horizontal edges", "statement": "A value of star_contours or concave_contours has no two vertices on any vertical line, or it has no two vertices on any horizontal line; and it never has three on a line of either direction. The same holds for all vertices of a multicontour together, for the vertices of the border and the holes of a polygon together, and for each polygon of a multipolygon (with a non-negative minimal number of holes) and of a mix. The same holds for every value of convex_contours and contours that has more than four vertices, if the hull of the context is the convex hull. So a polygon never has a vertical and a horizontal edge, and never has the four corners of a box among its vertices.", "quantifier": "every strategy of coordinates, every size bounds, every draw, every context, no contract assumed", "why_tests_cant": "says what is never generated, whatever is drawn; samples show only what is", "anchors": ["hypothesis_geometry/_core/base.py:to_point_sequence_in_general_position_strategy", "hypothesis_geometry/_core/base.py:to_polygon_strategy", "hypothesis_geometry/_core/base.py:to_multicontour_strategy", "hypothesis_geometry/_core/factories.py:to_star_contour_vertices", "hypothesis_geometry/_core/factories.py:to_polygon", "hypothesis_geometry/planar.py:polygons", "hypothesis_geometry/planar.py:contours"]}
{"id": "C102", "title": "Not more vertices than coordinates", "statement": "If only n different abscissas, or only n different ordinates, can be drawn, then the number of different vertices of a value of star_contours or concave_contours, of a multicontour as a whole, of a polygon with its holes, and of each polygon of a multipolygon (with a non-negative minimal number of holes) or of a mix is at most some prime number from 5 to n. The same holds for every value of convex_contours and contours that has more than four vertices, if the hull of the context is the convex hull. With at most four abscissas or ordinates polygons generates nothing.", "quantifier": "every strategy of coordinates with finitely many abscissas or ordinates, every size bounds, every draw, every context, no contract assumed except the one of the hull for convex_contours and contours", "why_tests_cant": "says what is never generated, whatever is drawn and however many coordinates there are", "anchors": ["hypothesis_geometry/_core/base.py:to_point_sequence_in_general_position_strategy", "hypothesis_geometry/_core/base.py:to_polygon_strategy", "hypothesis_geometry/_core/base.py:to_multicontour_strategy", "hypothesis_geometry/planar.py:polygons", "hypothesis_geometry/planar.py:star_contours", "hypothesis_geometry/planar.py:concave_contours"]}
