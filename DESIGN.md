# Formal model of hypothesis_geometry: design

## What is modelled, where

| file (rocq/theories) | models | contents |
|---|---|---|
| `Base.v` | Python itself | exceptions as values (`res`), stable sort, indexing with negative indices, slices, `while` loops with an iteration bound (`OutOfFuel` is a distinguished error) |
| `Prog.v` | Hypothesis | a strategy is a program that makes choices (`prog`); `may p o` says that `o` is a possible outcome (value, exception, rejected draw); `run` executes a program on a list of choices |
| `Geometry.v` | `ground`, `bentley_ottmann` | contract of the geometric primitives the code calls (orientation, in-circle, centroid, relation of two segments, ...) |
| `QuadEdge.v` | `_core/subdivisional.py` | heap of quad-edges |
| `Triangulation.v` | `_core/triangular.py` | Delaunay divide and conquer |
| `Utils.v` | `_core/utils.py`, `_core/constants.py` | primes, helpers |
| `Contracts.v` | `_core/contracts.py` | predicates |
| `Factories.v` | `_core/factories.py` | contour, multicontour and polygon construction |
| `Edges.v` | `_core/factories.py`, `to_edges` | traversal of edges (unused by the rest of the code) |
| `Strategies.v` | `_core/base.py` | strategies |
| `Planar.v` | `planar.py` | public API: validation, clamping, delegation |
| `Ctx.v`, `Reference.v` | services of the dependencies | the `context` record; a reference instance of it, proved (`ReferenceProofs.v`) to meet the contracts |
| `Spec.v`, `MixSpec.v`, `QuadSpec.v`, `HullSpec.v`, `RangeSpec.v`, `WindSpec.v`, `DelaunaySpec.v`, `GeneralSpec.v`, `StarSpec.v`, `ValtrSpec.v`, `RelaxSpec.v`, `SizeSpec.v`, `CountSpec.v`, `EdgesSpec.v`, `RegionSpec.v`, `SteerSpec.v`, `LatticeSpec.v`, `PartSpec.v`, `SymmetrySpec.v`, `MoveSpec.v`, `ValueSpec.v` | nothing | the specification vocabulary of the theorems |
| `*Proofs.v`, `Del*.v`, `Star*.v`, `Rough*.v`, `Jordan.v` and the other files not listed above | nothing (`Rough*.v`: see C91) | proofs (`Bertrand.v`: Bertrand's postulate, which C39 needs) |
| `Properties*.v` | nothing | the property theorems, examples of their hypotheses, `Print Assumptions` |

Where the theorems are: `PropertiesApi.v` C01-C11, `PropertiesContours.v` C12-C17 and C49,
`PropertiesGeometries.v` C18-C28, `PropertiesMixes.v` C31-C36 and C50, `PropertiesHelpers.v`
C37, C38, C45-C48, `PropertiesRanges.v` C39 and C40, `PropertiesTriangulation.v` C41-C44,
`PropertiesFaults.v` C51-C53, `PropertiesBorders.v` C29, C30, C54-C58, `PropertiesTotal.v` C53, C59-C62,
`PropertiesGeneral.v` C63-C68, `PropertiesStar.v` C69-C72, `PropertiesGeneralFaults.v`
C73 and C74, `PropertiesBounds.v` C75, `PropertiesRelax.v` C76-C78,
`PropertiesEmpty.v` C79, `PropertiesSizes.v` C80 and C81, `PropertiesCounts.v` C82 and C83, `PropertiesEdges.v` C84, `PropertiesRegions.v` C85 and C86,
`PropertiesCarveFaults.v` C87 and C88, `PropertiesLattice.v` C89, `PropertiesMove.v` C90,
`PropertiesRough.v` C91, `PropertiesReach.v` C92, `PropertiesHulls.v` C93, `PropertiesSteer.v` C94 and C95,
`PropertiesParts.v` C96, `PropertiesSymmetry.v` C97, `PropertiesAnyFaults.v` C98, `PropertiesValues.v` C99, `PropertiesSegments.v` C100, `PropertiesAxis.v` C101, `PropertiesVertexCount.v` C102.

Scalars are canonical rationals (`Qc`), i.e. `fractions.Fraction`, the scalar type the
test-suite uses for exact checks.  Inexact scalars are covered by C91 only: there sums, differences, the
predicates and the centroids are arbitrary functions, whatever the rounding (NaN and infinities stay out: comparing
is a total order).  For all the other properties the arithmetic is exact; only the floats returned
by `math.atan2` are an arbitrary function of the two coordinates, so theorems hold whatever the
rounding.  The exception is C69-C72, C75, C76, C79 and C80: they assume `orders_directions` (`StarSpec.v`), that a
smaller computed angle belongs to a direction which is smaller as an angle of (-pi, pi], with equal
results for different directions allowed.  `atan2` itself has that property, and so has any monotone
rounding of it; converting the two coordinates to floats first, as Python does, preserves it only as
long as the conversions are exact or do not exchange two directions.

### Choices
`Choose lo hi k` picks an integer between the bounds.  `st.integers(a, b)` with `b < a`,
`st.sampled_from([])`, `st.lists` with impossible sizes fail with `InvalidArgument`, as in
Hypothesis.  Rejected draws (`filter`, uniqueness) are the outcome `Rej`: Hypothesis retries, so
a rejected draw is never a value seen by the user.  `st.randoms(use_true_random=True)` gives
arbitrary bits, shuffles and choices.

### Dependencies as parameters
The record `context` holds the services whose result is not a short formula: convex hull,
`atan2`, nearest segment, splitting of a number into twos and threes, and the iteration bound of
the model's loops.  Theorems that need something of them take an explicit, satisfiable
contract as hypothesis, and the reference instance of `Reference.v` is proved to satisfy it.

## Trusted base
* Coq 8.16.1's kernel (`vm_compute` is used in examples and refutations).
* The axioms listed by `Print Assumptions` under each theorem: none, every property theorem is
  "Closed under the global context".  (A listing of the axioms of all loaded libraries also
  shows `Coq.ssr.ssrunder.Under_rel.*`: fields of a module type of the standard library's
  ssreflect plugin, loaded by the libraries; no theorem depends on them.)
* The reading of the Python code into the definitions, each of which cites its lines.
* The contract of `ground`, `bentley_ottmann`, `locus`, `dendroid`, `decision`, `hypothesis` as
  written in `Geometry.v`, `Prog.v`, `Factories.v` (`kset`), and the `context` record.

Not modelled: `__repr__`, type hints, `stacklevel` and message texts, the probability
distribution of draws, shrinking, performance, NaN and infinite coordinates, Python's object identity beyond `is` on quad-edges.

## Per property plan

* C01-C04 validation: model `_validate_sizes` and each API function as `res` with a list of
  warnings; exact characterisation (iff), by case analysis and `lia`.
* C05-C11 simple strategies: exact support (iff), by inversion of `may`.
* C06 all strategies: `may` equivalence of the `None` and the explicit call.
* C12-C14 convex contours: contract of the hull; Valtr vectors sum to zero, running sums clamp
  into the range.
* C15-C17 star contours: invariant of the fixpoint loop; the last iteration removed nothing.
* C18-C21 contours: filters give sizes; heap invariant "every start is a given point" gives
  support; `compress_contour` gives strictness; simplicity is refuted by a concrete draw.
* C22-C24 multisegments: per alternative; lists of collinear segments by sortedness.
* C25, C26 multicontours: filter; lexicographic separation of the slices of sorted points.
* C27-C30 polygons: filter; separation for holes; heap invariant for support.
* C31, C32 multipolygons, C33-C36 mixes: invariants on the slices of sorted coordinates.
* C37, C38 primes: Euclid's lemma from the standard library (`Znumtheory`).
* C39 no impossible ranges: `can_raise p InvalidArgument` is contradictory; needs C37, C38, C40;
  segments of mixes need Bertrand's postulate (a contour of [n] vertices is drawn on a grid over a
  sample of [2 n] coordinates).
* C40 hulls: the monotone chain keeps exactly the points on the boundary; supporting lines.
* C41-C43 quad-edges: permutation invariants of the heap.
* C44 support: heap invariant through every loop.
* C45-C48: direct proofs about helpers.
* C51 simple members: refuted by a concrete draw; triangles by `compress_contour`.
* C52 no exceptions: `can_raise p e` is contradictory for every `e`, combinator by combinator. Star contours
  are the exception: a grid of points exists for which the region of an intermediate contour has
  area zero and asking for its centroid raises `ZeroDivisionError` (`C52_star_contours_refuted`).
* C53 no assertion fails in polygons: refuted by a concrete draw.
* C29, C30, C54, C55, C57 polygons: the Delaunay triangulation (C56) has a boundary that is one
  simple counterclockwise curve, and replacing a boundary edge by the two other edges of its
  triangle keeps it one; the winding number is constant off a contour (`WindSpec.v`); the
  nearest-segment query keeps the border clear of the holes.  Angles at the first two vertices of
  a hole are not covered (partial).
* C56 Delaunay: invariants of the divide and conquer construction, stated separately in
  `DelaunaySpec.v`.
* C58 borders of multipolygons: refuted by the draw of C51.
* C53 without holes, C59, C60 no exceptions: measures of every loop of the triangulation and of the
  border (walks along orbits of distinct edges; the candidate edges of the border).  The points are
  not on one line by C61, as the parabola modulo a prime takes equal values at 1 and p - 1.
* C62 the iteration bound: every loop computes the same with more iterations.
* C63-C68 coordinates in general position (`GeneralSpec.v`): no ear is ever cut, every mouth keeps the
  boundary one simple counterclockwise curve and no three of its vertices are on one line, so the
  loops of multicontours and holes never meet a contour of fewer than three vertices.  The other parts of
  `mixes` are covered by C72 and C74.
* C69 star contours are convex: the last pass of the loop drops nothing, so the vertices are sorted by
  angle around a point, all turns are strict and the centroid of their region is in every angle.  The
  sequence of vertices is made periodic with increasing pseudo-angles; a turn to the wrong side is
  contradicted by the sector it bounds and by the vanishing of the first moments about the centroid
  (`StarFan.v`, `StarConvex.v`).
* C70-C72: the filter of concave contours rejects a contour all of whose turns are of one orientation,
  hence every star contour; contours in general position are convex, star or carved as in C63.
* C73, C74: exceptions of every draw, composed along the strategies; a star contour can divide by zero
  (C52), a carved one raises nothing (C63); the split of coordinates in mixes leaves enough for each part.
* C75: sorted by angle, the steps of the random convex polygon go left, right and left again (down and up
  again), and the steps to the right add up to the width of the drawn range; the hull of points reaches
  their extremes in every direction (`ValtrProofs.v`).  Assumes also `tells_sides` (`ValtrSpec.v`).
* C76: the points of a grid are as many as a prime number, which is not greater than the maximum unless
  no prime number lies between the bounds; vertices are among the points, or as many as the steps of the
  random polygon (`CapProofs.v`).
* C77, C78: every combinator of strategies is monotone in the set of values of its parts; the bounds of
  all inner draws get wider (`RelaxProofs.v`, `RelaxApiProofs.v`).  The inner draw of prime size is the
  only one that does not, hence the condition of C77 and its counterexample.
* C79: a star contour is convex (C69) and would need every point of the grid of quadratic residues as a
  vertex; for a prime number p >= 11 some residue of i*i is greater than that of j*j with i < j < p/2, so
  the points at i, j, p-j, p-i are not in convex position with the point at 0 (`EmptyProofs.v`).
* C80: for a prime number p >= n, one choice of ordinates (0..p-1) makes the steps of a random convex
  polygon come in pairs of opposite sizes; the abscissas are then chosen so that the steps have exactly n - 1
  slopes besides the horizontal one (`SizeFan.v`, `SizeGrid.v`), and the hull of such a walk has n vertices
  (`FanCount.v`).  Assumes more of the dependencies than the other theorems: `atan2` raises nothing, and the
  hull of points that are not on one line has at least three vertices (`SizeSpec.v`); the reference instance
  meets it because its monotone chain is proved correct (`HullChain.v`).
* C81: the alternatives of the strategies that generate triangles, rectangles and filtered lists of segments
  generate all of them.  No statement of this kind is made for star, concave or non-convex contours.
* C82, C83: necessity is arithmetic on the drawn sizes.  For sufficiency, for every prime number p >= 5 the grid
  with abscissas 0..p-1 and ordinates (p+1)^p - (p+1)^(p-j) has p points in general position, all but
  three of them strictly inside the triangle of the other three (`CountGrid.v`); all the sizes are drawn
  as 3 and the results on general position (`GeneralProofs.v`) give the pieces (`CountProofs.v`).
* C84: invariant of the traversal: what is linked and not yet yielded is reached through the queue; turning to
  the right is turning to the left often enough, since the rings are finite.
* C85, C86: a point that is on the other side of a line (or on it) than all vertices, and not on the contour, can be
  moved away to infinity without meeting the contour, so the contour does not wind around it; different members are
  separated by lines (C26, C28, C32, C36), and holes are inside their border (C55).
* C87, C88: refuted by tapes of draws run on the model in the reference context, whose services meet all their contracts;
  the positive parts, for coordinates in general position, follow from C66, C68, C71 and C73.
* C89: the vectors of the Valtr algorithm are differences of drawn coordinates; running sums, shifts and clamping stay in
  the set.
* C90: the two runs are kept in lockstep (`MoveBase.v`: a relation between programs that make the same choices).  Cross
  products are multiplied by k^2, in-circle determinants by k^4, so all tests have the same outcome; the heap of the
  subdivision is the same except for the moved starts (`MoveHeap.v`); centroids move because the extra terms telescope
  along a closed contour (`MoveFactories.v`).  Assumed of the services (`follows_motion`, `MoveSpec.v`): hull and nearest
  segment move with the points, `atan2(k y, k x) = atan2(y, x)`.  The last is an identity for k = 1 and holds in Python
  for powers of two as long as floats neither overflow nor underflow; for other k rounding can break it.
* C91: `RoughArith.v` is a record without laws of every function of coordinates that is computed other than by comparing:
  `+`, `-`, orientation, in-circle test, crossing tests, centroids.  `RoughFactories.v`, `RoughStrategies.v` and
  `RoughPlanar.v` repeat the affected definitions of the model over that record (`RoughExact.v` proves that the instance of
  exact arithmetic gives the definitions of the model back); definitions that only compare are shared.  Sizes hold because
  of the final filters and slices, coordinates because drawn points are only permuted, ranges because of the clamping,
  separation because slices of the sorted points are split by comparisons alone.  What needs exact predicates
  (simplicity, convexity, orientation, holes inside borders) is not claimed.
* C92: a run of consecutive whole numbers is a run again after taking, dropping or slicing it, so every polygon of a
  multipolygon or mix is drawn from the coordinates o, o + 1, ..., o + r - 1 for some o, and the construction of C83,
  moved by o, gives a triangle with triangular holes; points and segments are put on the line y = 0.  The loops are
  followed by induction with one coordinate possibly shared by neighbours (`ReachProofs.v`).  The upper bound is the
  number of drawn coordinates divided by r.
* C93: the invariants of the two carving loops (`DelContour.v`, `DelBorder.v`) are extended by a ledger: the vertices
  of the initial boundary stay, each cut adds one vertex and takes one from what is left, and nothing is cut when
  nothing is left.  The initial boundary is a hull, and two hulls have the same vertices (`CarveHull.v`).
* C94: no general position.  The invariant `kept` (`DelLoose.v`) says that the candidates hold the mouths of the current
  boundary under their true increments, and that the number of corners (angles that are not straight) of the boundary
  plus what is left is the requested size; `SteerProofs.v` computes the change of the number of corners made by one cut.
  Compressing a Jordan contour leaves its corners (`CornerProofs.v`), so the result has the requested size, and the
  initial boundary compresses to the hull (`LooseProofs.v`).  `mouths_left` of `SteerSpec.v`, by which the hypothesis
  is stated, repeats the first half of `_to_vertex_sequence`.  The contours for which ears are cut besides are not
  covered: C20 refutes their simplicity.
* C95: a measure for the mouth loop (`DelEnds.v`): the inner points not yet on the boundary first; then the candidates,
  where an edge that is not a mouth counts twice (a flip makes mouths and spoils none); then whether the candidates are
  filed under their current increments, in which case a round without a cut drops or flips one of them.  The assertions
  on stale increments remain possible outcomes.  The loop over the ears is not covered: its unconditional flips leave
  the triangulation, and C87 refutes that it ends without an error.
* C96: the polygons of collections are drawn from slices of drawn coordinates, and a slice is poorer than the strategy it
  was drawn from, so C78's lemma applies (`PartProofs.v`); points by the exact support of `multipoints` (C07).  For
  concave contours: bounds 3 and 4 draw the same points (the next prime of both is 5), and asked for a triangle, carving
  gives the hull (C95's lemma), which the filter rejects.
* C97: from the exact supports C05 and C07-C11 (`SymmetryProofs.v`).  The other functions are not symmetric: the
  triangulation and the slices sort points by abscissas first, and star contours start at the least angle.
* C98: C73 and C74 say this for coordinates in general position, C98 for all.  The phase of carving that cuts ears
  keeps the invariant (`ears`) that every edge in a bucket is a candidate, is in one bucket only and once, and that keys
  within a bucket differ, so that nothing is taken from an empty bucket and no missing candidate is removed; the phase that cuts mouths is that of C95; collinear points are compressed
  to two, for which the loops end at once (`EarProofs.v`, `AnyFaultProofs.v`).  The two exceptions that are left do
  occur (C73, C87).  Exhaustion of the fuel is not excluded here; C95 excludes it for carving by mouths.
* C99: C78 in both directions (`ValueProofs.v`), and the checks of the arguments do not look at the coordinates.  This is
  about values: a `sampled_from` with repetitions may be refused by Hypothesis later than one without.
* C100: the four alternatives of the strategy one by one (`SegmentSetProofs.v`): segments on a line are subsumed by the
  lists of arbitrary segments (C81's completeness), a sublist of a permutation is a part of the edges of a contour.  The symmetries of pairs follow from their exact
  description (`SegmentSymmetry.v`).
* C101: all vertices come from one grid of points (C37), in which the abscissas or the ordinates are all different and no
  coordinate occurs three times; stars and carved contours, their rows and holes use no other points (`AxisProofs.v`).
  What `contours` generates beyond that comes from its convex alternative, where rectangles do occur (C81).
* C102: the grid of C37 has a prime number of points, at least 5 and not more than there are abscissas or ordinates, and
  different vertices are different points of one grid (`VertexCountProofs.v`).  For `convex_contours` and
  `contours` the contract of the hull gives not more vertices than points of the grid (C76); their triangles and rectangles
  need fewer coordinates, hence the case of at most four vertices.
