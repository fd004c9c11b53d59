{"id": "C01", "title": "Every reachable curve is well formed", "statement": "Starting from any curve accepted by the Curve constructor and applying any sequence of curve operations (slice, index list, mask, +, reverse, insert, append, delete, insertdim, deletedim, unique, drop, copy, coorientplane), every curve obtained is rectangular (each point has exactly ndim coordinates), has ndim >= 2, and a parametric curve has exactly as many parameters as points.", "quantifier": "all constructor inputs and all finite sequences of operations with arbitrary arguments, including failing ones", "why_tests_cant": "tests exercise single operations on fixed 4-point curves; the invariant ranges over unbounded operation histories", "anchors": ["skcurve/_base.py:Curve.__init__", "skcurve/_base.py:Curve.__getitem__", "skcurve/_base.py:Curve.__add__", "skcurve/_base.py:Curve.insert", "skcurve/_base.py:Curve.delete", "skcurve/_base.py:Curve.unique", "skcurve/_base.py:Curve.drop"]}
{"id": "C02", "title": "Integer indexing returns the addressed point", "statement": "curve[i] succeeds exactly for -2*size <= i < size and raises IndexError otherwise; for -size <= i < size it is the i-th point (Python convention for negatives) with the normalised idx; for -2*size <= i < -size the index is wrapped twice, the point is the one at i mod size and idx is negative.", "quantifier": "all curves and all integers i", "why_tests_cant": "tests probe four indices of one curve; out-of-range negatives are never probed", "anchors": ["skcurve/_base.py:CurvePoint.__init__", "skcurve/_base.py:Curve.__getitem__"]}
{"id": "C03", "title": "Slicing behaves like Python list slicing on points and parameters", "statement": "curve[start:stop:step] contains exactly the points (and parameters) that Python slicing selects from the list of points, in that order, for any start/stop/step including negative and omitted ones; step 0 is an error; a non-empty result keeps ndim. (ndim is not kept when the result is empty.)", "quantifier": "all curves and all (start, stop, step) with each component absent or any integer", "why_tests_cant": "the slice space is infinite and its clamping rules have many boundary cases", "anchors": ["skcurve/_base.py:Curve.__getitem__"]}
{"id": "C04", "title": "Index-array and mask selection", "statement": "curve[[i0,i1,...]] has the points c[i0],c[i1],... with their parameters in that order and raises IndexError if some index is out of range; curve[mask] keeps exactly the points whose mask entry is True, in order, and a mask of the wrong length is an IndexError.", "quantifier": "all curves, index lists and masks", "why_tests_cant": "selection lists are unbounded and parameters must stay aligned for each", "anchors": ["skcurve/_base.py:Curve.__getitem__"]}
{"id": "C05", "title": "Concatenation is list append", "statement": "c1 + c2 has the points of c1 followed by those of c2, size adds up, it is parametric iff both operands are, with the parameter vectors appended; different dimensions raise ValueError. For operands of one dimension it is associative exactly if the middle operand is plane or has points, or the outer operands are both empty or both not.", "quantifier": "all pairs/triples of curves", "why_tests_cant": "algebraic law over unbounded curves", "anchors": ["skcurve/_base.py:Curve.__add__"]}
{"id": "C06", "title": "Splitting and re-joining a curve restores it", "statement": "For every k, c[:k] + c[k:] has exactly the points and parameters of c (for plane curves and for any split with two non-empty halves).", "quantifier": "all curves and all integer split points", "why_tests_cant": "round trip law over all curves and split points", "anchors": ["skcurve/_base.py:Curve.__getitem__", "skcurve/_base.py:Curve.__add__"]}
{"id": "C07", "title": "reverse is an order-reversing involution", "statement": "c.reverse() has the points and parameters in opposite order, and reversing twice gives back exactly the same curve.", "quantifier": "all curves", "why_tests_cant": "algebraic law", "anchors": ["skcurve/_base.py:Curve.reverse"]}
{"id": "C08", "title": "insert puts the new points at the given place and nowhere else", "statement": "For -size <= i <= size, c.insert(i, x) consists of the points before position i, then the points of x, then the remaining points, unchanged and in order; the result is not parametric; other integers raise IndexError and a dimension mismatch raises ValueError.", "quantifier": "all curves, all inserted points/curves, all integers i", "why_tests_cant": "index space and curve space are unbounded", "anchors": ["skcurve/_base.py:Curve.insert", "skcurve/_base.py:Curve.append"]}
{"id": "C09", "title": "delete removes exactly the addressed points", "statement": "c.delete(i) / delete(slice) / delete(list) returns the curve of exactly the points not addressed, in order, with their parameters; an integer index out of range raises IndexError.", "quantifier": "all curves and all indexers", "why_tests_cant": "must hold for all indexers; alignment of parameters is not checked by any test", "anchors": ["skcurve/_base.py:Curve.delete"]}
{"id": "C10", "title": "delete undoes insert; append is concatenation", "statement": "Deleting the inserted range after an insert restores the original points; append(x) equals insert at size and equals concatenation (without parameters).", "quantifier": "all curves, inserted curves and positions", "why_tests_cant": "round trip law", "anchors": ["skcurve/_base.py:Curve.insert", "skcurve/_base.py:Curve.append", "skcurve/_base.py:Curve.delete"]}
{"id": "C11", "title": "in / count / index agree", "statement": "p in c iff c.count(p) > 0 iff c.index(p) does not raise; c.index(p) is the first position whose point equals p; count(p) is the number of positions whose point equals p (up to the library's closeness).", "quantifier": "all curves and points", "why_tests_cant": "three independently coded queries must agree on all inputs", "anchors": ["skcurve/_base.py:Curve.__contains__", "skcurve/_base.py:Curve.index", "skcurve/_base.py:Curve.count"]}
{"id": "C12", "title": "index with start/end finds the first occurrence in the interval", "statement": "c.index(p, start, end) raises ValueError iff no point of c[start:end] equals p; otherwise it finds the first such point inside the interval and returns its index, counted from the end if -size <= start < 0; the number returned addresses that point exactly if start >= -size (a smaller start is added unclamped).", "quantifier": "all curves, points, and optional integers start/end", "why_tests_cant": "interval clamping has infinitely many cases", "anchors": ["skcurve/_base.py:Curve.index"]}
{"id": "C13", "title": "Sub-curve containment is contiguous occurrence", "statement": "other in c (for a curve of the same dimension) iff some contiguous run of points of c equals other point by point up to closeness.", "quantifier": "all pairs of curves", "why_tests_cant": "search over all offsets and lengths", "anchors": ["skcurve/_base.py:Curve.__contains__"]}
{"id": "C14", "title": "Equality of points and curves", "statement": "Point/curve equality is reflexive on finite data, never holds between different dimensions or sizes, and means coordinate-wise closeness (exact equality if both are integer typed). It is neither symmetric nor transitive.", "quantifier": "all pairs of points/curves", "why_tests_cant": "counterexamples to symmetry lie in a thin tolerance band no test hits", "anchors": ["skcurve/_base.py:Point.__eq__", "skcurve/_base.py:Curve.__eq__", "skcurve/_numeric.py:isequal", "skcurve/_numeric.py:allequal"]}
{"id": "C15", "title": "unique keeps exactly the first occurrences", "statement": "c.unique() contains every distinct point of c once, at the position order of first occurrences, with the parameter of that first occurrence; it is idempotent.", "quantifier": "all curves", "why_tests_cant": "order and multiplicity must hold for all inputs", "anchors": ["skcurve/_base.py:Curve.unique"]}
{"id": "C16", "title": "drop removes exactly the flagged points", "statement": "c.drop(isa) keeps exactly the points whose mask entry (or any entry of their mask row) is False, in order with parameters; an integer-valued checker deletes exactly those indices.", "quantifier": "all curves and all checkers", "why_tests_cant": "checkers are arbitrary functions", "anchors": ["skcurve/_base.py:Curve.drop"]}
{"id": "C17", "title": "nonsingular removes non-finite points and collapsed segments", "statement": "The result is a subsequence of the curve (with parameters), contains only finite points, and keeps a finite point iff its chord to the preceding original point is not close to zero (first point always). The result need not be free of zero-length segments and the operation is not idempotent.", "quantifier": "all curves including NaN/Inf coordinates", "why_tests_cant": "failure needs a particular interleaving of NaN and duplicates", "anchors": ["skcurve/_diffgeom.py:nonsingular", "skcurve/_base.py:Curve.nonsingular"]}
{"id": "C18", "title": "insertdim/deletedim act on the given axis only", "statement": "insertdim(a, v) puts v as coordinate a of every point and leaves the others in order; deletedim(a) removes coordinate a; deletedim undoes insertdim on a non-empty curve; deletedim on a 2-D curve raises ValueError. insertdim with an axis outside -n..n raises IndexError, with values whose number is neither one nor the number of points ValueError.", "quantifier": "all non-empty curves, axes and value vectors", "why_tests_cant": "round trip law over axes and dimensions", "anchors": ["skcurve/_base.py:Curve.insertdim", "skcurve/_base.py:Curve.appenddim", "skcurve/_base.py:Curve.deletedim"]}
{"id": "C19", "title": "values are the coordinate columns and rebuild the curve", "statement": "values(a) is the sequence of a-th coordinates; Curve([values(0),...,values(n-1)]) equals the curve for every non-empty curve. values(a) raises ValueError for a >= n and IndexError for a < -n.", "quantifier": "all non-empty curves and axes", "why_tests_cant": "transposition law", "anchors": ["skcurve/_base.py:Curve.values", "skcurve/_base.py:Curve.__init__", "skcurve/_utils.py:as2d"]}
{"id": "C20", "title": "as2d puts the chosen axis first and flattens the others row-major", "statement": "as2d(arr, axis)[i, k] is the element of arr whose index along axis is i and whose remaining indices are the row-major decoding of k; an axis >= ndim raises ValueError.", "quantifier": "all N-dimensional arrays and axes", "why_tests_cant": "N-dimensional index arithmetic", "anchors": ["skcurve/_utils.py:as2d"]}
{"id": "C21", "title": "Copies equal the original", "statement": "copy(c), Curve(c) have the same points, dtype and parameters as c, and the same dimension exactly if c has points or is plane (an empty copy is plane).", "quantifier": "all curves", "why_tests_cant": "the violating case is empty n-D curves", "anchors": ["skcurve/_base.py:Curve.__copy__", "skcurve/_base.py:Curve.__deepcopy__", "skcurve/_base.py:Curve.__init__"]}
{"id": "C22", "title": "coorientplane gives the co-oriented curve", "statement": "If the plane determinant of the end points is non-zero, coorientplane returns c or its reverse, the result has positive determinant, it is idempotent and independent of the initial direction. (With zero determinant it always reverses, so it is not idempotent.)", "quantifier": "all curves and axis pairs", "why_tests_cant": "zero determinant is a measure-zero set", "anchors": ["skcurve/_diffgeom.py:coorientplane", "skcurve/_base.py:Curve.coorientplane"]}
{"id": "C23", "title": "subcurve and curve segments address the curve they come from", "statement": "p.subcurve(q) is the inclusive run of points between the two indices; c.segments has size-1 elements, the i-th joins c[i] and c[i+1]. CurveSegment(c, i) for i < -(size-1) is not rejected.", "quantifier": "all curves and indices", "why_tests_cant": "index arithmetic", "anchors": ["skcurve/_base.py:CurvePoint.subcurve", "skcurve/_base.py:CurveSegment.__init__", "skcurve/_base.py:Curve.segments"]}
{"id": "C24", "title": "Chord, arc and cumulative arc length", "statement": "For a non-empty curve chordlen lists the Euclidean lengths of consecutive segments, arclen is their sum, cumarclen has one entry per point, starts at 0, is non-decreasing, and ends at arclen. For the empty curve arclen is not determined by the curve.", "quantifier": "all curves", "why_tests_cant": "ordering and summation laws over unbounded curves", "anchors": ["skcurve/_diffgeom.py:chordlen", "skcurve/_diffgeom.py:arclen", "skcurve/_diffgeom.py:CurvePointFunctionMixin.cumarclen"]}
{"id": "C25", "title": "Arc length laws", "statement": "For non-empty curves arclen is invariant under reversal and under every distance-preserving map of the points, multiplies by k under maps that multiply distances by k, is at least the distance between the end points, satisfies arclen(c1+c2) = arclen(c1) + gap + arclen(c2), does not grow under deletion of points and does not shrink under insertion.", "quantifier": "all non-empty curves", "why_tests_cant": "geometric laws on all curves", "anchors": ["skcurve/_diffgeom.py:arclen", "skcurve/_base.py:Curve.arclen"]}
{"id": "C26", "title": "First derivative is exact on quadratic curves", "statement": "If the points of a curve with at least 3 points sample a polynomial of degree <= 2 in the index, firstderiv is exactly the derivative and secondderiv exactly the second derivative at every point, including both ends; with 2 points firstderiv is the difference, with 1 point a single 0; it is linear, translation invariant (as are speed, the Frenet vectors, curvature and torsion) and antisymmetric under reversal.", "quantifier": "all curves (and all quadratics)", "why_tests_cant": "coefficients and lengths are unbounded", "anchors": ["skcurve/_diffgeom.py:_gradient", "skcurve/_diffgeom.py:CurvePointFunctionMixin.firstderiv"]}
{"id": "C27", "title": "Frenet vectors are orthonormal where defined", "statement": "At every point: where the tangent norm exceeds 1e-8 frenet1 has norm 1, is parallel to the tangent, and normal, frenet2, binormal and frenet3 are orthogonal to it; where the normal exceeds 1e-8 frenet2 has norm 1 and is parallel to it; where both hold binormal and frenet3 are orthogonal to frenet2; where the binormal exceeds 1e-8 frenet3 has norm 1; where a vector is at most 1e-8 its Frenet vector is the vector itself.", "quantifier": "all curves, dimensions and points", "why_tests_cant": "identity for all curves, tests check three sampled curves approximately", "anchors": ["skcurve/_diffgeom.py:CurvePointFunctionMixin.frenet1", "skcurve/_diffgeom.py:CurvePointFunctionMixin.normal", "skcurve/_diffgeom.py:CurvePointFunctionMixin.frenet2", "skcurve/_diffgeom.py:CurvePointFunctionMixin.binormal", "skcurve/_diffgeom.py:CurvePointFunctionMixin.frenet3"]}
{"id": "C28", "title": "Curvature laws", "statement": "Where the speed is not zero plane curvature is divided by k under similarities with ratio k (translation and rotation included), changes sign under reversal and mirroring, is zero on straight lines, exact on quadratic curves, and exactly 1/r at the inner points of uniformly sampled circles; a one-point plane curve raises IndexError. n-D curvature is non-negative, scales by 1/k while no tangent norm is at most 1e-8, and is zero on straight lines whose numerical tangents point forwards (for example uniform sampling), but not on all straight lines.", "quantifier": "all curves with non-zero speed", "why_tests_cant": "laws over all curves", "anchors": ["skcurve/_diffgeom.py:CurvePointFunctionMixin.curvature"]}
{"id": "C29", "title": "Torsion of a plane curve is zero", "statement": "A curve lying in any plane has torsion 0 at every point where the tangent and the normal exceed 1e-8 in norm; at inflection points it may be non-zero.", "quantifier": "all such curves", "why_tests_cant": "all planar curves", "anchors": ["skcurve/_diffgeom.py:CurvePointFunctionMixin.torsion"]}
{"id": "C30", "title": "A curve point reports the row of the curve's property", "statement": "For every differential-geometry property q and every accepted index i (from -2*size to size-1), c[i].q equals the entry of c.q at the position of the point c[i] (i modulo size), and raises what c.q raises.", "quantifier": "all curves, properties and indices", "why_tests_cant": "9 properties x all indices", "anchors": ["skcurve/_diffgeom.py:_maybe_curve_point"]}
{"id": "C31", "title": "Segment parametrisation", "statement": "segment.point(t) = p1 + t(p2-p1): 0 and 1 give the end points, a sequence of t gives the points one by one, and for 0<=t<=1 the point lies between the end points.", "quantifier": "all segments and parameters", "why_tests_cant": "affine law", "anchors": ["skcurve/_geomalg.py:segment_point", "skcurve/_base.py:Segment.point"]}
{"id": "C32", "title": "Segment.t inverts Segment.point", "statement": "For a segment with p1 != p2, segment.t(segment.point(s)) is s exactly when the point is close to an end point or the segment's line passes through the origin, and NaN otherwise. (So it does not invert point() in general: refuted by the midpoint of (0,1)-(1,1).)", "quantifier": "all non-singular segments and s", "why_tests_cant": "tests use only lines through the origin", "anchors": ["skcurve/_geomalg.py:segment_t", "skcurve/_base.py:Segment.t"]}
{"id": "C33", "title": "collinear decides collinearity", "statement": "collinear(points) is True exactly when there are at most two distinct points or all points lie on one line through the origin; hence True implies that the points are collinear, but not conversely (refuted by (0,1),(1,1),(2,1)).", "quantifier": "all point sets in all dimensions", "why_tests_cant": "tests use only lines through the origin", "anchors": ["skcurve/_geomalg.py:collinear_points", "skcurve/_base.py:Segment.collinear"]}
{"id": "C34", "title": "coplanar decides coplanarity", "statement": "coplanar of two or more points is True iff all points lie in one affine plane (of dimension <= 2), always True below 3 dimensions; a single point of dimension 3 or more raises ValueError, also in isplane.", "quantifier": "all point sets in all dimensions", "why_tests_cant": "rank condition over all inputs", "anchors": ["skcurve/_geomalg.py:coplanar_points", "skcurve/_base.py:Segment.coplanar", "skcurve/_base.py:Curve.isplane"]}
{"id": "C35", "title": "parallel decides parallelism", "statement": "Segments with proportional directions are reported parallel; the answer is symmetric and independent of orientation and translation; reported parallel means |u||v||sin| < sqrt(tol). Short orthogonal segments are wrongly reported parallel (refuted).", "quantifier": "all pairs of segments, all tolerances", "why_tests_cant": "scale dependence only shows on tiny segments", "anchors": ["skcurve/_geomalg.py:parallel_segments"]}
{"id": "C36", "title": "angle is the Euclidean angle", "statement": "angle is the arccos of the normalised dot product, lies in [0, pi], is symmetric, 0 for equal directions, pi for opposite, complements to pi when one segment is reversed, NaN iff the product of lengths is close to 0.", "quantifier": "all pairs of segments", "why_tests_cant": "trigonometric law", "anchors": ["skcurve/_geomalg.py:segments_angle"]}
{"id": "C37", "title": "overlap of collinear segments", "statement": "For collinear segments overlap is None iff the segments have no common point; otherwise the returned segment has the mid-point and the length of the true common segment, and equals it if the direction is non-decreasing in each coordinate. Its end points need not lie on the segments (refuted for mixed-sign directions).", "quantifier": "all pairs of collinear segments in any dimension", "why_tests_cant": "tests use only direction (1,1)", "anchors": ["skcurve/_geomalg.py:overlap_segments"]}
{"id": "C38", "title": "Closest point of a segment to a point", "statement": "segment.shortest_segment(point) starts on the segment, ends at the point, and its length is minimal over the whole segment up to an explicit bound coming from the isclose snapping.", "quantifier": "all segments and points in all dimensions", "why_tests_cant": "optimality quantifies over all points of the segment", "anchors": ["skcurve/_geomalg.py:segment_to_point", "skcurve/_base.py:Segment.shortest_segment"]}
{"id": "C39", "title": "Closest points of two segments", "statement": "segment_to_segment returns parameters in [0,1]; for a non-degenerate second segment and directions that are parallel or clearly non-parallel the connecting segment is minimal over all pairs of points up to an explicit tolerance bound. Refuted for a degenerate second segment.", "quantifier": "all pairs of segments in all dimensions", "why_tests_cant": "optimality quantifies over a continuum of competitor pairs", "anchors": ["skcurve/_geomalg.py:segment_to_segment"]}
{"id": "C40", "title": "Vectorised closest points equal the scalar ones", "statement": "segments_to_segments(data1, data2) gives at entry (i,j) exactly the parameters and points that segment_to_segment gives for the i-th and j-th segments if one of the arrays is floating; if both are integer arrays the parameters are truncated to whole numbers before the points are computed.", "quantifier": "all pairs of data arrays and tolerances", "why_tests_cant": "masked in-place updates must agree with branches for all inputs", "anchors": ["skcurve/_geomalg.py:segments_to_segments"]}
{"id": "C41", "title": "Intersection result objects are consistent", "statement": "An intersection is truthy iff its type is not NONE; EXACT carries a point, OVERLAP/ALMOST a segment; intersect_point is that point or the segment's middle; intersect_segment of EXACT is the singular segment; constructing an info with mismatching data raises ValueError (also NONE with None, always).", "quantifier": "all results of all methods", "why_tests_cant": "decision table over all types", "anchors": ["skcurve/_intersect.py:IntersectionType.__call__", "skcurve/_intersect.py:SegmentsIntersection"]}
{"id": "C42", "title": "Exact segment intersection is sound", "statement": "If the exact method reports EXACT in the plane, the reported point lies on both lines and within an explicit tolerance of both segments; segments at positive distance larger than the tolerance are never reported as EXACT.", "quantifier": "all pairs of segments", "why_tests_cant": "for all segments", "anchors": ["skcurve/_intersect.py:ExactIntersectionMethod._intersect_segments"]}
{"id": "C43", "title": "Exact segment intersection is complete for proper crossings", "statement": "If two segments whose directions satisfy |u|^2|v|^2-(u.v)^2 >= eps have a common point, the method reports a non-empty intersection containing it. Crossing short segments are missed (refuted without the size condition), and overlapping collinear segments off the origin are missed (refuted).", "quantifier": "all pairs of segments in any dimension", "why_tests_cant": "missed cases lie outside of the tested unit-size segments", "anchors": ["skcurve/_intersect.py:ExactIntersectionMethod._intersect_segments"]}
{"id": "C44", "title": "Candidate segment pairs", "statement": "From the boolean matrix the candidate list contains exactly the true entries (i,j) in row-major order; for self-intersection exactly those with j >= i+2, each unordered pair once.", "quantifier": "all matrices", "why_tests_cant": "index law over all sizes", "anchors": ["skcurve/_intersect.py:IntersectionMethodBase._curves_intersect_indices"]}
{"id": "C45", "title": "Bounding-box prefilter loses no intersection", "statement": "Every pair of curve segments that has a common point passes the bounding-box filter, so curve intersection reports exactly the non-empty results of segment intersection on candidate pairs, in row-major order.", "quantifier": "all pairs of curves", "why_tests_cant": "completeness over all pairs of segments", "anchors": ["skcurve/_intersect.py:ExactIntersectionMethod._find_segments_bbox_intersection", "skcurve/_intersect.py:ExactIntersectionMethod._intersect_curves"]}
{"id": "C46", "title": "Curve-segment intersection equals curve-curve intersection", "statement": "intersect(segment, curve) and intersect(curve, segment) report the intersections of the two-point curve, with the original segment object in the segment slot; an empty curve gives [].", "quantifier": "all curves and segments", "why_tests_cant": "dispatch over all inputs", "anchors": ["skcurve/_intersect.py:IntersectionMethodBase.__call__"]}
{"id": "C47", "title": "Almost intersection reports exactly the close pairs", "statement": "With method almost (defaults otherwise) a pair of segments is reported iff its connecting segment is shorter than dist_tol, for segments and for all curve pairs alike with floating data in at least one curve, and the reported segment is the connecting one. (Two integer curves: C91.)", "quantifier": "all curves and tolerances", "why_tests_cant": "for all pairs", "anchors": ["skcurve/_intersect.py:AlmostIntersectionMethod"]}
{"id": "C48", "title": "Removing extra intersections", "statement": "remove_extra returns a subsequence; each cluster of intersections connected by distances < extra_tol keeps exactly one element, one of minimal length; any two kept points are at least extra_tol apart; isolated intersections are always kept - for every iteration order of the cluster sets.", "quantifier": "all intersection lists, tolerances and set iteration orders", "why_tests_cant": "graph property over all inputs and hash orders", "anchors": ["skcurve/_intersect.py:AlmostIntersectionMethod._remove_extra_intersections"]}
{"id": "C49", "title": "Dispatch of intersect", "statement": "Objects of different dimension raise ValueError; no method means the current default; an unknown name raises NameError; a non-string non-method raises ValueError; every failure inside a method is reported as IntersectionError.", "quantifier": "all methods and objects", "why_tests_cant": "decision table with arbitrary method behaviour", "anchors": ["skcurve/_intersect.py:intersect"]}
{"id": "C50", "title": "Method registries", "statement": "For every history of registrations: a name is never rebound, listing shows names in registration order, get returns what was registered under the name and NameError otherwise, failed registrations change nothing, and the default intersection method is always a registered one once set.", "quantifier": "all sequences of register/get/set_default calls", "why_tests_cant": "histories are unbounded", "anchors": ["skcurve/_intersect.py:register_intersect_method", "skcurve/_intersect.py:set_default_intersect_method", "skcurve/_interpolate.py:register_interpolator", "skcurve/_smooth.py:register_smooth_method"]}
{"id": "C51", "title": "Uniform interpolation grid", "statement": "The constructor accepts exactly: kind point with an int >= 2, kind length with a number; everything else is ValueError or TypeError as tabulated. With n points the grid has exactly n values, starts at t[0], ends at t[-1] and is evenly spaced; kind=length gives round-half-even(arclen/fill)+1 values (ValueError if negative, not roundable if fill = 0); a curve of fewer than two points raises ValueError.", "quantifier": "all arguments, all curves", "why_tests_cant": "for all counts", "anchors": ["skcurve/_interpolate.py:UniformInterpolationGrid"]}
{"id": "C52", "title": "Uniform extrapolation grid", "statement": "The grid is the interpolation grid with exactly before values prepended and after values appended, continuing the mean spacing, so that an even grid stays even; kind=length rounds the lengths in units of the mean step; negative counts raise ValueError, an empty grid IndexError; a one-value grid is extended with NaN.", "quantifier": "all grids, counts and lengths", "why_tests_cant": "for all counts", "anchors": ["skcurve/_interpolate.py:UniformExtrapolationGrid"]}
{"id": "C53", "title": "Grid validation", "statement": "A vector is accepted as grid iff it is non-empty and every step exceeds 1e-8, otherwise ValueError; a point count n iff n >= 2 and the parameter range exceeds (n-1)*1e-8. So a parametric curve with decreasing parameters (such as a reversed one) can never be interpolated on a point count, a tiny curve not on its own parameters, and in binary64 grids containing NaN are accepted.", "quantifier": "all grids, counts and curves", "why_tests_cant": "for all grids", "anchors": ["skcurve/_interpolate.py:InterpolatorBase._get_interpolation_grid"]}
{"id": "C54", "title": "Linear interpolation passes through the curve", "statement": "On strictly increasing parameters, for every accepted grid, linear interpolation gives the affine combination of the two neighbouring points (end segments extended), so it reproduces curve points at their parameters and stays on the segments; interpolating on the curve's own well-spaced t returns the same curve; an explicit grid gives the same result for the reversed parametric curve. With extrapolate=False the result is the same if the grid lies between the smallest and the largest parameter, and an InterpolationError otherwise. In binary64 integer curves are not reproduced, nor are curves starting with a repeated point.", "quantifier": "all curves with strictly increasing t and all accepted grids", "why_tests_cant": "for all grids and curves", "anchors": ["skcurve/_interpolate.py:LinearInterpolator", "skcurve/_interpolate.py:InterpolatorBase.__call__"]}
{"id": "C55", "title": "Interpolation result and errors", "statement": "For every interpolator and accepted grid: the result has one point per data row, the interpolator's dimension, the dtype of the curve, and carries the grid as parameters iff the input is parametric (row count mismatch is then ValueError). One-point curves raise ValueError, unknown names NameError, creation or evaluation failures InterpolationError, grid errors pass through; an empty curve stays empty if its interpolator can be created, which the linear one cannot.", "quantifier": "all curves, grids and interpolators", "why_tests_cant": "any interpolator", "anchors": ["skcurve/_interpolate.py:InterpolatorBase.__call__"]}
{"id": "C56", "title": "Preserved-speed grid", "statement": "For a non-parametric curve of non-zero length the grid has n >= 2 values from 0 to arclen, non-decreasing; value i is the cumulative arc length at the fractional point index i*(size-1)/(n-1); with n = size it equals the curve's own cumulative arc length. Parametric curves get the uniform grid. Zero length or n = 1 gives NaN.", "quantifier": "all curves and counts", "why_tests_cant": "for all curves", "anchors": ["skcurve/_interpolate.py:PreservedSpeedInterpolationGrid", "skcurve/_numeric.py:linrescale"]}
{"id": "C57", "title": "linrescale is the affine map of ranges", "statement": "linrescale maps in_range to out_range affinely: ends to ends, order preserved, inverse obtained by swapping the ranges, composition of rescalings is a rescaling; with the default input range the data exactly fill the output range; no data raise ValueError, constant data give NaN.", "quantifier": "all data and ranges", "why_tests_cant": "algebraic law", "anchors": ["skcurve/_numeric.py:linrescale"]}
{"id": "C58", "title": "Window smoothing", "statement": "Window smoothing returns a non-parametric curve of the same size, dimension and dtype whose point i is the weighted mean, with the normalised window as weights, of the points i + m/2 - k (outside points by the boundary mode). Hence it fixes constant curves, commutes with affine maps, stays in the convex hull for non-negative windows, depends on the window only up to scale and, for odd windows, commutes with reversal. It is not float64 for integer curves (contrary to the docstring), a window of sum zero gives NaN, and an empty curve loses its dimension.", "quantifier": "all curves, windows with non-zero sum, boundary modes", "why_tests_cant": "for all windows and curves", "anchors": ["skcurve/_smooth.py:window_filter", "skcurve/_smooth.py:smooth"]}
{"id": "C59", "title": "Smoothing dispatch", "statement": "smooth passes ValueError/TypeError of a method through, turns any other failure into SmoothingError, raises NameError for unknown methods; a failing window callable is a ValueError, an integer window a TypeError, an unusable window or unknown boundary mode a SmoothingError; the result never has parameters.", "quantifier": "all methods, windows and curves", "why_tests_cant": "decision table", "anchors": ["skcurve/_smooth.py:smooth", "skcurve/_smooth.py:get_smooth_method"]}
{"id": "C60", "title": "Predefined curves satisfy their equations", "statement": "Every point of arc, lemniscate_of_bernoulli, archimedean_spiral, lissajous, helix and irregular_helix satisfies the implicit equation of the curve, the curve has p_count points and its parameters are the uniform grid from t_start to t_stop; a negative count is a ValueError, zero gives an empty plane curve. An arc has length 2 r (n-1) |sin(h/2)|, interior curvature exactly 1/r up to sign, and a full turn is closed.", "quantifier": "all parameters", "why_tests_cant": "for all real parameters and counts", "anchors": ["skcurve/curves.py:arc", "skcurve/curves.py:lemniscate_of_bernoulli", "skcurve/curves.py:archimedean_spiral", "skcurve/curves.py:lissajous", "skcurve/curves.py:helix", "skcurve/curves.py:irregular_helix"]}
{"id": "C61", "title": "Cached properties: transparent without writes, exact reach of writes", "statement": "In every history of property reads on a curve and its points without writes, each read returns the value computed from the curve data. With writes into returned arrays, reads of properties that are not computed from, and do not share an array with, the written properties still return that value (lengths and derivatives never affect each other; curvature, torsion and speed affect nothing else; arclen and the parameter data are immune). Repeated reads return the same array object; the only shared arrays are firstderiv = tangent and, without parameter data, cumarclen = t. Writing one of them is visible through the other, so transparency is false with writes.", "quantifier": "all curves, all finite histories of reads, points taken and writes", "why_tests_cant": "histories are unbounded and aliasing depends on their order", "anchors": ["skcurve/_base.py:Curve.t", "skcurve/_diffgeom.py:CurvePointFunctionMixin", "skcurve/_base.py:Curve.chordlen"]}
{"id": "C62", "title": "Point arithmetic", "statement": "The operators +, -, *, / and // act coordinate by coordinate on points of one dimension and with a number on either side, always giving a float64 point, and satisfy the vector space laws over the reals; different dimensions are a ValueError unless one of them is 1 (broadcast); other operand types are a TypeError on either side. @ is the sum of the coordinate products, a symmetric bilinear positive definite form (ValueError for different dimensions), norm its square root; Cauchy-Schwarz and the triangle inequality hold. p[i] is a coordinate, a slice of two or more coordinates is a point, of fewer a bare array. Refuted: associativity in binary64, @ of a 0-D point being a number.", "quantifier": "all points", "why_tests_cant": "algebraic laws", "anchors": ["skcurve/_base.py:Point._op", "skcurve/_base.py:Point.__matmul__", "skcurve/_base.py:Point.norm"]}
{"id": "C63", "title": "Point.distance is a metric", "statement": "On points of one dimension the default (euclidean) distance is the norm of the difference and a metric: non-negative, symmetric, zero exactly for identical points, triangle inequality; so are cityblock and chebyshev, and chebyshev <= euclidean <= cityblock; sqeuclidean is not. Different dimensions are a ValueError unless one is 1 (broadcast, so the distance of different points can be 0). Unknown metric names raise NameError, non-callables TypeError, a callable is applied to the data and keyword arguments are dropped; non-finite differences are a ValueError.", "quantifier": "all points", "why_tests_cant": "for all triples of points", "anchors": ["skcurve/_base.py:Point.distance", "skcurve/_distance.py:get_metric"]}
{"id": "C64", "title": "Discrete curvature and torsion of the helix", "statement": "On a helix(a, b) sampled with parameter step h the computed curvature is |a| sin(h)^2 / (a^2 sin(h)^2 + b^2 h^2) at every point but the two at either end, and the computed torsion is |b h sin h| / (a^2 sin(h)^2 + b^2 h^2) at every point but the three at either end, as long as the differences exceed the 1e-8 normalisation threshold. For h <= 1 both are within a relative h^2/3 of |a|/(a^2+b^2) and |b|/(a^2+b^2). The torsion is never negative, so mirror images are not told apart.", "quantifier": "all radii, pitches, parameter ranges and point counts", "why_tests_cant": "closed form for every parameter choice; tests sample a few helices with tolerances", "anchors": ["skcurve/_diffgeom.py:DiffGeomMixin.curvature", "skcurve/_diffgeom.py:DiffGeomMixin.torsion", "skcurve/curves.py:helix"]}
{"id": "C65", "title": "Insertion at several places", "statement": "Curve.insert with a list of indices in [-size, size] and as many points puts the i-th point immediately before the point the i-th index refers to in the original curve (points aimed at the same place keep their order, the original points keep theirs); a single point is inserted at every index; a slice stands for the positions it selects; another number of points is a ValueError; an index above size is an IndexError. An index below -size is not always rejected when there are several indices.", "quantifier": "all curves, index lists, slices and inserted points or curves, any scalar type", "why_tests_cant": "the shifting of positions depends on the ranks of all indices; tests use one list of two indices", "anchors": ["skcurve/_base.py:Curve.insert"]}
{"id": "C66", "title": "Iteration protocol", "statement": "k calls of next() on an iterator over a curve deliver exactly the first k points with their indices; the iteration ends after size points; reversed() delivers the points in the opposite order. The same for the coordinates of a point built from a sequence; a point built from one number has length 1 but delivers nothing.", "quantifier": "all curves and points, all numbers of steps", "why_tests_cant": "termination and exactness for every size; the zero-dimensional case is not tested", "anchors": ["skcurve/_base.py:Curve.__getitem__", "skcurve/_base.py:Curve.__len__", "skcurve/_base.py:Point.__getitem__", "skcurve/_base.py:Point.__len__"]}
{"id": "C67", "title": "Hermite interpolation", "statement": "The 'hermite' interpolator can be created exactly for curves with at least two points and strictly increasing parameters (else InterpolationError). On every accepted grid each coordinate of the result is, piece by piece, the cubic with the curve's values and the unit tangents as derivatives; the curve points are met; without extrapolation values outside are NaN. Evenly enough spaced straight lines without parameters are reproduced; unevenly spaced ones are not (the end tangent may point backwards), and parametric curves of speed other than one are not run through with the right speed.", "quantifier": "all curves, grids, dimensions, sizes", "why_tests_cant": "the piece an abscissa falls into and the cubic on it must be right for every position, size and dimension", "anchors": ["skcurve/_interpolate.py:CubicHermiteSplineInterpolator", "skcurve/_interpolate.py:interpolate"]}
{"id": "C68", "title": "PCHIP interpolation does not overshoot", "statement": "The 'pchip' interpolator can be created exactly for curves with at least two points and strictly increasing parameters. The result is piecewise cubic with a continuous derivative, meets the points, and in each piece each coordinate stays between its two end values; monotone coordinates stay monotone; coordinates affine in the parameter, and straight lines without parameters, are reproduced exactly, also by extrapolation. In binary64 a curve point can be missed by a rounding error.", "quantifier": "all curves, grids within (or beyond) the parameters, dimensions, sizes", "why_tests_cant": "shape preservation is a universally quantified inequality over all data and all abscissae", "anchors": ["skcurve/_interpolate.py:PchipInterpolator", "skcurve/_interpolate.py:interpolate"]}
{"id": "C69", "title": "Spline interpolation of curves", "statement": "The 'spline' interpolator builds one spline per coordinate over the curve parameters and returns their values as the coordinates of the result, in order; a single value is used for all points; any failure of a spline on creation or evaluation and any result of another length is an InterpolationError; if the splines interpolate, the curve points are met.", "quantifier": "all one-dimensional splines, curves, grids", "why_tests_cant": "quantifies over the behaviour of the underlying spline, including its failures", "anchors": ["skcurve/_interpolate.py:SplineInterpolator"]}
{"id": "C70", "title": "Lengths in binary64 arithmetic", "statement": "For finite binary64 data, whatever the order of summation: chord lengths are never negative or NaN and none exceeds the arc length; cumulative lengths start at 0 and never decrease; distances are bitwise symmetric, chord lengths of the reversed curve are the reversed chord lengths, a point has distance 0 from itself; without underflow and overflow the computed arc length of m points in n dimensions equals the exact polygon length up to at most (n+4)/2+m-2 rounding factors 1 +- 2^-53. The arc length itself may change under reversal, distinct points may have distance 0 (underflow), finite points distance infinity (overflow).", "quantifier": "all finite binary64 curves, all summation orders", "why_tests_cant": "rounding errors and orders of summation cannot be enumerated", "anchors": ["skcurve/_base.py:Curve.arclen", "skcurve/_diffgeom.py:chordlen", "skcurve/_diffgeom.py:cumarclen"]}
{"id": "C71", "title": "Reflexivity of equality on binary64 data", "statement": "A point (a curve) compares equal to itself if and only if no coordinate is NaN, including infinite coordinates; a NaN-free point of a curve is found by `in`.", "quantifier": "all binary64 points and curves", "why_tests_cant": "covers all bit patterns", "anchors": ["skcurve/_base.py:Point.__eq__", "skcurve/_base.py:Curve.__eq__", "skcurve/_base.py:Curve.__contains__", "skcurve/_numeric.py:isequal"]}
{"id": "C72", "title": "Grids in binary64 arithmetic", "statement": "linspace(a, b, n) has n values, the first equal to a and the last exactly b, if b-a does not overflow; it never decreases if the step is a normal number; a user grid of finite values is accepted if and only if it is non-empty and all computed differences exceed 1e-8, and is then strictly increasing. Without the conditions: first value NaN, decreasing values for subnormal steps, [inf, inf] accepted.", "quantifier": "all finite binary64 a, b and n <= 2^51; all finite grids", "why_tests_cant": "monotonicity under rounding for all inputs", "anchors": ["skcurve/_interpolate.py:UniformInterpolationGrid", "skcurve/_interpolate.py:InterpolatorBase.__init__"]}
{"id": "C73", "title": "Closest points in binary64 arithmetic", "statement": "For arbitrary binary64 data (including NaN and infinities) the parameters returned by segment_to_point and segment_to_segment are NaN or lie in [0, 1]; the array version returns bitwise the same values; lengths and distances are NaN or not negative. The point at parameter 1 is not always the end point.", "quantifier": "all binary64 segments and positive tolerances", "why_tests_cant": "covers all bit patterns and branches", "anchors": ["skcurve/_geomalg.py:segment_to_point", "skcurve/_geomalg.py:segment_to_segment", "skcurve/_geomalg.py:segments_to_segments", "skcurve/_base.py:Segment.distance"]}
{"id": "C74", "title": "Integer conversion of binary64 values", "statement": "Conversion of a finite value below 2^63 to the integer dtype keeps the integer part towards zero; converting twice changes nothing.", "quantifier": "all finite binary64 values below 2^63", "why_tests_cant": "covers all bit patterns", "anchors": ["skcurve/_base.py:Curve.__init__", "skcurve/_base.py:Point.__init__"]}
{"id": "C75", "title": "Cubic spline interpolation", "statement": "The 'cubic' interpolator (natural, clamped, not-a-knot ends or given first/second derivatives, each end separately) can be created exactly for at least two points, strictly increasing parameters and valid boundary conditions, otherwise InterpolationError. Every coordinate of the result is then the value of a twice continuously differentiable function that is cubic between the parameters, takes the values of the points and satisfies the end conditions; there is exactly one such function. Outside of the parameters the end pieces are continued, or NaN is returned. Points are reproduced; polynomials up to degree 3 meeting the conditions, affine coordinates and straight lines (natural, not-a-knot) are reproduced. Among all twice continuously differentiable functions through the points the natural spline (clamped: among those with the same end derivatives) uniquely minimises the integral of the squared second derivative.", "quantifier": "all curves, dimensions, parameter values, boundary conditions, grids (real arithmetic)", "why_tests_cant": "solvability of the linear system for all spacings, uniqueness and the minimum property quantify over all functions", "anchors": ["skcurve/_interpolate.py:CubicSplineInterpolator", "skcurve/_interpolate.py:interpolate"]}
{"id": "C76", "title": "Akima interpolation", "statement": "The 'akima' interpolator can be created exactly for at least two points and strictly increasing parameters, otherwise InterpolationError. Every coordinate of the result is the value of the one continuously differentiable function that is cubic between the parameters, takes the values of the points and has the derivatives of Akima's rule (mean of the neighbouring slopes weighted by the changes of slopes, which lies between them up to 0.5e-9 of the largest change); NaN outside. Points are reproduced; with three or more points affine coordinates, straight lines and, for evenly spaced parameters, quadratic coordinates are reproduced. With two points the result depends on uninitialised memory, and any value may come out between them.", "quantifier": "all curves, dimensions, parameter values, grids, memory contents (real arithmetic)", "why_tests_cant": "quantifies over all curves and over what uninitialised memory contains", "anchors": ["skcurve/_interpolate.py:AkimaInterpolator", "skcurve/_interpolate.py:interpolate"]}
{"id": "C77", "title": "Smoothing splines", "statement": "The 'csaps' interpolator can be created exactly for at least two points, strictly increasing parameters and one weight per point (or none given), otherwise InterpolationError. For positive weights and a smoothing parameter p in [0, 1] every coordinate of the result is the value of a natural cubic spline with knots at the parameters that minimises p * (weighted sum of squared residuals) + (1 - p) * (integral of the squared second derivative) among all twice continuously differentiable functions; for 0 < p < 1 it is the only minimiser on the range of the parameters. p = 1 gives exactly the natural 'cubic' interpolant, p = 0 the weighted least squares line. The weighted residuals and their first moments sum to zero; a larger p never increases the residuals; affine coordinates and straight lines are reproduced for every p. Without p the documented value from the traces of the matrices is used, which lies strictly between 0 and 1.", "quantifier": "all curves, dimensions, parameter values, positive weights, smoothing parameters, grids (real arithmetic)", "why_tests_cant": "minimality quantifies over all functions, solvability of the linear system over all spacings and weights", "anchors": ["skcurve/_interpolate.py:CsapsInterpolator", "skcurve/_interpolate.py:interpolate"]}
{"id": "C78", "title": "Warnings", "statement": "Each warning of the package is issued exactly when documented. Reading properties: in any sequence of reads each needed property is computed once and only then warns, so the warnings are a fixed number per property (fewer than three points; vectors too short to normalise), independent of the order, and a repeated read is silent; regular curves of three or more points are silent up to normals and curvature, straight lines always warn for the second Frenet vector, plane curves for the third one and the torsion. Segment.t warns exactly for a point that is not collinear (NaN) or whose squared distance from the line exceeds eps; the angle warns exactly with NaN. An interpolation grid warns exactly if it does not cover the range of parameters, hence never for a number of points, and extrapolation keeps it silent. The exact intersection never warns without rounding; intersect warns first exactly if parameters are given with a method object. The constructor warns exactly for ignored tdata and axis. The results are those without warnings.", "quantifier": "all curves, read histories, segments, points, grids, methods and objects", "why_tests_cant": "quantifies over all histories of cached reads and over all inputs; silence cannot be tested exhaustively", "anchors": ["skcurve/_diffgeom.py:_gradient", "skcurve/_diffgeom.py:_frenet_vector_norm", "skcurve/_geomalg.py:segment_t", "skcurve/_geomalg.py:segments_angle", "skcurve/_interpolate.py:InterpolatorBase._get_interpolation_grid", "skcurve/_interpolate.py:InterpolatorBase.__call__", "skcurve/_intersect.py:intersect", "skcurve/_intersect.py:ExactIntersectionMethod._intersect_segments", "skcurve/_base.py:Curve.__init__"]}
{"id": "C79", "title": "Plotting", "statement": "CurvePlot rejects curves of four or more dimensions (ValueError) and spatial curves on plane axes (TypeError) without drawing anything; without axes it makes exactly one of the right kind, and otherwise uses the given ones; earlier drawings and axes are never altered and all new commands go to one axes. Without a parameter one line with the coordinates of the curve is drawn. With a parameter there is one segment for each pair of consecutive points and one colour value per point (one more than segments), with the smallest and the largest value as the range; it fails, before drawing, exactly for a missing attribute, for the curvature of a single plane point and when there are no values. Normals of a plane curve of two or more points are one arrow per point, its second Frenet vector; normals of a spatial curve raise NotImplementedError, of a curve of at most one point IndexError, both after the curve was drawn. Chained calls draw on the axes of the first one, in order, each what it would draw alone; after a plane curve a spatial one is refused.", "quantifier": "all curves, parameters, axes, sequences of calls", "why_tests_cant": "frame condition and induction over chains of calls", "anchors": ["skcurve/plot.py:CurvePlot", "skcurve/plot.py:CurvePlot.curveplot", "skcurve/plot.py:CurvePlot._multicolor_plot", "skcurve/_base.py:Curve.is2d", "skcurve/_base.py:Curve.is3d", "skcurve/_base.py:Curve.isspatial"]}
{"id": "C80", "title": "Moving a curve by a distance-preserving map", "statement": "Let g be any map of points that preserves all Euclidean distances (rotation, reflection, translation, embedding of the plane in space). A curve and the curve of the moved points have the same chord lengths, arc length, cumulative lengths, parameter, speed and torsion, and in three or more dimensions the same curvature; the derivatives, normals, binormals and Frenet vectors of the moved curve are the turned vectors of the original; the curvature of a plane curve is kept at all points or negated at all points. isplane gives the same answer. For segments: length, parallelism, angle, nearest-point parameters, distances and coplanarity are unchanged, and points and shortest segments move along; approximate intersections of segments are found at the moved places. The collinearity test is not invariant: a translation changes its answer.", "quantifier": "all distance-preserving maps between spaces of any dimensions, all curves with at least two points, all segments, all tolerances", "why_tests_cant": "Tests move a few curves by a few fixed angles; the statement is about every distance-preserving map, which first has to be shown to be affine, and about every curve in any dimension.", "anchors": ["skcurve/_diffgeom.py:69-154", "skcurve/_diffgeom.py:242-638", "skcurve/_geomalg.py:26-61", "skcurve/_geomalg.py:120-191", "skcurve/_geomalg.py:231-260", "skcurve/_geomalg.py:308-427", "skcurve/_base.py:1530-1548"]}
{"id": "C81", "title": "Interpolation and affine maps", "statement": "For the 'linear', 'cubic' (boundary conditions other than 'periodic' and no non-zero prescribed derivatives) and 'csaps' methods every interpolated point is a combination of the curve points whose weights depend only on the parameters and the grid value and sum to 1; the weights of 'linear' are non-negative inside the parameter range. Hence interpolating commutes with every affine map of the points that leaves the parameter alone, and, as the built-in grids, the default parameter and the number of points do not change under distance-preserving maps, interpolating with any of these methods on a built-in grid commutes with moving the curve by a distance-preserving map. 'hermite' commutes with distance-preserving maps as well. 'pchip' commutes with scaling, reflecting, translating, permuting, copying and dropping coordinates, but not with rotations.", "quantifier": "all curves of float type with at least two points and increasing parameter, all affine maps, all distance-preserving maps, all grids, all boundary conditions, weights and smoothing parameters allowed by the methods", "why_tests_cant": "A test rotates one curve by one angle for one method; independence of the weights from the coordinates is a statement about all curves at once, and that 'pchip' fails is only seen on curves with a turning coordinate.", "anchors": ["skcurve/_interpolate.py:91-260", "skcurve/_interpolate.py:282-372", "skcurve/_interpolate.py:400-502", "skcurve/_interpolate.py:533-558", "skcurve/_interpolate.py:609-639"]}
{"id": "C82", "title": "Periodic splines of closed curves", "statement": "The 'cubic' interpolator with bc_type='periodic' is created exactly for at least two points, strictly increasing parameters and ends that agree in every coordinate to within 1e-15 (absolute plus relative); otherwise InterpolationError. For a closed curve (extrapolate left out or 'periodic') every coordinate of the result is the value of the only function that is twice continuously differentiable on the whole line, has the period of the parameters, is cubic between them and takes the values of the points; the points are reproduced also at parameters moved by periods; the result does not depend on the point at which the closed curve starts. With extrapolate True or False the end pieces are continued or NaN is returned. Among all twice continuously differentiable functions through the points with equal derivatives at both ends the spline has the least integral of the squared second derivative, and it is the only one. The values are averages of the points with weights that depend on the parameters only. extrapolate='periodic' with any boundary condition, and in 'hermite', is evaluation at the parameter moved by periods into the range of the curve; for an open curve the last point is then not reproduced.", "quantifier": "all well-formed curves of any dimension and size, all strictly increasing parameters, all grids, all values of extrapolate, all boundary conditions (for extrapolate='periodic'), all starting points of a closed curve; exact arithmetic", "why_tests_cant": "Smoothness at the seam, uniqueness among all functions, minimality of an integral and independence of the starting point quantify over functions and over all point sets; tests sample a few curves and parameters.", "anchors": ["skcurve/_interpolate.py:460-469", "skcurve/_interpolate.py:494-501"]}
{"id": "C83", "title": "Curve points and curve segments as objects", "statement": "A copy of c[i] exists for every accepted i, belongs to the same curve object, has the same coordinates and the same values of all properties, and its idx is i mod size; copying again changes nothing; the copy equals the original exactly for i >= -size. p.t is the parameter at the position of the point, or the length of the polygon up to it. subcurve raises TypeError for anything but a CurvePoint and ValueError for a point of another curve object, and otherwise gives the points from position i mod size to position j mod size in order, except that the end point c[-size-1] always gives the empty curve. CurveSegment(c, i) is accepted exactly for 1 - 3 size <= i < size - 1; curve.segments has the segments with idx 0, 1, ... of neighbouring points of this curve object. chordlen of a segment with idx >= 0 is the distance of its end points, also bit for bit in binary64; with a negative idx it is the chord before the segment, or an IndexError.", "quantifier": "all well-formed curves of any dimension and size, all integer indices, all objects passed as other_point, both values of endpoint; any arithmetic, except for distances (exact and binary64)", "why_tests_cant": "The statements cover every integer index of every curve, including the indices below -size that the constructor accepts by accident; tests use a few small indices.", "anchors": ["skcurve/_base.py:403-421", "skcurve/_base.py:453-495", "skcurve/_base.py:929-979", "skcurve/_base.py:1626-1637"]}
{"id": "C84", "title": "NaN coordinates", "statement": "In binary64, whatever the other coordinates are: the distance of two points, of a point and a segment, or of two segments is NaN as soon as one of their coordinates is. A point with a NaN coordinate makes the chord lengths on both sides, the arc length and the cumulative arc length from there on NaN. No intersection of curves found by the exact or the almost method involves a segment with a NaN coordinate, and the almost method reports no intersection of two segments one of which has one. The smallest and largest element of an array with a NaN are NaN, so a multi-colour plot of a property with a NaN has no colour range, and rescaling such an array gives nothing but NaN.", "quantifier": "all curves, segments and points of any dimension with binary64 coordinates (infinities included), all parameters of the methods, all positions of the NaN", "why_tests_cant": "NaN can appear in any coordinate of any point and must survive every branch of the closest-point and box computations; tests try a few arrays.", "anchors": ["skcurve/_diffgeom.py:69-115", "skcurve/_intersect.py:525-590", "skcurve/_intersect.py:634-688", "skcurve/_geomalg.py:308-427", "skcurve/plot.py:123-159", "skcurve/_numeric.py:126-138"]}
{"id": "C85", "title": "Swapping the arguments and turning a segment round", "statement": "Over the reals, parallel and coplanar, the overlap box and the angle of two segments do not depend on the order of the two segments (parallel also not in binary64, NaN included). Segment.collinear and the exact method, with the type and the data of the result, do not depend on it either whenever the one-sided closeness test of the ends does not; without this condition they do (witness). For the exact intersection of two curves the result of a pair of segments is the same in both orders whenever additionally the one-sided box test does not see the order, in particular for segments with a common point; otherwise one order may report a crossing that the other does not (witness). Segment.distance is symmetric up to the error bound of the closest points, except for degenerate segments (witness). Turning a segment round changes neither parallel, coplanar, collinear nor the overlap and turns the angle a into pi - a, but can change the result of the exact method (witness).", "quantifier": "all pairs of segments of any common dimension, all tolerances, all pairs of curves and of their segments", "why_tests_cant": "The asymmetry sits in one-sided tolerances: the failing inputs are a band of relative width 1e-5 that tests with round numbers do not hit, and symmetry elsewhere is a statement on all pairs.", "anchors": ["skcurve/_geomalg.py:120-305", "skcurve/_geomalg.py:342-427", "skcurve/_base.py:718-787", "skcurve/_intersect.py:467-523", "skcurve/_intersect.py:544-590"]}
{"id": "C86", "title": "Savitzky-Golay smoothing", "statement": "Over the reals the method 'savgol' with window 2h+1, order p < 2h+1, derivative d and delta != 0 returns a float curve of as many points without parameters. In mode 'interp' coordinate j of point i is the d-th derivative at i, divided by delta^d, of the unique polynomial of degree at most p with the least squared deviation from the coordinates j of the 2h+1 points around i (near the ends: of the first or last 2h+1 points); in the other modes the window is centred at i on the line extended by the mode. Coordinates that are polynomials of degree at most p in the index are reproduced or differentiated exactly at all points in mode 'interp'; at points whose window lies inside the curve all modes agree. Except in mode 'constant' every point is a combination of the points of the curve with coefficients that depend only on size and parameters and sum up to 1 (derivatives: 0); affine maps commute with smoothing. Reversing the curve reverses the result and multiplies it by (-1)^d. Orders p and p+1 agree (not at the ends in mode 'interp') if p and d have the same parity. Order 0 is the mean of the window, order 2h the identity. The errors are exactly: unknown mode, window not greater than the order, even window, negative derivative, window longer than the curve in mode 'interp' (ValueError); delta = 0 with 0 < d <= p (SmoothingError). A negative order outside mode 'interp' silently gives zero. The result can leave the convex hull, and derivatives are by the index, not by the parameter (witnesses).", "quantifier": "all curves of every size and dimension, all windows, orders, derivatives, deltas, modes and fill values", "why_tests_cant": "Tests compare a few arrays with scipy's own output; that each of infinitely many parameter combinations yields the least squares polynomial, at the ends too, and that p and p+1 coincide, are statements on all data.", "anchors": ["skcurve/_smooth.py:124-145", "skcurve/_smooth.py:181-219", "skcurve/_base.py:2224-2258"]}
{"id": "C87", "title": "'spline' without smoothing is the one spline of degree k through the points", "statement": "Curve.interpolate(method='spline', smooth=0) for k in 1..5: the interpolator can be created exactly for strictly increasing parameters, more than k points, a known extrapolation mode and as many weights as points; otherwise InterpolationError. Every coordinate is then the value of the one function that is a polynomial of degree at most k between the knots (the inner samples for odd k, midpoints for even k), has k-1 continuous derivatives and passes through all points, and there is no other such function. Non-zero weights do not change the result; polynomials of degree at most k are reproduced; k=1 is 'linear', k=3 is 'cubic' with 'not-a-knot'; outside the parameters the end pieces are continued, or the value is zero, or that of the end point, or an error, as the argument says; affine maps commute with it.", "quantifier": "all curves with at least two points, all degrees, weights, extrapolation modes, all accepted grids, over the reals", "why_tests_cant": "existence and uniqueness of the spline for every placement of the samples (Schoenberg-Whitney) and equality with other interpolators at all grids are statements over infinitely many inputs", "anchors": ["skcurve/_interpolate.py:561-606"]}
{"id": "C88", "title": "The windows of window smoothing", "statement": "Window smoothing with a window given by name (default 'hann') uses a symmetric window of exactly window_size values that depend only on the distance from the middle and follow the textbook formula of that window. All windows but 'flattop' are non-negative and do not grow with the distance from the middle, so the smoothed curve stays in the convex hull of the curve and, for odd sizes, smoothing commutes with reversal. The window can always be normalised, except size 2 of 'hann', 'bartlett', 'blackman', 'bohman' and 'barthann', whose total is zero; size 3 of these leaves the curve unchanged. Windows of odd size keep evenly sampled straight lines in place, windows of even size move them by half a step. Unknown names and negative sizes are ValueErrors, size 0 is a SmoothingError.", "quantifier": "all names in scipy's table, all sizes, all curves and boundary modes (straight lines: all symmetric windows)", "why_tests_cant": "The claims are about every size: non-negativity, monotonicity and totals of trigonometric sums for all sizes need analysis (Bohman, Dirichlet sums), tests sample some sizes and miss the degenerate size 2.", "anchors": ["skcurve/_smooth.py:148-178"]}
{"id": "C89", "title": "Collinearity and coplanarity with a tolerance", "statement": "The tests count the singular values above the tolerance (default: the largest one times the larger side of the matrix times 2^-52). The rank found is at most k iff some matrix of rank at most k lies within the tolerance in the spectral norm. So points are found collinear iff there are at most two different ones or they lie within the tolerance of points on one line through the origin; coplanar iff the dimension is below 3 or the points relative to the last one lie within the tolerance of points in one plane. What is exactly collinear or coplanar always passes, the tolerance 0 gives the exact tests, larger tolerances accept more. Points found collinear are at most the tolerance away from one line. Collinearity does not depend on order and multiplicity of the points, and both tests follow scaling, rotations and reflections. The order of the points does decide about coplanarity, and far from the origin the default tolerance accepts perpendicular crossing segments as collinear. Segment.collinear, Segment.coplanar, Segment.t and Curve.isplane follow.", "quantifier": "all dimensions, all finite sets of points, all tolerances, all scalings and distance-preserving maps, every correct SVD", "why_tests_cant": "The meaning of a rank with tolerance is a statement about all matrices of lower rank (Eckart-Young); tests compare single answers and do not see the dependence on the origin or the order.", "anchors": ["skcurve/_geomalg.py:194-260", "skcurve/_geomalg.py:85-109", "skcurve/_base.py:718-787", "skcurve/_base.py:1530-1548"]}
{"id": "C90", "title": "What repr shows", "statement": "The words of repr(curve) are the class name, the coordinates in order and size, ndim and dtype. Up to ten points all coordinates are shown; of more points the first four and the last four with '...' between, and then in more than eight dimensions of each shown point the first four and the last four coordinates. An empty curve shows []. A point is broken into lines exactly if its numbers with the spaces between them take more than 73 characters. Line breaks and indentation never split, drop or join numbers. If the rows fit on a line the text consists of exactly one line per shown point, brackets aligned below each other, and integers are right-aligned to a common width. Point, CurvePoint, Segment, CurveSegment and SegmentsIntersection show all coordinates (up to 1000), labels, index and type; an intersection has a text whenever its point is defined, with None if there is none. The text of an integer point, segment or curve of up to ten points determines the object; of longer curves it does not, and parameters are never shown.", "quantifier": "all curves, points, segments and intersections of all sizes and dimensions, every way to print a single number as one word", "why_tests_cant": "Layout depends on size, dimension, width of the numbers and the line width at once; that no combination loses or merges numbers, and that the text determines the object, are statements about all of them.", "anchors": ["skcurve/_base.py:153-156", "skcurve/_base.py:412-415", "skcurve/_base.py:523-527", "skcurve/_base.py:943-947", "skcurve/_base.py:1170-1177", "skcurve/_intersect.py:105-112"]}
{"id": "C91", "title": "Curves with integer data", "statement": "For segments with integer end points the distance found by Segment.distance/shortest_segment is exact, whatever the tolerance up to 1 (the parallel test is never wrong). If both curves have integer data, the almost method truncates the parameters, so it compares corners only: a pair is reported iff the corners its truncated parameters select are closer than dist_tol; with dist_tol <= 1 every reported pair of sides has a common end, nothing is reported for curves without common points however often they cross, and non-parallel sides are reported iff they have a common end. Nothing is reported that the same data as floats would not give, but crossings found with floats are missed.", "quantifier": "all integer curves of all dimensions, all tolerances in (0, 1], all set iteration orders", "why_tests_cant": "Exactness for all integer segments and the exact set of reported pairs are statements about unboundedly many inputs; existing tests use float data only.", "anchors": ["skcurve/_geomalg.py:438-561", "skcurve/_intersect.py:652-688"]}
{"id": "C92", "title": "Curves of 64-bit integers: lengths, nonsingular and the almost method with wrap-around", "statement": "On int64 data chordlen computes the square root of the squared distance modulo 2^64: right up to two roundings (exact for square numbers below 2^53) if the squared distance is below 2^63, NaN if the remainder is at least 2^63. It does not change, bit for bit, under translations modulo 2^64 and is reversed with the curve. nonsingular keeps exactly the first point and those whose squared distance from the predecessor is not a multiple of 2^64; with coordinates up to B, 4nB^2 < 2^63, these are the points different from the predecessor, and arclen is the length of the polygon up to as many roundings as there are points. Without the bound distinct points are dropped and the length is NaN or ten times too small (refuted). With n B^2 <= 2^24 the almost method finds the same segment pairs and corners as exact arithmetic; with large coordinates it reports segments that are 10^9 apart (refuted). A number assigned to an int64 array (the parameters of the almost method) loses its fraction; NaN, infinities and what does not fit become -2^63. Integers compare exactly, an integer and a float after rounding of the integer, which is exact below 2^53.", "quantifier": "all integer curves of any number of points and dimensions, all positions, all translations", "why_tests_cant": "wrap-around and rounding depend on the values of 64-bit coordinates; tests cannot try all pairs of points", "anchors": ["skcurve/_diffgeom.py:41-115", "skcurve/_base.py:1597-1626", "skcurve/_base.py:2123-2141", "skcurve/_geomalg.py:438-561", "skcurve/_intersect.py:610-700"]}
{"id": "C93", "title": "Linear interpolation, points of segments and rescaling in binary64", "statement": "On rising finite binary64 parameters the linear interpolator returns one point per grid value; every finite coordinate between two neighbouring parameters is within (|yl|+|yh|)2^-50 + (1+h)2^-1074 of the exact value, is monotone in the grid value, keeps a coordinate both neighbours share, and meets the left neighbour of the first piece exactly. Inner curve points are not always met and a coordinate of a monotone curve need not be monotone across them (refuted); parameters whose difference overflows, or a slope that overflows, give zeros and NaN (refuted). Segment.point at t in [0,1] is within (|a|+|b|)2^-51 + 2^-1074, exact at t = 0 and monotone in t. linrescale keeps the order, maps the lower end to the lower end and the upper end to olo + (ohi - olo) as computed; for the range [0, 1] the values lie in [0, 1] and the ends are met exactly; in general the upper end is not met (refuted).", "quantifier": "all float curves with rising parameters, all grids, all segments and parameters, all lists and ranges with finite differences", "why_tests_cant": "rounding depends on every bit of the coordinates and parameters; tests see single values", "anchors": ["skcurve/_interpolate.py:400-423", "skcurve/_interpolate.py:282-304", "skcurve/_geomalg.py:26-61", "skcurve/_numeric.py:90-138"]}
{"id": "C94", "title": "Curves of int8, int16, int32, uint8, uint16, uint32: lengths and nonsingular", "statement": "On integer data of at most 32 bits chordlen takes the square root of the sum of the squared differences modulo 2^bits (NaN if the sum is negative), up to two roundings. The length is right, up to two roundings, if the square of every coordinate difference is a number of the dtype; otherwise it is NaN or strictly too small. nonsingular drops every point whose differences from its predecessor are all multiples of 2^(bits/2), and with unsigned dtypes no others; where all squares fit it drops exactly the repeated points and arclen is right up to as many roundings as there are points. Lengths do not change, bit for bit, under translations modulo 2^bits and are reversed with the curve. int16: a step of 256 has length 0 and is dropped, a step of 182 has length NaN; uint8: a step of 16 is dropped, a step of 200 has length 8 (refuted that distinct points are kept and lengths are right). nonsingular of a curve without points raises ValueError.", "quantifier": "all dtypes of 2 to 32 bits, signed or not, all integer curves of any number of points and up to 2^30 dimensions", "why_tests_cant": "wrap-around depends on the size of single steps; test curves have small coordinates or floats", "anchors": ["skcurve/_diffgeom.py:41-115", "skcurve/_base.py:1132-1142", "skcurve/_base.py:2123-2141"]}
{"id": "C95", "title": "The exact intersection method with numpy's rank tolerance", "statement": "With collinear() and coplanar() deciding by singular values above numpy's default tolerance, the exact method never fails on two segments of one dimension. An EXACT point p lies on the first line and a point q of the second line (both in the accepted parameter range) is near p by numpy's closeness or at most feps away; p and q are closest points of the two lines and coincide in the plane. Everything the exact rank finds is found unchanged unless the segments are taken for collinear; in the plane the results agree in all other cases. Taken for collinear means: ends close in pairs, at most two different points, or all four points within r*max(4,n)*2^-51 of one line through the origin (r bounds the norms). An OVERLAP is the common part of the two bounding boxes. A crossing is reported as EXACT if the shorter length times the sine of the angle exceeds r*max(4,n)*2^-49 (with the conditions of C43). The results for curves are those of the segment pairs with meeting boxes, in order, so clear crossings are listed. Two long segments that cross at the origin and span a parallelogram of area 4 are reported as OVERLAP (refuted that crossings are always EXACT).", "quantifier": "all correct singular value functions, all pairs of segments and curves of any dimension, all feps", "why_tests_cant": "the tolerance depends on the size of the coordinates; tests use a few segments near the origin", "anchors": ["skcurve/_intersect.py:467-542", "skcurve/_geomalg.py:194-260", "skcurve/_base.py:718-787"]}
{"id": "C96", "title": "Lengths and distances under linear interpolation", "statement": "Linear interpolation of a float curve on rising parameters never makes it longer if the grid stays within the parameter range; the length is kept if the grid contains all parameters of the curve, and a finer grid gives a curve at least as long. Without own parameters (parameter = arc length) two interpolated points, or an interpolated and an original one, are no farther apart than their parameters, also outside the range. Resampling such a curve of length L to n points keeps the ends; neighbours are at most h = L/(n-1) apart, every point of the polygon is within h/2 of a new point, and L - (size-2)h <= new length <= L. Refuted: equality in general (corners are cut), the bound for grids outside the range, the step bound for parametric curves.", "quantifier": "all well-formed float curves of at least two points with rising parameters, all accepted grids, all n with L > (n-1)*1e-8", "why_tests_cant": "the bounds hold for every curve and grid; tests sample a few curves and compare with tolerances", "anchors": ["skcurve/_interpolate.py:401-433", "skcurve/_interpolate.py:91-140", "skcurve/_interpolate.py:696-760", "skcurve/_base.py:1597-1640", "skcurve/_base.py:2143-2190"]}
{"id": "C97", "title": "Lengths and distances under window smoothing", "statement": "The curve smoothed with a window w is at most spread(w) = sum|w|/|sum w| times as long as the line it averages over: the curve in mode nearest, twice the curve in modes reflect and mirror, the closed curve in mode wrap, the curve joined to the fill point at both ends in mode constant. For symmetric windows the factor 2 disappears in modes reflect and mirror. Hence non-negative windows (spread 1) do not lengthen a curve in mode nearest, and symmetric ones not in modes reflect and mirror; in particular all named windows but flattop. In modes reflect, mirror and nearest neighbouring points come at most spread(w)*h apart and no point moves more than spread(w)*floor(len(w)/2)*h, where h bounds the chords. Refuted without the conditions: asymmetric windows, wrap, constant, negative weights.", "quantifier": "all well-formed non-empty float curves of any dimension, all windows with sum other than 0, all sizes and modes", "why_tests_cant": "windows larger than the curve fold the boundary several times; no finite set of curves and windows covers it", "anchors": ["skcurve/_smooth.py:148-178", "skcurve/_smooth.py:181-219", "skcurve/_base.py:2224-2258"]}
{"id": "C98", "title": "Lengths, nonsingular and conversions of float32 curves (and of any IEEE format)", "statement": "For finite data in any IEEE format with prec bits: chord lengths are never NaN or negative, none exceeds the arc length (whatever the order of summation); they do not depend on the order of the two points and reversing the curve reverses them. If no square underflows, a finite distance of points with n coordinates has relative error at most (1+2^-prec)^m - 1 with 2m >= n+4, and the arc length one factor more per further segment. cumarclen of a float32 curve starts with 0 and never falls; it rises at a segment at least 2^(1-prec) times as long as the curve before it, but it can stall at a segment of positive length. A float32 distance of distinct points can be 0 or infinite; computed in float64 the lengths of float32 data are always finite, have the binary64 error bound without any condition, and are 0 only for equal points. float32 to float64 keeps values, order, NaN and infinities and can be undone; float64 to float32 moves a coordinate of absolute value up to M by at most 2^-24 M, a distance by 2 sqrt(n) 2^-24 M, and may make distinct points coincide. nonsingular keeps exactly the finite points not within 1e-8 (in float64) of their predecessor.", "quantifier": "all formats (prec, emax), all dimensions, all curves, all orders of summation; conversions for all float32 and float64 numbers", "why_tests_cant": "A test covers one dtype and a few values; the bounds hold for every format, curve and order of summation, and the exceptions (stall, underflow, overflow, collapse) need particular magnitudes.", "anchors": ["skcurve/_diffgeom.py:60-66", "skcurve/_diffgeom.py:69-115", "skcurve/_diffgeom.py:207-240", "skcurve/_base.py:1110-1170"]}
{"id": "C99", "title": "Exactly which calls fail, and with which exception", "statement": "A table gives for every constructor and container method of Curve (construction from arrays, sequences and curves, indexing with slices, lists and masks, +, insert, append, delete, insertdim, appenddim, deletedim, drop, nonsingular, coorient, subcurve, reverse, unique, copy) the exception it raises in terms of the arguments, the number of points and the number of dimensions. In every store reached by a program of such calls a call raises an exception if and only if the table says so, and it is the one in the table; otherwise it returns a curve. Only NameError (of the program), IndexError and ValueError occur. The same for the spline interpolators: 'hermite', 'pchip' and 'akima' raise (ValueError) exactly if there are fewer than two points or the parameter is not increasing, 'cubic' also if the boundary condition does not validate; CubicHermiteSpline raises exactly if its arrays do not fit, are not finite or x does not increase. 'cubic' with periodic boundary conditions is refused (ValueError) exactly for fewer than two points, a parameter that does not increase or ends apart by more than 1e-15, and with any boundary condition and any extrapolate nothing but ValueError is raised. UnivariateSpline raises ValueError exactly for wrong arguments (a step that is not positive, sizes that differ, a degree outside of 1 to 5, a negative smoothing factor, an unknown ext), the error of the FITPACK wrapper exactly for right arguments and no more points than the degree; its call fails exactly with ext = 'raise' or 2 and an argument outside of the samples. Left out: insertion at several indices of which one is below minus the size.", "quantifier": "all programs (call sequences) with any arguments, all scalar types; splines: all curves, all boundary conditions, all parameters", "why_tests_cant": "tests check single bad arguments; that no other argument fails, and that the exception never changes with the state, is a statement about all calls", "anchors": ["skcurve/_base.py:1095-1168", "skcurve/_base.py:1751-1766", "skcurve/_base.py:1849-1859", "skcurve/_base.py:1937-1950", "skcurve/_base.py:2024-2033", "skcurve/_base.py:2107-2121", "skcurve/_utils.py:6-45", "skcurve/_interpolate.py:426-470", "skcurve/_interpolate.py:472-501", "skcurve/_interpolate.py:561-606"]}
{"id": "C100", "title": "Properties of points sampled from a smooth curve converge to those of the curve, with explicit errors", "statement": "Let the points of a curve be taken from a smooth parametrized curve f. With equal steps h: firstderiv / h is within M h^2 of f' at every point, the ends included (M h^2 / 6 inside), and secondderiv / h^2 is within 6 M h of f'' at every point, where M bounds |f'''|; inside, secondderiv is second order and thirdderiv / h^3 is within 5/6 M h of f''' when M bounds the fourth derivative. At the three outermost points of each end thirdderiv does not converge: on every cubic it is 3/8, 5/8 and 7/8 of the true value whatever the step. The signed curvature of a plane curve is within 48 M h / v^2 + 72 M W h^2 / v^3 of the true one at every point (v <= |f'|, W bounds f''). The curvature in other dimensions is within a similar multiple of h, provided h v > 2e-8; on the unit circle in space with h <= 1e-8 every interior value is sin h instead of 1. For any increasing parameters with gaps at most tau, arclen and every cumarclen are at most the length of the arc of f and at least that length minus W tau times the parameter range. Linear interpolation inside the parameter range is within M tau^2 / 8 of f in each coordinate, where M bounds |f''|.", "quantifier": "all smooth coordinate functions, all sizes, steps, parameters, dimensions and bounds (over the reals)", "why_tests_cant": "A test compares a few curves at a few step sizes with a tolerance that has to be guessed; that the error constants hold for every smooth curve at every point up to the ends, and that the third derivative fails at the ends for every step, are statements about a limit.", "anchors": ["skcurve/_diffgeom.py:69-155", "skcurve/_diffgeom.py:157-166", "skcurve/_diffgeom.py:228-298", "skcurve/_diffgeom.py:541-604", "skcurve/_interpolate.py:400-424"]}
{"id": "C101", "title": "Cubic interpolants of points of a smooth curve converge to it, with explicit constants", "statement": "Let the points of a float curve be taken from a curve f at increasing parameters that are at most tau apart (in any other respect arbitrary), and let all grid values be inside the parameter range. If M bounds the second derivatives of the coordinates, then in every coordinate: 'pchip' is within 3/8 M tau^2 of f; 'akima' (three points or more) within M tau^2 / 2; 'cubic' with its default 'natural' within 5/8 M tau^2; with 'not-a-knot' within (5 + 3 rho)/2 M tau^2, where rho bounds the ratio of the first and last gap to their neighbours; with any prescribed first or second derivatives at the ends within (M tau^2 + E tau)/4, where E >= 3/2 M tau bounds how far the prescribed values are off. 'clamped' is only of first order, M1 tau / 4 + 5/8 M tau^2 with M1 a bound of the end derivatives, and does not reproduce straight lines. If M bounds the fourth derivatives and at each end the true first or second derivative of f is prescribed, 'cubic' is within M tau^4 / 12.", "quantifier": "all coordinate functions with two (four) derivatives, all sizes, dimensions, increasing parameters, grids inside, bounds (over the reals)", "why_tests_cant": "Tests interpolate a few curves on a few, mostly uniform, parameter lists and compare with a guessed tolerance; the order of convergence with constants valid for every mesh, and that one boundary condition loses an order, are statements about all smooth functions and all meshes.", "anchors": ["skcurve/_interpolate.py:426-470", "skcurve/_interpolate.py:504-530", "skcurve/_interpolate.py:533-558"]}
{"id": "C102", "title": "Periodic, csaps, FITPACK and hermite interpolants of points of a smooth curve: what converges and how fast", "statement": "Let the points of a float curve be taken from a curve f at increasing parameters at most tau apart, and let M bound the second derivatives of its coordinates. If f repeats after the parameter range, 'cubic' with bc_type 'periodic' is within 5/8 M tau^2 of f in every coordinate, at every grid value (also outside of the parameters; with extrapolate True or False for grids inside), and within M tau^4 / 12 if M bounds the fourth derivatives. For grids inside the range: 'csaps' with smooth=1 is within 5/8 M tau^2 whatever the positive weights; 'spline' without smoothing, whatever ext and nonzero weights, is within M tau^2 / 8 for degree 1 and within (5 + 3 rho)/2 M tau^2 for degree 3 and four points or more, rho bounding the ratio of the first and last gap to their neighbours. 'hermite' prescribes unit tangents whatever the parameter is: in general it is only of first order, (1 + M1) tau / 4 + M tau^2 / 4 with M1 a bound of the first derivatives, and it does not reproduce a straight line run through at speed 2; for a curve of speed one at equally spaced parameters h > 2e-8 it is within M4 h^4 / 128 + sqrt(ndim) M3 h^3, M3 and M4 bounding the third and fourth derivatives.", "quantifier": "all coordinate functions with the derivatives named, all sizes, dimensions, increasing parameters, grids, weights, values of ext (over the reals)", "why_tests_cant": "Tests compare a few interpolants of a few curves with guessed tolerances; constants that hold for every mesh and every closed curve, the agreement of the methods without smoothing, and that hermite loses two orders on curves whose parameter is not the arc length are statements about all smooth functions.", "anchors": ["skcurve/_interpolate.py:426-470", "skcurve/_interpolate.py:472-501", "skcurve/_interpolate.py:561-606", "skcurve/_interpolate.py:609-638"]}
{"id": "C103", "title": "Intersections of polygons through points of smooth curves are those of the curves, up to explicit errors", "statement": "Let the points of two curves be taken from smooth curves f and g at increasing parameters at most tau1 and tau2 apart, W1 and W2 bounding the norms of the second derivatives, d1 and d2 the lengths of the segments. The polygon and the smooth curve are within W tau^2 / 8 of each other in both directions. Every point the exact method reports is within W tau^2 / 8 + (1e-8 + 1e-5) d of either curve, so nothing is reported as EXACT when the curves are farther apart than the sum of the two. The almost method (without overlap correction) reports segments whose ends are within W tau^2 / 8 of the two curves, the curves being closer there than dist_tol plus these errors, and it reports something whenever two points of the curves are closer than dist_tol minus these errors and d1 + d2. For two graphs with slopes at most s and at least s + m, sampled with steps of at least h where h is large against numpy's tolerances (1e-8 + 1e-5 B < h, twice that times 1 + |s| less than m h, 2^-26 <= m h^2), the exact method never takes two segments for collinear, reports the crossing if there is one, all its reports are EXACT, and they are at most 3 e + ((M + M') tau^2 / 8 + 2 e (1 + |s|)) / m away from where the curves cross, e = (1e-8 + 1e-5) d.", "quantifier": "all smooth curves with the derivatives named, sizes, dimensions (two for the graphs), increasing parameters, feps, parameters of the almost method (over the reals)", "why_tests_cant": "Tests intersect a few sampled curves and look at the points; that a crossing is neither missed nor invented and how far it can be from the true one for all smooth curves needs an argument over all functions and step sizes.", "anchors": ["skcurve/_intersect.py:467-523", "skcurve/_intersect.py:525-591", "skcurve/_intersect.py:634-688"]}
{"id": "C104", "title": "Smoothing of disturbed samples of a smooth curve: how far the result is from the curve", "statement": "Let the points of a float curve be those of a smooth curve f at the equally spaced parameters a + h i, each coordinate disturbed by at most eta. Window smoothing with non-negative weights in the modes reflect, nearest and mirror is within eta + M h mu1 of f at every point, M bounding the first derivatives and mu1 being the mean distance from the middle of the window. If the window is symmetric and of odd size 2q+1, it is within eta + M h^2 mu2 / 2 at the points at least q away from the ends, in every mode, M bounding the second derivatives and mu2 being the mean square distance; quadratic coordinates with leading coefficient gamma move by exactly gamma h^2 mu2, so the constant is best possible. Savitzky-Golay smoothing with window 2q+1 and order p in mode 'interp' is within sqrt(2q+1) (eta + M (2 q h)^(p+1) / (p+1)!) at every point, the ends included, with q instead of 2q inside, M bounding the derivatives of order p+1; even orders gain one more order inside. With deriv = d <= p and delta = h, the result is within C (eta / h^d + M h^(p+1-d)) of the d-th derivative at every point, C depending on q, p and d only.", "quantifier": "all curves with the derivatives named, sizes, dimensions, steps, disturbances, windows, orders, derivatives (over the reals)", "why_tests_cant": "Tests smooth one noisy curve and check that it looks smoother; bounds for every curve, every disturbance and every window, and the order of convergence with its constants, are statements about all functions and all step sizes.", "anchors": ["skcurve/_smooth.py:121-145", "skcurve/_smooth.py:148-178", "skcurve/_smooth.py:181-219"]}
{"id": "C105", "title": "Torsion of sampled smooth curves", "statement": "Let the points of a curve be those of a four times differentiable curve f at the equally spaced parameters a + h i. At the points three or more away from both ends the torsion of the library is within h/v (4 (G/w)^2 + 2 B/w) of sqrt(det Gram(f', f'', f''')) / det Gram(f', f''), in any dimension. Here v bounds |f'| from below, w bounds the length of the part of f'' across f' from below, and W, A, B bound the lengths of f'', f''' and f''''; G = A + B h + W^2/v, and 8 h G <= w. In three dimensions the limit is |(f' x f'') . f'''| / |f' x f''|^2: the absolute value of the torsion, so a curve and its mirror image get the same. The step must not be too small either: the bound needs the tangents, normals and binormals h |f'|, h^2 |n|, h^3 |b| to be above the 1e-8 of numpy.isclose. The predefined helix, of torsion 1/2, has values below 1e-8 at all these points for every step between 1/5000 and 1/500.", "quantifier": "all curves with four derivatives, sizes, dimensions, steps above the thresholds (over the reals)", "why_tests_cant": "Tests compare the torsion of one helix with a number to a few digits; the rate for every curve, the lost sign, and the loss of the value below a step size are statements about all samplings.", "anchors": ["skcurve/_diffgeom.py:118-166", "skcurve/_diffgeom.py:322-394", "skcurve/_diffgeom.py:604-638", "skcurve/curves.py:172-197"]}
{"id": "C106", "title": "Derivatives of curves in binary64", "statement": "In binary64 every value of firstderiv between the ends is within 2^-53 relative error (and 2^-1075 for underflow) of half the difference of its neighbours. For coordinates of absolute value at most A <= 2^1000 the three derivatives are finite at every point, the ends included, and within A 2^-49 + 2^-1073, 9 A 2^-49 + 6 2^-1073 and 53 A 2^-49 + 26 2^-1073 of the derivatives of the same points in exact arithmetic. For coordinates that are integers below 2^44 times a common power of two nothing is rounded: the three derivatives are exactly those in exact arithmetic; on quadratic curves with integer coordinates the first two are right to the last bit at every point. For points within delta of a smooth curve at equal steps h, firstderiv/h is within M h^2 + (4 delta + A 2^-49 + 2^-1073)/h of the derivative and secondderiv/h^2 within 6 M h + (16 delta + 9 A 2^-49 + 6 2^-1073)/h^2. When the whole parameter range is below 2^-53 the correctly rounded points of (1 + x, 1 + x) have the derivative 0 instead of 1. Reversing a curve changes the sign of the first derivative exactly between the ends, but not at the ends (refuted): a coordinate equal to 0.1 at every point has a derivative different from 0 at the first point and equal to 0 at the last.", "quantifier": "All curves of finite binary64 numbers, all sizes and dimensions, all smooth curves with a bounded third derivative, all steps.", "why_tests_cant": "Rounding errors depend on the bits of all coordinates; a test compares a few curves with a loose tolerance and cannot show that the errors are bounded for every curve or that integer curves are differentiated exactly.", "anchors": ["skcurve/_diffgeom.py:118-154", "skcurve/_diffgeom.py:242-298"]}
{"id": "C107", "title": "Speed and curvature of plane curves in binary64", "statement": "In binary64 the speed of a curve of n dimensions is the norm of the computed first derivative up to a factor between (1 - 2^-53)^k and (1 + 2^-53)^k with k >= (n + 2)/2, provided it is finite and no non-zero coordinate of the derivative is below 2^-511. Where the coordinates (fx, fy) and (sx, sy) of the computed derivatives of a plane curve are zero or between 2^-100 and 2^100 in absolute value and the speed v is not zero, the curvature is finite and within 10 2^-53 (|sy fx| + |sx fy|)/v^3 + 2^-1075 of (sy fx - sx fy)/v^3. Its sign is never opposite to that of sy fx - sx fy, and it is zero when this is zero. For plane curves with integer coordinates below 2^21 the curvature differs from that of exact arithmetic by a relative error of at most 7 2^-53 at every point of non-zero speed, so it is zero, positive or negative exactly when the true one is, and it is NaN where the speed is zero. For integers near 2^30 this is false: there is a curve of three points that turns at its middle point and has the computed curvature 0 there.", "quantifier": "All curves of binary64 numbers (all plane curves for the curvature), all sizes, all points.", "why_tests_cant": "The cancellation in the numerator depends on the bits of four numbers; a test with a tolerance cannot tell whether a straight or a bent curve is always recognised as such.", "anchors": ["skcurve/_diffgeom.py:396-417", "skcurve/_diffgeom.py:586-602"]}
{"id": "C108", "title": "Unit tangents and straight lines in binary64", "statement": "In binary64, where the computed speed of a curve of n dimensions is above 1e-8 (and at most 2^500, no non-zero coordinate of the derivative below 2^-500), every coordinate of frenet1 is finite and within the relative error 1.01 (k + 1) 2^-53, k >= (n + 2)/2, of the coordinate of the unit vector along the computed derivative, and the length of frenet1 is 1 up to the same error. Where the speed is 1e-8 or less frenet1 is the derivative itself. For evenly sampled straight lines with integer coordinates below 2^44 in three or more dimensions the curvature is exactly zero between the ends. At the first point this is false: the points 0, 1, 2, 3 times (1, 1, 1) have a positive curvature at the first point and zero at the last.", "quantifier": "All curves of binary64 numbers, all sizes and dimensions, all points; all straight lines with integer start and step.", "why_tests_cant": "A test compares lengths with 1 and curvatures with 0 up to a tolerance; it can tell neither how many roundings are lost at worst nor that the zeros between the ends are exact for every line.", "anchors": ["skcurve/_diffgeom.py:157-166", "skcurve/_diffgeom.py:419-452", "skcurve/_diffgeom.py:594-600"]}
{"id": "C109", "title": "How far a point of a curve reaches in interpolation", "statement": "Take two curves with the same parameters, size, dimension and data type, interpolated on the same grid, and a grid value in piece k, that is between the parameters number k and k+1 (values before the first or after the last parameter count to the first or last piece). The 'linear' interpolator's result at that value depends only on the points k and k+1, for parameters that never go back and a value which is not NaN; the results of 'pchip' and 'hermite' depend only on the points k-1, k, k+1, k+2: curves which agree there give the same point, bit for bit in binary64. These windows cannot be made smaller. 'akima' and 'cubic' have no window: moving the last of ten points changes the curve between the second and the third, for 'akima' because the threshold for equal slopes comes from the largest change of slope of the whole curve. A curve without its own parameters is interpolated by arc length, so moving its first point changes the result of 'linear' in the last piece.", "quantifier": "all number types (so reals and binary64), all curves with at least two points in any dimension, all grids, all pieces", "why_tests_cant": "a test compares a few curves with a few changed points; that no change outside of the window, however large, has any effect on any value of the piece needs a proof over all curves, and rounding makes bit for bit equality hard to conclude from examples", "anchors": ["skcurve/_interpolate.py:400-423", "skcurve/_interpolate.py:460-469", "skcurve/_interpolate.py:494-501", "skcurve/_interpolate.py:525-530", "skcurve/_interpolate.py:553-558"]}
{"id": "C110", "title": "How far a point of a curve reaches in its differential geometry", "statement": "Take two curves of the same size and dimension. If they agree at the points up to d places away from point k (d+1 places if k is the first or last point), then the property of the curve point k is the same for both, bit for bit in binary64, with d = 1 for firstderiv, tangent, speed and frenet1, d = 2 for secondderiv, normal, frenet2 and curvature, d = 3 for thirdderiv, binormal, frenet3 and torsion; read through the index from the start or from the end. For each of these properties d cannot be smaller: moving the point d places before or d places after an inner point, or d+1 places after the first point, can change the value. The cumulative arc length of point k depends only on the points up to k, and on all of them.", "quantifier": "all number types (so reals and binary64), all curves in all dimensions, all points, all properties", "why_tests_cant": "that no change of any point outside of the window, however large, has an effect is a statement over all pairs of curves; bit for bit equality in binary64 for all of them cannot be sampled", "anchors": ["skcurve/_diffgeom.py:118-154", "skcurve/_diffgeom.py:208-214", "skcurve/_diffgeom.py:226-638"]}
{"id": "C111", "title": "How far a point of a curve reaches in smoothing", "statement": "Take two curves of the same size, dimension and (for the window method) data type, smoothed by the same method. The smoothed point i of the window method with a window of m weights depends only on the points at most m // 2 places away from i, in the modes 'reflect', 'nearest', 'mirror' and 'constant' however long the window is, and counted around the end of the curve in mode 'wrap'. The same holds for 'savgol' with the modes 'mirror', 'constant', 'nearest' and 'wrap'; in mode 'interp' it holds for the points that are at least w // 2 places away from both ends, and the smoothed points nearer to an end depend in addition only on the w points at this end. The windows cannot be made smaller, 'wrap' does reach around the end, and in mode 'interp' the first and the last smoothed point do depend on a point 4 places away for w = 5.", "quantifier": "all number types, all curves, all windows and window lengths, all Savitzky-Golay parameters, all boundary modes, all points", "why_tests_cant": "independence of every point outside of the window is a statement over all pairs of curves and all window lengths, also those longer than the curve where positions are reflected several times", "anchors": ["skcurve/_smooth.py:121-145", "skcurve/_smooth.py:148-178", "skcurve/_smooth.py:181-219"]}
{"id": "C112", "title": "Which methods treat the coordinates by themselves", "statement": "Take two curves with the same number of points and the same parameters and data type, of which coordinate j of the first is coordinate j2 of the second; their dimensions and all other coordinates may differ. Then coordinate j of the first result is coordinate j2 of the second, bit for bit, for: linear interpolation (parameters that never go back), PCHIP interpolation, cubic splines with a named boundary condition, smoothing splines (whatever the library's one-dimensional spline does), window smoothing, Savitzky-Golay smoothing in every mode, and the first, second and third derivatives. 'akima' and 'hermite' do mix the coordinates even when the parameters are given: another value in the second coordinate changes the first coordinate of the result. Without given parameters every interpolation method mixes them, because the parameter is the arc length.", "quantifier": "all number types, all pairs of curves, all dimensions, all grids, all method parameters, all points", "why_tests_cant": "independence of all values of all other coordinates, for curves of different dimensions, is a statement over all pairs of curves", "anchors": ["skcurve/_interpolate.py:400-423", "skcurve/_interpolate.py:460-469", "skcurve/_interpolate.py:494-501", "skcurve/_interpolate.py:525-530", "skcurve/_interpolate.py:553-558", "skcurve/_interpolate.py:587-606", "skcurve/_smooth.py:121-178", "skcurve/_diffgeom.py:118-154"]}
{"id": "C113", "title": "Closed curves have no first point in mode 'wrap'", "statement": "Take a curve and the curve of the same points that starts at point r and goes on with the first point after the last one. Window smoothing with any window and Savitzky-Golay smoothing with any parameters, both in mode 'wrap', give the same points, again starting at point r: point i of the second result is point (i + r) mod n of the first one. In every other mode ('reflect', 'nearest', 'mirror', 'constant', and 'interp' for Savitzky-Golay) the result depends on where the curve starts.", "quantifier": "all number types, all curves, all starting points, all windows and window lengths (also longer than the curve), all Savitzky-Golay parameters", "why_tests_cant": "a law over all curves, rotations and windows", "anchors": ["skcurve/_smooth.py:121-145", "skcurve/_smooth.py:148-178"]}
{"id": "C114", "title": "An interpolated point depends on its grid value only", "statement": "Interpolate a curve of at least two points on two accepted grids, by the same method: 'linear', 'hermite', 'pchip', 'akima', 'cubic' with any boundary condition, or 'csaps', with any extrapolation mode where the method has one. If value i of the first grid is value k of the second one, then point i of the first result is point k of the second one, bit for bit, whatever the other values of the grids are. So refining or thinning out a grid does not move the points at the values kept.", "quantifier": "all number types, all curves, all pairs of grids, all methods named with all parameters, all positions", "why_tests_cant": "a statement over all pairs of grids that share a value", "anchors": ["skcurve/_interpolate.py:400-423", "skcurve/_interpolate.py:460-469", "skcurve/_interpolate.py:494-501", "skcurve/_interpolate.py:525-530", "skcurve/_interpolate.py:553-558", "skcurve/_interpolate.py:630-638"]}
