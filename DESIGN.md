# Formal model of scikit-curve in Rocq/Coq

## Scope
The sources in `/repo/skcurve` are read as text and modelled function by function as total, computable
Gallina functions. Python exceptions are values (`res A := Ok a | Raise e`); the exception class is modelled, the
message and the `from err` chain are not. Warnings are modelled by class and order in `Warn.v`, not their texts and Python's filters.

## Files
| file | models |
|---|---|
| `Num.v` | scalar operations, at the reals, the rationals and binary64 |
| `Py.v` | exceptions, Python/numpy indexing, slices, masks, `np.delete`, `np.insert` |
| `Numeric.v` | `_numeric.py`, `_utils.py`, dtypes, n-d arrays |
| `Curve.v` | `Curve` of `_base.py`: construction, container and dimension operations, `CurvePoint`/`CurveSegment` indices |
| `Vec.v` | coordinate vectors, rank, least squares, 2x2 solve |
| `Geom.v`, `Angle.v` | `Segment` of `_base.py`, `_geomalg.py` |
| `Intersect.v` | `_intersect.py`: results, exact and almost methods, dispatch of the call |
| `Registry.v` | the three method registries, `intersect()`, `Curve.intersect`, `Segment.intersect` |
| `DiffGeom.v` | `_diffgeom.py` |
| `Interp.v` | `_interpolate.py`: grids, `InterpolatorBase`, linear method, `interpolate()` |
| `Smooth.v` | `_smooth.py` |
| `Curves.v` | `curves.py` |
| `Cache.v` | the cached properties as a state machine with a heap (aliasing, writes) |
| `Point.v` | `Point` of `_base.py`, `_distance.py` |
| `Splines.v` | the 'hermite' and 'pchip' interpolators including scipy's CubicHermiteSpline and PchipInterpolator, the 'spline' interpolator around an arbitrary 1-D spline |
| `Splines2.v` | the 'cubic' and 'akima' interpolators including scipy's CubicSpline (all boundary conditions; 'periodic' is a parameter there) and Akima1DInterpolator |
| `Periodic.v` | periodic splines: 'cubic' with `bc_type='periodic'`, 'cubic' and 'hermite' with `extrapolate='periodic'`; numpy's remainder is an oracle characterised by `is_mod` |
| `Views.v` | `CurvePoint` and `CurveSegment` as objects: the curve object they belong to (identity), stored index, copies, `t`, `subcurve`, `chordlen`, `segments` |
| `Csaps.v` | the 'csaps' interpolator including the cubic smoothing splines of csaps |
| `Savgol.v` | the 'savgol' smoothing method including scipy's savgol_filter (all modes, derivatives, errors) |
| `Windows.v` | scipy's get_window for the names without parameters (13 windows, their aliases, errors); over the reals |
| `SvdRank.v` | the collinearity and coplanarity tests with `matrix_rank` counting singular values above a tolerance (the singular values are an oracle) |
| `IntersectTol.v` | the exact intersection method with the tests of `SvdRank.v` in place of the exact rank |
| `Repr.v` | the `__repr__` methods with numpy's array2string (summaries, line breaks) and textwrap.indent; the text of one number is a parameter, for integers modelled |
| `Int64.v` | numpy's arithmetic of int64 arrays mixed with binary64, an instance of the scalar class for the functions that compute with integer data |
| `FloatN.v` | chordlen, arclen, cumarclen and nonsingular on float32 data, conversion to float32 and back; the arithmetic of any IEEE format from Flocq |
| `IntN.v` | chordlen, arclen and nonsingular on int8/16/32 and uint8/16/32 data, in which numpy stays in the narrow dtype until np.sum |
| `FitSpline.v` | the 'spline' interpolator with scipy's UnivariateSpline: validation, ext, and for smooth = 0 the interpolating spline (smooth > 0 is an oracle) |
| `Warn.v` | the warnings: every `warnings.warn` of the package, with the caches that decide whether a property is computed (and warns) again; refines the other model files |
| `Plot.v` | `plot.py`: the drawing commands CurvePlot sends to which axes, chained calls, failures before and after drawing; `is2d`, `is3d`, `isspatial` |
| `Iter.v` | iteration over points and curves (`collections.abc.Sequence`) |
| `Program.v` | programs of curve operations (for C01) |
| `Errors.v` | the failure table of these programs: which call raises which exception, as conditions on the arguments (a specification, used in C99) |
| `Spec.v`, `GeomSpec.v`, `WindowSpec.v`, `SvdSpec.v` | specifications used in the theorem statements |
| `*Facts.v`, `*Proofs*.v` | lemmas (`Float*.v`: binary64 rounding, with Flocq; `SplineProofs7.v`, `CsapsProofs2.v`: integrals, with Coquelicot) |
| `Properties_*.v` | the property theorems, their examples and `Print Assumptions` |

## Numbers
Every numeric function is written once over a class `Num` of scalar operations and instantiated five times:
* `R` (standard library reals) - used for proofs of geometric laws. The theorems speak about exact arithmetic,
  not about rounding;
* `Q` (canonical rationals) - exact executable instance, used for examples;
* `float` (`PrimFloat`, IEEE binary64) - executable instance, bit-exact for + - * / sqrt and comparisons. It is used
  for witnesses where NaN/Inf or rounding matter and for the theorems about all binary64 inputs (C70-C74). Their proofs use lemmas
  of Flocq, which adds no axioms (nor does Coquelicot, used for the integrals in C75 and C77); the axioms of `Coq.Floats` describing the primitive operations are listed per theorem below.
* `npnum` (`Int64.v`) - int64 or binary64, as numpy mixes them: integer sums and products wrap modulo 2^64, division and square root
  give binary64. Used in C92, for the functions that compute with the integer data of a curve (chord and arc lengths, nonsingular, almost method).
* `binary_float prec emax` (Flocq, `FloatN.v`) - any IEEE format; float32 is 24, 128. Used in C98. numpy keeps float32 in `np.diff`, `** 2`, `np.sum`, `np.sqrt`, `np.cumsum`; the Python floats in front of
  the results (`np.hstack`) turn them into float64.
Container theorems (indexing, slicing, insertion, ...) are generic in the scalar type, so they hold for binary64 data too.
In the other theorems int64 data are exact numbers (no overflow). complex and object dtypes are not modelled, nor float32 data in functions other than those of C98.

## Modelled meaning of external routines
* numpy basic/fancy indexing, slicing, `insert`/`delete` (numpy 1.19-1.23 semantics), `unique`, `diff`, `cumsum`, `hstack`,
  `vstack`, `gradient`, `linspace`, `isclose` (rtol=1e-5, atol=1e-8), `round`: by their documented formulas. The order of floating-point
  summation inside `np.sum`, `einsum` and `dot` is right to left here; numpy does not specify it.
* `linalg.matrix_rank`: the exact rank (elimination) in `Geom.v`; in `SvdRank.v` (C89) the number of singular values above the tolerance, given or
  numpy's default. There the singular values are an oracle assumed to be the singular values over the reals (`correct_svd`; proved to exist and to be unique). C95 uses the same for the exact intersection method.
* `linalg.lstsq`, `linalg.solve`: the exact minimum-norm least squares solution / Cramer's rule; residuals are only used for warnings (`Warn.v`).
* scipy `interp1d` (linear), `ndimage.convolve1d` (five boundary modes), `spatial.distance` (euclidean, sqeuclidean, cityblock, chebyshev): by definition.
* scipy `CubicSpline`: the tridiagonal system of its source; `solve_banded` is elimination without row exchanges (the pivots are proved
  positive; LAPACK may exchange rows, which matters for rounding only).
* csaps `CubicSmoothingSpline` (0.9-0.11): the linear system of its source, solved by elimination (proved to have a positive definite matrix; SuperLU may
  exchange rows). The sign of the weights and the range of `smooth` are not checked there; the theorems assume positive weights and 0 <= smooth <= 1.
* scipy `savgol_filter` (versions before 1.9, which demand an odd window): the sources of savgol_coeffs and _fit_edge; the least squares problems are
  solved exactly by the normal equations (proved positive definite). No RankWarning of np.polyfit, no overflow of the factorial; see `Savgol.v` for windows longer than the curve.
* scipy `UnivariateSpline`: the validation of its sources (`check_finite=False`); for s = 0 the knots FITPACK's fpcurf chooses and the least squares
  problem it solves, but in the basis of truncated powers and by the normal equations instead of B-splines and Givens rotations (proved to have one solution, which passes
  through the samples, for increasing samples and non-zero weights; zero weights are accepted by the code and excluded in the theorems). s > 0: an oracle `smoothing`.
* networkx `connected_components`: reachability; the iteration order of the returned sets is a parameter `order`
  (the theorems hold for every permutation).
* Oracles (section variables, universally quantified in the theorems): `get_window` in C58-C59 (modelled in `Windows.v` for C88, with Kaiser windows and Python's float() of a string as oracles), `fresnel`, the other scipy metrics, the
  interpolators not named above, numpy's remainder of floats (assumed to be a remainder over the reals: `is_mod` in `PeriodicProofs2.v`), user callables, grids and methods.
* Uninitialised memory (`np.ndarray([], ...)` read as a number, `_diffgeom.py:89`): an arbitrary parameter `junk`.
* Object identity: `curve1 is curve2` is a boolean argument `same`; `Segment` objects in results are references (`segref`).
* Registries: association lists in insertion order; the decorators' return value (None) is not modelled.

## Not modelled
matplotlib itself and the keyword arguments only passed on to it, colour parameters with matrix values, `_version.py`, logging, the RuntimeWarnings of numpy, the printing of floating-point numbers in `__repr__` (a parameter in C90), names of subclasses in it, hashing of points, complex/object dtypes, float32 outside of C98, integer overflow outside of C92 and C94, the smoothing splines of scipy's
UnivariateSpline (smooth > 0, an oracle), rounding inside the SVD, numpy scalars as left operands of point arithmetic,
`np.object`/`np.bool` being absent from new numpy versions (`_base.py:1637`, `2110`), conversion to int64 of values outside its range, multi-dimensional index arrays.

## Observations
Behaviour of the code that the theorems establish and that a user may not expect:
* `curve[i]` accepts -2*size <= i < -size and stores a negative `idx` (C02); very negative `CurveSegment` indices are accepted (C23).
* Empty results lose their dimension (C03, C05, C21); an empty curve has an undetermined `arclen` and a `cumarclen` of length 2 (C24).
* `==` is neither symmetric nor transitive, nor reflexive with NaN (C14).
* `collinear` ranks the raw points, so lines off the origin are not recognised; `Segment.t` is NaN there and overlapping
  segments are missed (C32, C33, C43). The parallel test has an absolute tolerance (C35), crossing short segments are missed (C43).
* `isplane` of a one-point curve in three or more dimensions raises ValueError (C34).
* The default tolerance of `collinear` grows with the distance from the origin: crossing segments far away count as collinear; the order of
  the points can decide about coplanarity with a tolerance (C89).
* `overlap` returns wrong end points for directions of mixed sign (C37).
* Torsion is never negative on a helix, handedness is lost (C64), and may be non-zero at inflection points of plane curves (C29).
* `firstderiv` is the derivative by index, not by the parameter t (C26).
* `thirdderiv` does not converge at the three outermost points of each end: it is 3/8, 5/8 and 7/8 of the third derivative of a cubic however
  fine the sampling. Curvature in three or more dimensions breaks down when neighbouring points are closer than about 1e-8: a finely sampled
  unit circle has curvature sin h (C100). Torsion breaks down much earlier: the binormal is of the order h^3, so a helix of torsion 1/2 sampled
  with a step of 1/500 or less has torsion below 1e-8 (C105).
* In binary64 a straight line in space can have a curvature different from zero at its first point, since the end formula of `np.gradient` does not cancel exactly;
  between the ends it is exactly zero for integer lines (C108). Plane curves with integer coordinates below 2^21 have no such defect, but a bend at coordinates
  near 2^30 can be lost (C107).
* Sampling a pair of crossing curves too finely loses the crossing: the Gram determinant of two short segments is below the threshold of the exact method (C43).
* A reversed parametric curve cannot be interpolated by a point count (C53); grids containing NaN are accepted (C53).
* Window smoothing of an integer curve truncates (C58); a zero-sum window gives NaN (C58).
* The almost intersection method on two integer curves truncates the parameters of the closest points, so it compares corners only: crossings
  inside the segments are not found, while the same data as floats give them (C91).
* Lengths of an integer curve are computed in int64: for coordinates beyond about 10^9 the squared distance wraps, lengths become NaN or too small, nonsingular
  drops distinct points, and the almost method reports segments that are far apart (C92).
* The same happens much earlier with narrower integers: in an int16 curve a step of 182 has length NaN and a step of 256 length 0, in a uint8 curve a step of 16 has length 0 (C94).
* Curves of float32 stay in float32 for lengths: cumarclen stalls at segments shorter than 2^-24 of the curve before them, distinct points 2^-80 apart have distance 0
  and points 2^64 apart distance inf, although float64 would give both exactly (C98).
* Linear interpolation in binary64 does not always meet the inner curve points, and overshoots between monotone ones by rounding (C93).
* The default window 'hann' of size 2 has total zero, of size 3 it does nothing; windows of even size move straight lines half a step (C88).
* Savitzky-Golay smoothing may leave the convex hull and moves the ends; its derivatives are by the index (C86).
* Cached arrays are writable and shared: a write into `tangent` changes `firstderiv` and everything computed later (C61).
* `insert` with several indices accepts indices below -size and inserts elsewhere (C65); `Point(5)` has length 1 but iterates over nothing (C66).
* 'hermite' interpolation uses the unit tangent as derivative: curves of another speed are distorted, and an unevenly sampled straight
  line is left backwards at its end (C67); 'pchip' reproduces it (C68).
* 'cubic' with 'clamped' ends does not reproduce straight lines (C75); 'akima' of two points reads uninitialised memory (C76).
* In binary64 arithmetic the arc length may change under `reverse()`, distinct points may have distance 0 and finite points distance inf (C70);
  a grid of subnormal step may decrease and `[inf, inf]` is accepted as a grid (C72); `segment.point(1)` may differ from `p2` (C73).
* 'akima' takes its threshold for equal slopes from the largest change of slope of the whole curve in all coordinates: so a point far away, or another
  coordinate, can change an interpolated value (C109, C112). Curves without given parameters are interpolated by arc length: every point and every
  coordinate influences every value, also for 'linear' (C109, C112).
* Smoothing a closed curve depends on its starting point in every mode but 'wrap' (C113).
* `deletedim` of all but one axis raises ValueError, of all axes returns an empty plane curve (C18).
* `repr` of a curve of more than ten points shows eight of them and never shows the parameters (C90).
* `Point.distance` broadcasts 1-D points, and drops keyword arguments for callables (C63).

## Plan per property
* **C01** Every reachable curve is well formed: Curve.v models every operation as `curve -> args -> res curve`; invariant `wf` by induction on a list of operations.
* **C02** Integer indexing: Curve.v `getitem_int` follows the CurvePoint wrap; accepted range and result characterised exactly.
* **C03** Slicing behaves like Python list slicing on points and parameters: PyIndex.v models slice.indices in Z; spec = the arithmetic progression selected by Python; proof by list induction.
* **C04** Index-array and mask selection: Selection by index list / mask against an independent filter/nth spec.
* **C05** Concatenation is list append: list append laws on the record; associativity characterised by an iff.
* **C06** Splitting and re-joining a curve restores it: from C03 and C05.
* **C07** reverse is an order-reversing involution: list reversal through slice ::-1.
* **C08** insert puts the new points at the given place and nowhere else: firstn ++ new ++ skipn spec.
* **C09** delete removes exactly the addressed points: spec: filter on positions.
* **C10** delete undoes insert; append is concatenation: composition of C08 and C09.
* **C11** in / count / index agree: closeness is a parameter-free boolean; counting spec by list recursion.
* **C12** index with start/end: first index in the Python interval; result characterised for every start/end, addressing the point iff start >= -size.
* **C13** Sub-curve containment is contiguous occurrence: exists-split spec (pre ++ run ++ post).
* **C14** Equality of points and curves: isclose over R, Q and binary64; refutations computed in binary64.
* **C15** unique keeps exactly the first occurrences: spec: first-occurrence filter, NoDup, idempotence.
* **C16** drop removes exactly the flagged points: filter spec.
* **C17** nonsingular removes non-finite points and collapsed segments: per-point keep predicate, binary64 witness with NaN.
* **C18** insertdim/deletedim act on the given axis only: per-row insertion/removal lemmas.
* **C19** values are the coordinate columns and rebuild the curve: transpose lemmas.
* **C20** as2d puts the chosen axis first and flattens the others row-major: row-major index arithmetic over shape lists, induction on the shape.
* **C21** Copies: record equality, iff the curve has points or is plane.
* **C22** coorientplane gives the co-oriented curve: sign of the determinant under reversal (ring).
* **C23** subcurve and curve segments address the curve they come from: nth / sub-range lemmas.
* **C24** Chord, arc and cumulative arc length: sums over R, induction.
* **C25** Arc length laws: Minkowski inequality by induction on coordinates and points.
* **C26** First derivative is exact on quadratic curves: finite differences, ring/field on nth.
* **C27** Frenet vectors are orthonormal where defined: Gram-Schmidt identities over R for arbitrary dimension.
* **C28** Curvature laws: algebra on the formula after C26 laws.
* **C29** Torsion of a plane curve is zero: all vectors have zero third coordinate; rank argument.
* **C30** A curve point reports the row of the curve's property: CurvePoint property = nth of the curve property.
* **C31** Segment parametrisation: affine algebra.
* **C32** Segment.t inverts Segment.point: least squares modelled by its defining formula; refutation witness.
* **C33** collinear decides collinearity: matrix_rank modelled by its mathematical meaning (exact rank <= 1 via 2x2 minors).
* **C34** coplanar decides coplanarity: exact rank <= 2 via existence of two spanning rows / 3x3 minors.
* **C35** parallel decides parallelism: Cauchy-Schwarz / Lagrange identity in n dimensions; refutation by orthogonal short segments.
* **C36** angle is the Euclidean angle: acos laws of the standard library.
* **C37** overlap of collinear segments: order reasoning per coordinate.
* **C38** Closest point of a segment to a point: convexity of the squared distance, explicit slack.
* **C39** Closest points of two segments: convex quadratic minimisation over the unit square, case analysis mirroring the code.
* **C40** Vectorised closest points equal the scalar ones: masked updates modelled as a sequence of whole-array updates; pointwise equality by case analysis.
* **C41** Intersection result objects are consistent: decision table.
* **C42** Exact segment intersection is sound: the reported point is on the first segment's line; distance bound.
* **C43** Exact segment intersection is complete for proper crossings: uniqueness of the solution of the linear system from Lagrange identity.
* **C44** Candidate segment pairs: list of pairs spec.
* **C45** Bounding-box prefilter loses no intersection: min/max bounds of points on a segment.
* **C46** Curve-segment intersection equals curve-curve intersection: map over results.
* **C47** Almost intersection reports exactly the close pairs: C40 + threshold.
* **C48** Removing extra intersections: connected components modelled as reachability; kept set characterised for every enumeration order.
* **C49** Dispatch of intersect: decision table with an arbitrary method oracle.
* **C50** Method registries: registry as association list; induction over histories.
* **C51** Uniform interpolation grid: linspace formula over R.
* **C52** Uniform extrapolation grid: list append of arithmetic progressions.
* **C53** Grid validation: sorted spec; binary tolerance.
* **C54** Linear interpolation passes through the curve: interp1d modelled by searchsorted + affine formula.
* **C55** Interpolation result shape: generic over the interpolator oracle.
* **C56** Preserved-speed grid: compose linrescale, linear interpolation.
* **C57** linrescale is the affine map of ranges: field.
* **C58** Window smoothing: convolve1d(mode reflect and the other boundary modes) modelled by index reflection; induction over the window.
* **C59** Smoothing dispatch: decision table.
* **C60** Predefined curves satisfy their equations: trigonometry of the standard library (cos2+sin2=1).
* **C61** Cached properties: state machine over heap, caches, points, reads and writes; invariant by induction over histories; dependency sets bound the reach of writes.
* **C62** Point arithmetic: ring laws on lists.
* **C63** Point.distance is a metric: Minkowski inequality.
* **C64** Discrete curvature and torsion of the helix: closed form of the difference formulas by trigonometric identities, then error bounds for sin and cos.
* **C65** Insertion at several places: final positions as counts (number of smaller indices plus earlier equal ones); the woven list and the block-wise specification agree position by position.
* **C66** Iteration protocol: induction on the number of steps, generalised over the counter.
* **C67** Hermite interpolation: the coefficients are shown to be those of the unique cubic; the piece is found by counting the abscissae; straight lines by the difference quotients of DiffGeomProofs2.
* **C68** PCHIP interpolation does not overshoot: Fritsch-Carlson: the derivatives lie between 0 and three times both adjacent slopes; a cubic with such end derivatives is a convex combination of four monotone cubics.
* **C69** Spline interpolation of curves: case analysis over the sequence of creations and evaluations.
* **C70** Lengths in binary64 arithmetic: monotonicity of rounding for the order facts; the standard model fl(a op b) = (a op b)(1+d) for the error bound, induction over the summation tree.
* **C71** Reflexivity of equality on binary64 data: case analysis on the classes of binary64 numbers.
* **C72** Grids in binary64 arithmetic: i*step is monotone by monotonicity of rounding; the last value by the bound on i*step against b-a.
* **C73** Closest points in binary64 arithmetic: sign of quotients by monotonicity of rounding; branch analysis.
* **C74** Integer conversion of binary64 values: shift of the mantissa in FloatOps.
* **C75** Cubic spline interpolation: solve the tridiagonal system by elimination; positivity of pivots from diagonal dominance (not-a-knot rows treated separately); the function glued from the pieces is twice differentiable iff the equations hold; uniqueness by uniqueness of the solution; minimum property by integration by parts on each piece (Coquelicot).
* **C76** Akima interpolation: slopes continued in arithmetic progression; case analysis of the rule; the function glued from Hermite cubics and its uniqueness; polynomials by uniqueness.
* **C77** Smoothing splines: Positive definiteness of the system (summation by parts), correctness and uniqueness of elimination; the fitted values' second differences give the derivatives of the natural spline through them; minimality by integration by parts.
* **C78** Warnings: Warnings as a list beside the result; cached reads as a state; invariants over read histories; refinement of the models without warnings.
* **C79** Plotting: a world with axes and a log of commands; plot splits into the choice of axes and a list of commands depending on the curve only; chains by induction
* **C80** Moving a curve by a distance-preserving map: a distance-preserving map keeps inner products by polarisation, hence is affine; gradient is an affine combination of rows with weights of sum zero, so derivatives follow the linear part, and all scalar quantities depend on inner products only; coplanarity backwards through the adjoint of the linear part.
* **C81** Interpolation and affine maps: linearity of the tridiagonal and of the banded system in the right-hand side gives weights as responses to unit columns; reproduction of constants gives their sum. C80 gives that built-in grids and the parameter are unchanged; every isometry is affine (C81_isometry_affine).
* **C82** Periodic splines of closed curves: the spline with both end slopes prescribed by the cyclic system reuses the theory of C75; cyclic system unique by diagonal dominance; wrapped function glued at the seam; restart by uniqueness.
* **C83** Curve points and curve segments as objects: one lemma for the position of an index (i mod size) and the stored index; everything else follows from it and from the theorems on slices.
* **C84** NaN coordinates: NaN absorbs under every binary64 operation (Flocq); one lemma per function; the boxes of segments with NaN fail every comparison.
* **C85** Swapping the arguments and turning a segment round: each predicate through its geometric meaning (C33-C36), which is symmetric; the exact method through the unique common point of the two lines; curves through the pairwise description of C45.
* **C86** Savitzky-Golay smoothing: polynomials as coefficient lists; the Gram matrix is positive definite because a polynomial has few roots; weights and fitted polynomials are dual; shifts and reflections of the window by substitution; uniqueness of the fit gives exactness, symmetry and parity.
* **C87** 'spline' without smoothing is the one spline of degree k through the points: count the zeros of a spline by Rolle/sign changes of its derivatives, which gives injectivity of the collocation matrix; an injective square matrix is onto; smooth piecewise polynomials have a representation in truncated powers.
* **C88** The windows of window smoothing: Windows.v models get_window; every value is reduced to one even taper function of the distance from the middle; sign and monotonicity by real analysis, totals by telescoping harmonic sums.
* **C89** Collinearity and coplanarity with a tolerance: SvdRank.v models matrix_rank with tolerance; existence of the SVD by maximising a quadratic form on the sphere, uniqueness and the meaning of the rank by the Eckart-Young theorem; invariance by carrying approximating points along.
* **C90** What repr shows: words of a text split at separators; wrapping, indentation and stripping only touch blanks, so they keep the words; when rows fit the wrapping loop is a join; bounds of the number of decimal digits give the common width; words determine the numbers by the injectivity of decimals.
* **C91** Curves with integer data: dd, sn, sd of integer segments are integers, so dd < tol iff dd <= 0 iff parallel; the optimality proof of C39 without its tolerance term. Truncation of a number in [0,1] is 0 or 1. Two integer points closer than 1 are equal.
* **C92** Curves of 64-bit integers: lengths, nonsingular and the almost method with wrap-around: instance npnum of the scalar class; wrap is a ring homomorphism, so every chord is sqrt (wrap (gap)); f_of_Z and sqrt round; sums_within for the total; the almost method by simulating every entry with integers in both instances.
* **C93** Linear interpolation, points of segments and rescaling in binary64: Bracket lookup on rising parameters picks the piece; each operation is a rounding of the exact one with relative error 2^-53 and absolute error 2^-1075; monotone because rounding is.
* **C94** Curves of int8, int16, int32, uint8, uint16, uint32: lengths and nonsingular: Stored squares are congruent to the exact ones modulo 2^bits and never larger; the sum fits into 64 bits, then the conversion and the square root are two roundings.
* **C95** The exact intersection method with numpy's rank tolerance: the tests of C89 in place of the exact rank; area of four points near a line bounds the tolerance; the least-squares residual is orthogonal to both lines.
* **C96** Lengths and distances under linear interpolation: the arc length up to a parameter is itself a linear interpolant; it bounds distances by the triangle inequality along the nodes and telescopes over the grid; a step without a node inside loses nothing.
* **C97** Lengths and distances under window smoothing: steps of the extended line are periodic and symmetric; the sum over shifts k and m-1-k covers part of one period, whose total is twice the length.
* **C98** Lengths, nonsingular and conversions of float32 curves (and of any IEEE format): Flocq's operations in any format; relative errors composed as factors (1+e); sums over any binary tree; a nonzero difference of two float32 numbers is a multiple of 2^-149, so its square neither underflows nor overflows in binary64; triangle inequality for conversion.
* **C99** Exactly which calls fail, and with which exception: an inductive-free table (Errors.v) against the model: one exact failure lemma per function, the invariant of reachable stores (well-formed curves), then one case per call.
* **C100** Properties of points sampled from a smooth curve converge to those of the curve, with explicit errors: Properties_Sampling.v over SampleProofs.v (Taylor bounds with derivable_pt_lim and the finite differences of numpy.gradient), SampleProofs2.v (perturbation of curvature), SampleProofs3.v (chords against length, linear interpolation).
* **C101** Cubic interpolants of points of a smooth curve converge to it, with explicit constants: Properties_Converge.v over ConvergeProofs.v (a cubic piece against the chord, closeness of the chosen derivatives to the chord slopes, maximum principle for the spline equations) and ConvergeProofs2.v (fourth order).
* **C102** Periodic, csaps, FITPACK and hermite interpolants of points of a smooth curve: what converges and how fast: Properties_Converge2.v over ConvergeProofs3.v (maximum principle for the cyclic spline equations); csaps and FITPACK by the equalities of C77 and C87; hermite by the expansion of the sampled tangent from C100.
* **C103** Intersections of polygons through points of smooth curves are those of the curves, up to explicit errors: the chord error of C100 as a vector statement; the contracts C42, C45 and C47-C48 of the two methods; the intermediate value theorem on the difference of two piecewise linear functions; the mean value theorem bounds the cross product of two segments from below
* **C104** Smoothing of disturbed samples of a smooth curve: how far the result is from the curve: Taylor polynomials of any degree by induction; the least squares fit of a polynomial plus a residual is the polynomial plus a fit no larger than the residual in the mean square; symmetric averages cancel the linear term; reflecting indices at the ends never moves them away
* **C105** Torsion of sampled smooth curves: the part of a vector across a plane is the shortest difference from its span, so lengths of normals and binormals are stable without comparing vectors; the binormal direction is orthogonal to the computed first and second differences, which kills the terms of lower order; Gram determinants
* **C106** Derivatives of curves in binary64: Errors of one differentiation of a sequence of binary64 numbers, then of rows; exactness by writing every intermediate result as an integer times a power of two; C100's Taylor bounds for the sampled curves.
* **C107** Speed and curvature of plane curves in binary64: One rounding at a time for q, sqrt q and q sqrt q; the numerator by its two products; integer coordinates make numerator and q exact (integers times powers of two).
* **C108** Unit tangents and straight lines in binary64: Relative error of the norm from C107; derivatives of integer lines are exact by C106 and equal up to the sign of zero, so the unit tangents are too; the differences of equal numbers are exactly zero.
* **C109** How far a point of a curve reaches in interpolation: LocalProofs.v, Properties_Local.v: locality of gradient, of the PCHIP derivatives and of the piece used; for every number type
* **C110** How far a point of a curve reaches in its differential geometry: LocalProofs2.v, Properties_Local2.v: a calculus of local list functions (map, map2, combine, gradient) applied to the definitions
* **C111** How far a point of a curve reaches in smoothing: LocalProofs3.v, Properties_Local3.v: folding positions back into the curve moves none of them further away from a point of the curve; then by the definitions
* **C112** Which methods treat the coordinates by themselves: CoordProofs.v, Properties_Coord.v: the tangents, weights and fits of a coordinate are functions of this coordinate; then by the shapes of the results
* **C113** Closed curves have no first point in mode 'wrap': Properties_Turn.v: positions modulo the number of points
* **C114** An interpolated point depends on its grid value only: Properties_Pointwise.v: every method named computes its rows value by value

## Trusted base
* The Coq 8.16.1 kernel (and `vm_compute`, part of it), the standard library, and the reading of `/repo` recorded in the model's comments.
* No axiom is declared in this development; no kernel check is switched off; nothing is admitted.
* What `Print Assumptions` lists, by class (the command stands below each theorem):
  * `none`: Closed under the global context;
  * `R1`: `ClassicalDedekindReals.sig_forall_dec`, `FunctionalExtensionality.functional_extensionality_dep`;
  * `R2`: R1 and `ClassicalDedekindReals.sig_not_dec`;
  * `R3`: R2 and `Classical_Prop.classic`;
  * `F`: the primitive types and operations of `PrimFloat` and `PrimInt63` (no logical axioms);
  * `FA`: F and the specifications of these operations (`FloatAxioms`, `Uint63`).

| property | assumptions of each theorem |
|---|---|
| C01 | **none**: constructor_holds_rows, constructor_rejects_narrow, constructor_rejects_tdata, reachable_wellformed |
| C02 | **none**: int_index, int_index_error_refuted, int_index_iff |
| C03 | **none**: slice, slice_keeps_ndim_refuted, slice_zero_step |
| C04 | **none**: index_list, index_list_error, mask, mask_error |
| C05 | **none**: add, add_assoc_iff, add_assoc_refuted, add_ndim_error |
| C06 | **none**: split_join |
| C07 | **none**: reverse, reverse_involutive |
| C08 | **none**: insert, insert_float, insert_index_error, insert_ndim_error |
| C09 | **none**: delete, delete_error |
| C10 | **none**: append, append_is_add, delete_insert |
| C11 | **none**: contains, count, in_count_index, index_first, ndim_mismatch |
| C12 | **none**: index_interval, index_interval_iff, index_interval_refuted |
| C13 | **none**: contains_curve |
| C14 | **none**: curve_eq, curve_eq_size; **R1**: curve_eq_refl, isequal_meaning; **F**: refl_nan_refuted, symmetric_refuted, transitive_refuted |
| C15 | **R1**: lexicographic, unique_points; **none**: unique, unique_idempotent |
| C16 | **none**: drop_errors, drop_indices, drop_mask, drop_mask2 |
| C17 | **F**: nonsingular, nonsingular_idempotent_refuted; **none**: nonsingular_empty |
| C18 | **none**: deletedim, deletedim_all_refuted, deletedim_any, deletedim_insertdim, deletedim_plane_error, deletedim_range, insertdim, insertdim_error, insertdim_values |
| C19 | **none**: rebuild, values, values_all, values_error |
| C20 | **none**: as2d, as2d_axis_refuted, as2d_errors |
| C21 | **none**: copy, copy_iff, copy_refuted |
| C22 | **R1**: coorient; **none**: coorient_zero_det_refuted, short |
| C23 | **none**: curve_segment, curve_segment_error, curve_segment_negative_refuted, segments, subcurve |
| C24 | **R2**: arclen, chordlen, cumarclen, empty_arclen_refuted; **none**: empty |
| C25 | **R2**: delete, ends, insert, join, reverse, similarity, translate_scale |
| C26 | **R2**: linear, one_point, quadratic, reverse, translate, two_points |
| C27 | **R2**: frenet |
| C28 | **R2**: circle, plane_mirror, plane_quadratic, plane_reverse, plane_similarity, plane_straight, space_nonneg, space_scale, space_straight, space_straight_uniform; **none**: plane_one_point; **F**: space_straight_refuted |
| C29 | **F**: inflection_refuted; **R2**: plane_torsion |
| C30 | **none**: point_is_row, position |
| C31 | **none**: bad_shape, construct; **R1**: between, ends, point_is_affine, sequence; **R2**: distance |
| C32 | **R1**: ends, sequences, singular, t_inverts_iff, t_inverts_refuted |
| C33 | **R1**: collinear_iff, complete_refuted, segment_point, segment_segment, sound |
| C34 | **none**: below_three, empty, one_point; **R1**: coplanar_iff, isplane |
| C35 | **R1**: orientation, parallel_meaning, proportional, symmetric, translation; **R2**: orthogonal_refuted |
| C36 | **R3**: angle, multiples, nan, reverse, rounded, symmetric |
| C37 | **R1**: checked, endpoints_refuted, none; **R2**: overlap |
| C38 | **R2**: exact_refuted, minimal_bound, minimal_exact; **R1**: shape |
| C39 | **R2**: degenerate_refuted, distance_bound, exact_refuted, near_optimal, short_crossing_refuted; **R1**: on_segments |
| C40 | **R1**: params, points |
| C41 | **R1**: accessors; **none**: curves, make_info, segments, truthy |
| C42 | **R2**: far_segments, near_both_segments, on_both_lines |
| C43 | **R2**: complete, exact, far_from_origin_refuted, overlap_refuted, short_refuted |
| C44 | **none**: members, once, order |
| C45 | **R2**: all_pairs_refuted, complete, curves; **R1**: boxes |
| C46 | **none**: empty, refused, segment_curve |
| C47 | **R2**: correct_overlap, curves, segments |
| C48 | **F**: order_dependent_refuted; **R2**: remove_extra, run, separated |
| C49 | **F**: copy_refuted; **none**: default, dimension, errors, other, self, table |
| C50 | **none**: default_last, default_registered, default_stays, failed, intersect_registry, lookup, names, never_rebound, register, set_default |
| C51 | **none**: init, small_curve; **R2**: length, length_zero, points; **R1+FA**: round_float; **R1**: round_rational |
| C52 | **none**: empty, grid_object, init; **R1**: even, length, negative, points; **F**: one_value_refuted |
| C53 | **R2**: accepted, count_iff, reversed, tiny_curve_refuted, validation_iff; **F**: nan_refuted; **none**: other_specs |
| C54 | **R2**: identity, linear, linear_points, no_extrapolation, reversed; **F**: integer_curve_refuted, repeated_point_refuted; **FA**: nan_last |
| C55 | **none**: empty, empty_linear_refuted, errors, result, single_linear |
| C56 | **F**: degenerate_refuted; **R2**: grid, own_size; **none**: parametric |
| C57 | **R1**: compose, default_range, inverse, linrescale; **F**: constant_refuted |
| C58 | **R1**: affine, convex, fixes_constant, reverse, window_average, window_scale; **none**: boundary, modes; **F**: empty_refuted, even_window_refuted, float64_refuted, integer_constant_refuted, zero_sum_refuted |
| C59 | **none**: dispatch, window_errors; **R1**: savgol |
| C60 | **R2**: arc, arc_curvature, arc_length, archimedean, counts, full_turn_closed, helix, irregular_helix, lemniscate, lissajous; **R1**: euler |
| C61 | **none**: families, index, leaves, parameters, same_object, shared_only, transparent, unaffected, write_iff, write_visible; **F**: points_refuted, writes_refuted |
| C62 | **F**: binary64_assoc_refuted, scalar_point_refuted, zero_division; **none**: constructor, coordinatewise, copy, dimensions_iff, float_result, getitem, matmul_scalar, numbers, truth, type_error; **R1**: dot, floordiv, vector_space; **R2**: form, norm_scalar |
| C63 | **R2**: dimension_zero_refuted, dimensions, euclidean, other_metrics, sqeuclidean_refuted; **none**: kwargs_dropped, lookup; **F**: nonfinite_refuted |
| C64 | **R2**: curvature, torsion; **R3**: error, handedness_refuted |
| C65 | **none**: count_error, index_error_high, index_error_low_refuted, insert_at_indices, insert_point_at_indices, one_index, slice |
| C66 | **none**: curve_iteration, curve_reversed, point_iteration, scalar_point_refuted |
| C67 | **F**: constant_speed_refuted, uneven_line_refuted; **R2**: hermite, hermite_iff, smooth, straight |
| C68 | **R2**: affine, monotone, pchip, pchip_iff, rule, smooth, straight; **F**: points_float_refuted |
| C69 | **R2**: points, spline, spline_errors |
| C70 | **R3+FA**: arclen_error, chords, cumulative, error, length_error, reverse, self, symmetric; **F**: model, overflow_refuted, reverse_refuted, zero_refuted |
| C71 | **R3+FA**: contains, curve, element, point |
| C72 | **R3+FA**: ascending, ends, validation; **F**: ascending_refuted, ends_refuted, validation_refuted |
| C73 | **R3+FA**: distance, matrix, point, segments; **F**: end_refuted |
| C74 | **R3+FA**: idempotent, integer_part |
| C75 | **R2**: affine, cubic, cubic_iff, points, polynomial, straight; **F**: clamped_line_refuted; **R3**: minimum |
| C76 | **R2**: akima, akima_iff, points, quadratic, straight, two_points, two_points_refuted; **R1**: between |
| C77 | **R2**: affine, csaps_iff, default, straight; **R3**: balance, csaps, line, monotone, natural |
| C78 | **R3**: angle; **none**: call, construct, exact_agrees, few_points, grid_error, intersect, intersect_agrees, once, order, quiet_iff, read_result, reads, segment_ts; **F**: collinear_warns_refuted, exact_float_refuted; **R2**: count_quiet, exact_quiet, extrapolated_quiet, frenet1_iff, grid_iff, interpolation, intersect_exact_quiet, line_warns, plane_warns, regular_quiet; **R1**: segment_t, segment_t_quiet |
| C79 | **none**: chain, chain_mixed, dimensions, history, kind, kind_only, line, multicolor_fails, multicolor_works, normals_few, too_many_dimensions; **R2**: last_value_unused, multicolor, normals, normals_3d |
| C80 | **R2**: affine, collinear_refuted, coplanar, inner, isplane, lengths, plane_curvature, scalars, segment_point, vector_linear, vectors; **R3**: almost, segments |
| C81 | **R2**: affine, csaps, cubic, grid, hermite_moved, isometry_affine, linear, moved, pchip_axes, pchip_rotation_refuted |
| C82 | **R2**: average, bool, closed, iff, points, start, values, wrap; **F**: last_refuted; **R3**: minimum |
| C83 | **R2**: chordlen, t; **none**: chordlen_any, chordlen_negative_refuted, copy, copy_index_refuted, segment, segments, subcurve, subcurve_errors, subcurve_last_refuted; **R3+FA**: chordlen_float |
| C84 | **R3+FA**: almost, almost_segments, distance, lengths, rescale; **FA**: exact; **F**: limits |
| C85 | **R1**: boxes, collinear; **R2**: curves, curves_refuted, distance, distance_refuted, dot, exact, exact_refuted, reverse_exact_refuted; **FA**: parallel_float; **R3**: predicates, reverse |
| C86 | **R2**: affine, average, fit, identity, interior, linear, modes, polynomial, reverse; **none**: convex_refuted, parameter_refuted; **R1**: errors, negative, parity, zero |
| C87 | **R3**: average, cubic, linear, one_piece, points, polynomial, spline, weights; **R2**: negative, raise, smoothing_iff, spline_iff |
| C88 | **R2**: empty_window, errors, flattop_refuted, number_name, reverse, small_sizes, symmetric, total, values; **R1**: half_step; **R3**: hull, identity, shape, sign, total_zero |
| C89 | **R1**: collinear, coplanar, coplanar_order_refuted, empty, monotone, negative, one_point, rank, segment_point; **R3**: collinear_exact, coplanar_exact, distant_refuted, isplane, move, oracle, same_points, scale, segment_exact, segment_zero, svd, turn, zero; **R2**: near_line, near_plane |
| C90 | **none**: aligned, break, curve_point, curve_point_injective, curve_segment, decimal, empty, injective, intersection, lines, lines_long, long, long_refuted, parameters_hidden, point, point_injective, segment, segment_injective, short, table, wide |
| C91 | **R2**: crossing_refuted, curves, distance, missed, nonparallel, shared, subset; **R1**: tolerance |
| C92 | **R3+FA**: almost_exact, arclen, arclen_refuted, chord, compare, exact, length, nonsingular, safe; **R2+F**: almost_refuted; **F**: reverse, singular_refuted, translate; **R1+FA**: truncate |
| C93 | **R3+FA**: error, inner_refuted, overflow_refuted, piece, rescale, rescale_unit, segment; **F**: rescale_refuted |
| C94 | **R3+FA**: arclen, chord, nonsingular, right, safe, short; **F**: narrow_refuted, nonsingular_empty, symmetries |
| C95 | **R3**: collinear, curves, curves_exact, exact, keeps, near_both_segments, overlap, plane, point, total; **R2**: crossing_refuted |
| C96 | **F**: corner_refuted, extrapolation_refuted, parametric_refuted; **R2**: no_longer, refine, same_length, speed, uniform |
| C97 | **F**: asymmetric_refuted, constant_refuted, mirror_refuted, negative_refuted, wrap_refuted; **R2**: bound, no_longer, steps, symmetric; **R3**: named |
| C98 | **R3+FA**: binary64, cumulative, double, double_zero, narrow, narrow_length, narrow_refuted, overflow_refuted, round_trip, underflow_refuted, widen; **R3**: distance_error, length_error, lengths, model, reverse, rising; **R3+F**: double_copy, nonsingular, rising_refuted |
| C99 | **none**: failures, fitpack, fitpack_call, hermite, kinds, periodic_kinds, spline_kinds, success; **R2**: periodic, splines |
| C100 | **R3**: derivatives, inner, length, linear, plane_curvature, space_curvature, space_fine_refuted; **R2**: third_ends |
| C101 | **R3**: akima, clamped, cubic, fourth, natural, not_a_knot, pchip; **F**: clamped_line_refuted |
| C102 | **R3**: csaps, hermite, hermite_unit, periodic, periodic_fourth, spline_cubic, spline_linear; **F**: hermite_line_refuted |
| C103 | **R3**: almost, exact, exact_apart, graphs, polygon |
| C104 | **R3**: savgol, savgol_derivative, savgol_even, window, window_inside; **R1**: window_exact |
| C105 | **R3**: fine_refuted, torsion; **R2**: space |
| C106 | **R3+FA**: error, exact, fine_refuted, inner, quadratic, reverse, reverse_refuted, sampled |
| C107 | **R3+FA**: error, integer, sign, speed; **R2+FA**: large_refuted |
| C108 | **R3+FA**: line, slow, unit; **F**: line_refuted |
| C109 | **F**: arclen_refuted, global_refuted, window_refuted; **none**: hermite, linear, pchip |
| C110 | **none**: cumarclen, point; **F**: cumarclen_refuted, ends_refuted, steps_refuted |
| C111 | **F**: interp_refuted, window_refuted; **none**: savgol, window |
| C112 | **F**: arclen_refuted, mixed_refuted; **none**: cubic, derivatives, linear, pchip, savgol, spline, window |
| C113 | **F**: modes_refuted; **none**: savgol, window |
| C114 | **none**: value |
