{"id": "C01", "title": "Concatenation applies matrices left to right", "statement": "If applying Transform(m1), then Transform(m2), ..., then Transform(mk) to a point one after the other succeeds, then Transform(m1,...,mk).applyToPoint on the same point succeeds and returns the same point.", "quantifier": "every k>=1, every list of 3x3 matrices (perspective included), every point", "why_tests_cant": "ranges over all matrices, all chain lengths and all points; a unit test fixes one chain", "anchors": ["PathLib/Transform.py:Transform.__init__", "PathLib/Transform.py:concatenateMatrices", "PathLib/Transform.py:multiplyMatrixByMatrix", "PathLib/Transform.py:applyToPoint"]}
{"id": "C02", "title": "Concatenation may be regrouped", "statement": "Transform(m1,...,mi,...,mk).transform equals Transform(Transform(m1..mi).transform, Transform(mi+1..mk).transform).transform: the grouping of a chain does not matter; Transform() with no matrices raises IndexError.", "quantifier": "every split of every non-empty chain of 3x3 matrices", "why_tests_cant": "associativity over all matrices and chain lengths", "anchors": ["PathLib/Transform.py:concatenateMatrices", "PathLib/Transform.py:multiplyMatrixByMatrix"]}
{"id": "C03", "title": "translate moves every point by the same vector", "statement": "Transform.translate(a, b).applyToPoint(p) = p + (b - a) for every p, never raises, sends a to b, and Transform.translate(b, a) undoes it.", "quantifier": "all points a, b, p", "why_tests_cant": "universally quantified over the plane", "anchors": ["PathLib/Transform.py:translate", "PathLib/Transform.py:_translateMatrix", "PathLib/Transform.py:applyToPoint"]}
{"id": "C04", "title": "scale, shear and mirrors do what they say and mirrors are involutions", "statement": "scale multiplies the coordinates by sx, sy; shear adds sx*y and sy*x; mirror negates y for xAxis and x for yAxis; mirrorAround(c) reflects across the lines through c parallel to the axes, fixes c, and applying it twice gives back every point. None of them raises.", "quantifier": "all factors, flags, centers and points", "why_tests_cant": "holds for a continuum of parameters", "anchors": ["PathLib/Transform.py:scale", "PathLib/Transform.py:shear", "PathLib/Transform.py:mirror", "PathLib/Transform.py:mirrorAround"]}
{"id": "C05", "title": "Rotation about a point keeps the centre fixed and distances (up to the 15-digit rounding of sin/cos)", "statement": "rotationAbout(c, deg, ccw) maps c to c; squared distances between any two points are preserved within a relative error of 4e-15; for multiples of 90 degrees it is exactly the quarter-turn; cw is the inverse of ccw up to the same relative error (exactly when sin and cos are exact). ccw=True is counter-clockwise.", "quantifier": "all centres, angles, directions and pairs of points", "why_tests_cant": "the error bound must hold for every angle and every pair of points", "anchors": ["PathLib/Transform.py:rotationAbout", "PathLib/Transform.py:_rotationMatrix", "PathLib/Transform.py:sin", "PathLib/Transform.py:cos", "PathLib/PathUtilities.py:rotatePointAbout"]}
{"id": "C06", "title": "applyToSegment/Contour/Contours are pointwise and shape preserving", "statement": "The result has the same nesting and lengths as the input and each point is applyToPoint of the corresponding input point; the call raises iff applyToPoint raises on one of the points, with that exception. Equal input points give equal output points, so connected contours stay connected.", "quantifier": "all transforms, all nested lists of points", "why_tests_cant": "ranges over all list shapes", "anchors": ["PathLib/Transform.py:applyToSegment", "PathLib/Transform.py:applyToContour", "PathLib/Transform.py:applyToContours", "PathLib/PathUtilities.py:rotateContoursAbout"]}
{"id": "C07", "title": "Affine transforms commute with curve evaluation", "statement": "For a transform whose matrix is affine (last column 0,0,1), transforming the control points and then evaluating the curve at t gives the same point as evaluating at t and transforming the result.", "quantifier": "all affine transforms, all control polygons of any order, all t", "why_tests_cant": "holds for every curve, order, parameter and transform", "anchors": ["PathLib/Transform.py:applyToSegment", "PathLib/Bezier.py:Bezier.get"]}
{"id": "C08", "title": "Projective behaviour: exact failure set and collinearity", "statement": "applyToPoint raises ZeroDivisionError exactly for the points whose third homogeneous coordinate is zero, and otherwise succeeds; collinear points that are mapped stay collinear; perspectiveFrom(c, p, q) fixes c.", "quantifier": "all 3x3 matrices, all points and triples of points", "why_tests_cant": "the failure set is a whole line; collinearity is universal", "anchors": ["PathLib/Transform.py:applyToPoint", "PathLib/Transform.py:perspective", "PathLib/Transform.py:perspectiveFrom"]}
{"id": "C09", "title": "A bounds rectangle encloses every point it was built from", "statement": "For r = BoundsRectangle(*points), r.enclosesPoint(p) is True for every p in points; also left<=32768, bottom<=32768, right>=-32768, top>=-32768 always hold.", "quantifier": "all finite lists of points, coordinates from any totally ordered number type (ints, non-NaN floats, reals)", "why_tests_cant": "lists of arbitrary length and coordinates of arbitrary size", "anchors": ["PathLib/PathUtilities.py:BoundsRectangle.__init__", "PathLib/PathUtilities.py:enclosesPoint"]}
{"id": "C10", "title": "A bounds rectangle is the tightest one", "statement": "For a non-empty list of points, every rectangle that encloses all the points encloses BoundsRectangle(*points); equivalently its edges are attained by points.", "quantifier": "all non-empty lists of points", "why_tests_cant": "needs all lists and all competing rectangles; fails only outside +-32768, where tests never look", "anchors": ["PathLib/PathUtilities.py:BoundsRectangle.__init__"]}
{"id": "C11", "title": "union is the least upper bound", "statement": "a.union(b) encloses everything a and b enclose, and every rectangle enclosing the corner points of both encloses it; union is commutative, associative and idempotent and the empty rectangle BoundsRectangle() is its identity.", "quantifier": "all pairs/triples of rectangles obtainable from the constructor", "why_tests_cant": "lattice laws over all rectangles, including the empty one", "anchors": ["PathLib/PathUtilities.py:union", "PathLib/PathUtilities.py:BoundsRectangle.__init__"]}
{"id": "C12", "title": "Contour and outline bounds enclose all points and are tight", "statement": "BoundsRectangle.fromContour / fromCoutours enclose every point of every segment and are the tightest such rectangle.", "quantifier": "all contours and lists of contours, empty ones included", "why_tests_cant": "arbitrary nesting and empty sub-lists", "anchors": ["PathLib/PathUtilities.py:fromContour", "PathLib/PathUtilities.py:fromCoutours"]}
{"id": "C13", "title": "intersection is the set intersection", "statement": "a.intersection(b) is None exactly when no point is enclosed by both, otherwise it encloses exactly the points enclosed by both.", "quantifier": "all pairs of rectangles obtainable from the constructor, all points", "why_tests_cant": "an equivalence over all points of the plane", "anchors": ["PathLib/PathUtilities.py:intersection", "PathLib/PathUtilities.py:enclosesPoint"]}
{"id": "C14", "title": "relationTo classifies rectangles correctly", "statement": "relationTo returns Encloses / Enclosed / Intersects / Separate exactly when, as point sets, other is inside self / self is strictly inside other / they overlap without inclusion / they are disjoint; a.relationTo(b) and b.relationTo(a) are consistent.", "quantifier": "all pairs of non-empty rectangles", "why_tests_cant": "a classification of all pairs", "anchors": ["PathLib/PathUtilities.py:relationTo", "PathLib/PathUtilities.py:encloses"]}
{"id": "C15", "title": "Rectangle geometry is self-consistent", "statement": "fromContour(r.contour) is r; r.contour is a closed connected 4-segment contour; centerPoint is enclosed; xFromLeft(p)/yFromBottom(p) stay inside for 0<=p<=1 and hit the edges at 0 and 1; area = width*height >= 0.", "quantifier": "all non-empty rectangles within +-32768, all percentages", "why_tests_cant": "universal over rectangles", "anchors": ["PathLib/PathUtilities.py:contour", "PathLib/PathUtilities.py:centerPoint", "PathLib/PathUtilities.py:xFromLeft", "PathLib/PathUtilities.py:yFromBottom", "PathLib/PathUtilities.py:area"]}
{"id": "C16", "title": "Lines are classified exactly", "statement": "For a two-point segment with distinct ends exactly one of isVerticalLine, isHorizontalLine, isDiagonalLine holds; for any other length none holds; slope is math.inf exactly for zero dx, and reversing a line does not change its slope.", "quantifier": "all segments", "why_tests_cant": "trichotomy over all segments", "anchors": ["PathLib/PathUtilities.py:isVerticalLine", "PathLib/PathUtilities.py:isHorizontalLine", "PathLib/PathUtilities.py:isDiagonalLine", "PathLib/PathUtilities.py:slope"]}
{"id": "C17", "title": "intersectionPoint finds exactly the crossing of two line segments", "statement": "If intersectionPoint(l1,l2) returns p then p is on both closed line segments; if the lines are not parallel and the closed segments share a point, that point is returned; for parallel lines it returns None.", "quantifier": "all pairs of two-point lines", "why_tests_cant": "an iff over all pairs of segments; breaks only when coordinates exceed 32768", "anchors": ["PathLib/PathUtilities.py:intersectionPoint", "PathLib/BezierUtilities.py:lli8"]}
{"id": "C18", "title": "pointOnLine decides membership of a closed line segment", "statement": "pointOnLine(p, [a,b]) is True exactly when p lies on the closed segment from a to b.", "quantifier": "all points and lines", "why_tests_cant": "an iff over all points; the failing case (p equal to the start) is one point per line", "anchors": ["PathLib/PathUtilities.py:pointOnLine", "PathLib/PathUtilities.py:slope"]}
{"id": "C19", "title": "midpoint, length and deltas", "statement": "midpoint(l) is on the segment and equidistant from both ends; length is symmetric, non-negative, zero iff the ends coincide, invariant under translation and satisfies the triangle inequality; slopeAngle is in [0,90].", "quantifier": "all lines", "why_tests_cant": "universal", "anchors": ["PathLib/PathUtilities.py:midpoint", "PathLib/PathUtilities.py:length", "PathLib/PathUtilities.py:slopeAngle"]}
{"id": "C20", "title": "Every contour produced by a SegmentPen is non-empty, connected and closed", "statement": "After any sequence of pen calls (including ones that raised and were caught by the caller), each contour in pen.contours is non-empty, each of its segments starts where the previous one ends, and the last one ends where the first one starts.", "quantifier": "all finite sequences of moveTo/lineTo/curveTo/qCurveTo/closePath/addComponent calls with any arguments, all glyph sets", "why_tests_cant": "all histories of calls", "anchors": ["PathLib/SegmentPen.py:SegmentPen"]}
{"id": "C21", "title": "qCurveTo expands TrueType quadratics into the right segments", "statement": "qCurveTo with off-curve points c1..ck (k>=2) and end point e from current point s appends k segments [s,c1,m1],[m1,c2,m2],...,[m(k-1),ck,e] with mi the midpoint of ci and c(i+1); with k<=1 it appends the single segment [s, ...points]; the current point becomes e.", "quantifier": "all current points and all argument lists", "why_tests_cant": "argument lists of any length", "anchors": ["PathLib/SegmentPen.py:qCurveTo"]}
{"id": "C22", "title": "addComponent contributes exactly the transformed component outline", "statement": "addComponent(name, (xx,xy,yx,yy,dx,dy)) appends, after the existing contours, the contours the component glyph draws on a fresh pen, each point (x,y) replaced by (xx*x+yx*y+dx, xy*x+yy*y+dy), leaves the pen's pending contour and current point alone, and raises KeyError for unknown glyphs; nested components compose their transforms.", "quantifier": "all glyph sets with any nesting depth, all transformations", "why_tests_cant": "recursion over arbitrary glyph sets", "anchors": ["PathLib/SegmentPen.py:addComponent"]}
{"id": "C23", "title": "The pen records exactly what was drawn", "statement": "For a well-formed drawing (moveTo, then drawing calls, then closePath, repeated) pen.contours is the list of sub-paths with zero-length lineTo's removed and a closing line added iff the last point differs from the first; sub-paths with no segment are omitted; order is preserved.", "quantifier": "all well-formed drawings", "why_tests_cant": "refinement over all drawings", "anchors": ["PathLib/SegmentPen.py:moveTo", "PathLib/SegmentPen.py:lineTo", "PathLib/SegmentPen.py:curveTo", "PathLib/SegmentPen.py:closePath"]}
{"id": "C24", "title": "matrixInvert is sound", "statement": "If matrixInvert(M) returns a matrix I (not None) for an n x n matrix M then M*I and I*M are the identity.", "quantifier": "all n, all n x n matrices", "why_tests_cant": "all sizes and entries, all pivoting paths", "anchors": ["PathLib/MatrixInversion.py:matrixInvert"]}
{"id": "C25", "title": "matrixInvert is complete", "statement": "For a square M, matrixInvert(M) returns None only if M is singular (some non-zero vector v has M*v = 0); every matrix that has a left or right inverse is inverted.", "quantifier": "all n>=1, all n x n matrices", "why_tests_cant": "no finite set of matrices shows that pivoting never gives up early", "anchors": ["PathLib/MatrixInversion.py:matrixInvert"]}
{"id": "C26", "title": "matrixInvert shape behaviour", "statement": "matrixInvert returns None when len(M) != len(M[0]), raises IndexError on [] or when a row is shorter than the first, never mutates its argument, and otherwise returns an n x n matrix or None.", "quantifier": "all lists of rows, ragged included", "why_tests_cant": "all shapes", "anchors": ["PathLib/MatrixInversion.py:matrixInvert"]}
{"id": "C27", "title": "binomial is Pascal's triangle whatever was asked before", "statement": "binomial(n,k) = n!/(k!(n-k)!) for 0<=k<=n after any history of previous calls; k>n raises IndexError for n>=1; the shared table only ever grows and stays a Pascal triangle.", "quantifier": "all histories of calls, all n and k", "why_tests_cant": "depends on a growing global table: all histories", "anchors": ["PathLib/CurveFitting.py:binomial", "PathLib/CurveFitting.py:binomialCoefficients"]}
{"id": "C28", "title": "basisMatrix(n) is the Bernstein basis matrix", "statement": "basisMatrix(n) is n x n lower triangular with [1,t,...,t^(n-1)] * basisMatrix(n) = the row of Bernstein polynomials of degree n-1 at t.", "quantifier": "all n, all t", "why_tests_cant": "all sizes", "anchors": ["PathLib/CurveFitting.py:basisMatrix"]}
{"id": "C29", "title": "multiply and transpose obey matrix algebra", "statement": "multiply computes row-by-column products, is associative and has the identity as unit; transpose swaps indices, is an involution and reverses products; shapes are as expected and mismatched or empty arguments raise IndexError.", "quantifier": "all rectangular matrices of compatible shape", "why_tests_cant": "all shapes and entries", "anchors": ["PathLib/CurveFitting.py:multiply", "PathLib/CurveFitting.py:transpose"]}
{"id": "C30", "title": "computeTimeValues is a normalised monotone parameterisation", "statement": "For at least two points that do not all coincide, the values start at 0, end at 1, are non-decreasing, and strictly increase between distinct consecutive points; the uniform variant gives i/(n-1); if all points coincide (or there is just one) ZeroDivisionError is raised.", "quantifier": "all point lists", "why_tests_cant": "all list lengths and geometries", "anchors": ["PathLib/CurveFitting.py:computeTimeValues"]}
{"id": "C31", "title": "fit interpolates the given points", "statement": "If fit(points) succeeds, then the Bezier curve of degree n-1 whose control points are the returned coordinate columns passes through points[i] at parameter s[i] for every i; it succeeds whenever n>=2 and consecutive points are distinct.", "quantifier": "all lists of points", "why_tests_cant": "all sizes and geometries", "anchors": ["PathLib/CurveFitting.py:fit", "PathLib/CurveFitting.py:bestFit", "PathLib/CurveFitting.py:formTMatrix"]}
{"id": "C32", "title": "lli intersects infinite lines", "statement": "lli4(p1,p2,p3,p4) returns None exactly when the directions are parallel (cross product zero), otherwise the unique point on both infinite lines.", "quantifier": "all quadruples of points", "why_tests_cant": "iff over all quadruples", "anchors": ["PathLib/BezierUtilities.py:lli8", "PathLib/BezierUtilities.py:lli4", "PathLib/BezierUtilities.py:lli"]}
{"id": "C33", "title": "droots finds exactly the real roots", "statement": "For [a,b,c] (resp. [a,b]) that is not identically zero the non-NaN values returned by droots are exactly the real roots of the quadratic (linear) Bernstein polynomial with those coefficients; other lengths give [].", "quantifier": "all coefficient lists", "why_tests_cant": "an iff over all coefficients", "anchors": ["PathLib/BezierUtilities.py:droots", "PathLib/BezierUtilities.py:sqrt"]}
{"id": "C34", "title": "crt is the real cube root", "statement": "crt(v)**3 = v, crt is odd, monotone, and has the sign of v.", "quantifier": "all real v", "why_tests_cant": "universal", "anchors": ["PathLib/BezierUtilities.py:crt"]}
{"id": "C35", "title": "removeDuplicates keeps first occurrences", "statement": "The result has no duplicates, contains exactly the values of the input, in order of first occurrence; applying it twice changes nothing.", "quantifier": "all lists over a type with decidable equality", "why_tests_cant": "all lists", "anchors": ["PathLib/BezierUtilities.py:removeDuplicates"]}
{"id": "C36", "title": "lerp and map are the affine interpolations", "statement": "lerp(0,a,b)=a, lerp(1,a,b)=b, and lerp(r,a,b) is the affine combination; map(v,ds,de,ts,te) sends ds to ts, de to te, is inverted by swapping the ranges, and raises ZeroDivisionError iff ds=de.", "quantifier": "all parameters", "why_tests_cant": "universal", "anchors": ["PathLib/BezierUtilities.py:lerp", "PathLib/BezierUtilities.py:map"]}
{"id": "C37", "title": "get evaluates the Bernstein form for every order", "statement": "For control points p0..pn (n>=1) get(t) = sum_i C(n,i) (1-t)^(n-i) t^i p_i, for every real t.", "quantifier": "all orders n>=1, all control points, all t", "why_tests_cant": "all orders (closed forms for n<=3, de Casteljau above) and a continuum of t", "anchors": ["PathLib/Bezier.py:Bezier._compute", "PathLib/Bezier.py:Bezier.get"]}
{"id": "C38", "title": "Curves interpolate their end points exactly", "statement": "get(0) is the first control point and get(1) the last one, with no arithmetic involved (so also in floating point); start and end agree with them.", "quantifier": "all curves, any number type", "why_tests_cant": "universal, including floats", "anchors": ["PathLib/Bezier.py:Bezier._compute", "PathLib/Bezier.py:Bezier.start", "PathLib/Bezier.py:Bezier.end"]}
{"id": "C39", "title": "split(t) cuts a curve without changing it", "statement": "For quadratic and cubic curves split(t) returns (left, right, hull) with left.get(s) = get(t*s) and right.get(s) = get(t+(1-t)*s); the pieces meet exactly and keep the original end points.", "quantifier": "all quadratic and cubic curves, all t and s", "why_tests_cant": "continuum of t and s", "anchors": ["PathLib/Bezier.py:Bezier.split", "PathLib/Bezier.py:Bezier.hull"]}
{"id": "C40", "title": "split(t1,t2) extracts a sub-curve", "statement": "For quadratic and cubic curves and t1 <> 1, t2 <> 0, split(t1,t2).get(s) = get(t1+s*(t2-t1)).", "quantifier": "all curves, t1, t2, s in the domain", "why_tests_cant": "continuum of parameters with three shortcut branches", "anchors": ["PathLib/Bezier.py:Bezier.split"]}
{"id": "C41", "title": "Recorded parameter intervals are right after any history of splits", "statement": "For every curve obtained from an original curve by any sequence of split calls, its recorded interval (_t1,_t2), which is what intersection results are computed from, satisfies child.get(s) = original.get(_t1 + s*(_t2-_t1)).", "quantifier": "all quadratic/cubic curves, all finite sequences of splits", "why_tests_cant": "all histories", "anchors": ["PathLib/Bezier.py:Bezier.split", "PathLib/BezierUtilities.py:map"]}
{"id": "C42", "title": "The bounding box encloses the curve", "statement": "For curves of order 1, 2 and 3, bbox and boundsRectangle contain get(t) for every t in [0,1].", "quantifier": "all control points, all t in [0,1]", "why_tests_cant": "a continuum of points per curve", "anchors": ["PathLib/Bezier.py:Bezier.bbox", "PathLib/Bezier.py:Bezier.extrema", "PathLib/Bezier.py:Bezier._getminmax", "PathLib/Bezier.py:Bezier.boundsRectangle"]}
{"id": "C43", "title": "The bounding box is tight", "statement": "For curves of order 1, 2, 3 with coordinates within the safe range every side of bbox/boundsRectangle is attained by some get(t), t in [0,1].", "quantifier": "all control points", "why_tests_cant": "existential over a continuum for every curve", "anchors": ["PathLib/Bezier.py:Bezier.bbox", "PathLib/Bezier.py:Bezier._getminmax", "PathLib/Bezier.py:Bezier.boundsRectangle"]}
{"id": "C44", "title": "hull(t) is the de Casteljau triangle", "statement": "hull(t) has (n+1)(n+2)/2 points, starts with the control points, each later point is the lerp of two of the previous level, and its last point is get(t).", "quantifier": "all orders, all t", "why_tests_cant": "all orders", "anchors": ["PathLib/Bezier.py:Bezier.hull"]}
{"id": "C45", "title": "The curve stays inside the box of its control points", "statement": "For 0<=t<=1, get(t) is within the min/max of the control point coordinates (and so inside skeletonBounds), for every order; skeletonBounds is exactly the box of the control points with 40 more units on the right, for control points within +-32768.", "quantifier": "all orders, all control points, all t in [0,1]", "why_tests_cant": "continuum", "anchors": ["PathLib/Bezier.py:Bezier.get", "PathLib/Bezier.py:Bezier.skeletonBounds"]}
{"id": "C46", "title": "dcPoints / derivative are the real derivative", "statement": "dcPoints[k] are the control points of the (k+1)-st derivative of the curve for every order; for order 2 and 3 the derivative used by normal, length and offset is the derivative of get.", "quantifier": "all curves, all t", "why_tests_cant": "calculus fact over a continuum", "anchors": ["PathLib/Bezier.py:Bezier.dcPoints", "PathLib/Bezier.py:Bezier._derivative"]}
{"id": "C47", "title": "direction is truthful", "statement": "If direction is dir_up (dir_down) the curve's y coordinate never decreases (never increases) over [0,1]; dir_flat means it is constant; for order 1 the converse holds.", "quantifier": "all curves of order 1..3", "why_tests_cant": "monotonicity over a continuum", "anchors": ["PathLib/Bezier.py:Bezier._computeDirection"]}
{"id": "C48", "title": "Quadratic roots are exact", "statement": "For a quadratic curve whose y coordinate is not identically zero, roots() returns, within [0,1], exactly the parameters where the curve crosses y=0; with a line argument exactly those where it meets the line (with exact trigonometry).", "quantifier": "all quadratic curves, all lines with distinct ends", "why_tests_cant": "iff over all curves", "anchors": ["PathLib/Bezier.py:Bezier.roots"]}
{"id": "C49", "title": "Cubic roots are sound and complete outside the epsilon bands", "statement": "For a cubic whose leading coefficients and discriminant are exactly zero or larger than the 1e-6 tolerance, roots() returns within [0,1] exactly the parameters where y=0.", "quantifier": "all such cubic curves", "why_tests_cant": "three analytic branches over a continuum; a test hits only sample polynomials", "anchors": ["PathLib/Bezier.py:Bezier.roots", "PathLib/BezierUtilities.py:approximately", "PathLib/BezierUtilities.py:crt"]}
{"id": "C50", "title": "Line intersections lie on the line", "statement": "Each t returned by lineIntersects((p1,p2)) is a parameter with get(t) on the infinite line through p1,p2 and within 1e-6 of the segment's box, and every crossing of a quadratic curve with the closed segment is returned.", "quantifier": "all quadratic curves and lines with distinct ends", "why_tests_cant": "iff over all curves and lines", "anchors": ["PathLib/Bezier.py:Bezier.lineIntersects", "PathLib/BezierUtilities.py:between"]}
{"id": "C51", "title": "Curve intersection terminates", "statement": "For quadratic/cubic curves with coordinates within +-32768 and positive threshold pairiteration terminates, with recursion depth logarithmic in (curve size / threshold).", "quantifier": "all pairs of curves in range, all positive thresholds", "why_tests_cant": "termination over all inputs", "anchors": ["PathLib/Bezier.py:Bezier.pairiteration"]}
{"id": "C52", "title": "Reported curve intersections are real up to the threshold", "statement": "Each pair (t,s) returned by curveIntersects on lists of quadratic/cubic curves is such that the points of the two curves at t and s are within 2*threshold of each other in each coordinate.", "quantifier": "all curves, all positive thresholds", "why_tests_cant": "soundness over all inputs", "anchors": ["PathLib/Bezier.py:Bezier.pairiteration", "PathLib/Bezier.py:Bezier.curveIntersects"]}
{"id": "C53", "title": "No intersection is missed", "statement": "If curve l of the first list at parameter u and curve r of the second list at parameter v meet (0<=u,v<=1), the result contains a pair (t,s) that comes from sub-curves of l and r containing u and v, so both points are within the threshold of the crossing.", "quantifier": "all curves, all thresholds, all crossings", "why_tests_cant": "completeness over all inputs", "anchors": ["PathLib/Bezier.py:Bezier.pairiteration", "PathLib/Bezier.py:Bezier.curveIntersects", "PathLib/Bezier.py:Bezier.overlaps"]}
{"id": "C54", "title": "reduce() tiles the curve", "statement": "When reduce() returns a non-empty list, the segments cover the curve end to end: the recorded intervals start at 0, end at 1, each begins where the previous one ended, and each segment is the restriction of the curve to its interval; it always terminates.", "quantifier": "all quadratic/cubic curves", "why_tests_cant": "nested data dependent loops over all curves", "anchors": ["PathLib/Bezier.py:Bezier.reduce"]}
{"id": "C55", "title": "reduce() returns only simple segments", "statement": "Each segment returned by reduce() satisfies simple().", "quantifier": "all quadratic/cubic curves", "why_tests_cant": "loop invariant over all curves", "anchors": ["PathLib/Bezier.py:Bezier.reduce", "PathLib/Bezier.py:Bezier.simple"]}
{"id": "C56", "title": "raiseOrder preserves the curve and raises the order by one", "statement": "raiseOrder() returns a curve of order n+1 with the same points get(t) for every t.", "quantifier": "all curves, all t", "why_tests_cant": "universal over curves (a test of only the end points passes)", "anchors": ["PathLib/Bezier.py:Bezier.raiseOrder"]}
{"id": "C57", "title": "Normals are unit and perpendicular; offset is at the requested distance", "statement": "For order 2,3 where the derivative is non-zero normal(t) has length 1 and is perpendicular to the derivative, to its left; offset(t,d) with d<>0 returns [get(t), normal(t), q] with q at distance |d| from get(t) along the normal.", "quantifier": "all curves, t, d", "why_tests_cant": "universal", "anchors": ["PathLib/Bezier.py:Bezier.normal", "PathLib/Bezier.py:Bezier.offset"]}
{"id": "C58", "title": "getLUT samples uniformly", "statement": "For steps>=2 getLUT(steps) has exactly steps points, the i-th is get(i/(steps-1)), the first and last are the curve's end points, after any earlier getLUT calls; steps=1 raises ZeroDivisionError.", "quantifier": "all curves, all step counts, all call histories", "why_tests_cant": "all histories and counts", "anchors": ["PathLib/Bezier.py:Bezier.getLUT"]}
{"id": "C59", "title": "Cached properties do not depend on the order of queries", "statement": "For every history of property/method calls on a curve object, bbox, boundsRectangle, dcPoints, getLUT(steps), and reduce() return the value computed from the control points alone.", "quantifier": "all histories of method calls", "why_tests_cant": "all histories; caches are filled and mutated in place", "anchors": ["PathLib/Bezier.py:Bezier.bbox", "PathLib/Bezier.py:Bezier.extrema", "PathLib/Bezier.py:Bezier.dcPoints", "PathLib/Bezier.py:Bezier.getLUT", "PathLib/Bezier.py:Bezier.reduce"]}
{"id": "C60", "title": "extrema does not depend on the order of queries", "statement": "Reading extrema gives the same value whether or not bbox, boundsRectangle or reduce() were used before.", "quantifier": "all histories of method calls", "why_tests_cant": "order dependent", "anchors": ["PathLib/Bezier.py:Bezier.extrema", "PathLib/Bezier.py:Bezier._getminmax", "PathLib/Bezier.py:Bezier.reduce"]}
{"id": "C61", "title": "align puts the end points on the x axis isometrically", "statement": "align() maps the first control point to (0,0), the last one to (distance,0) and preserves distances (with exact trigonometry).", "quantifier": "all curves", "why_tests_cant": "universal", "anchors": ["PathLib/Bezier.py:Bezier._align", "PathLib/Bezier.py:Bezier.align", "PathLib/PathUtilities.py:rawSlopeAngle"]}
{"id": "C62", "title": "getABC satisfies the ABC identity", "statement": "For 0<t<1 and c not None, c is on the base line through start and end, b=get(t), and b-c = ratio*(a-b).", "quantifier": "all quadratic/cubic curves, all t in (0,1)", "why_tests_cant": "universal identity", "anchors": ["PathLib/Bezier.py:Bezier.getABC", "PathLib/BezierUtilities.py:quadraticRatio", "PathLib/BezierUtilities.py:cubicRatio"]}
{"id": "C63", "title": "length is a sane arc length", "statement": "For order 2,3 the Gauss-Legendre length (exact arithmetic on the decimal tables) is non-negative, translation invariant, scales linearly, is at most the control polygon length (up to 1e-36 relative) and equals the chord for uniformly parametrised straight lines (same tolerance); order 1 raises IndexError.", "quantifier": "all curves", "why_tests_cant": "universal", "anchors": ["PathLib/Bezier.py:Bezier.length", "PathLib/Bezier.py:Bezier._arcfun", "PathLib/BezierUtilities.py:tValues", "PathLib/BezierUtilities.py:cValues"]}
{"id": "C64", "title": "length leaves the decimal precision as it found it", "statement": "After accessing length, whether it returns or raises, the thread's decimal context precision is what it was before.", "quantifier": "all curves, all histories of accesses", "why_tests_cant": "needs all error paths and histories", "anchors": ["PathLib/Bezier.py:Bezier.length"]}
{"id": "C65", "title": "Contour bounds enclose all curves", "statement": "A freshly built BContour/BOutline of curves of order <= 3 has a boundsRectangle that encloses every point of every curve, and start/end are those of the first/last curve.", "quantifier": "all contours and outlines", "why_tests_cant": "continuum", "anchors": ["PathLib/Bezier.py:BContour.__init__", "PathLib/Bezier.py:BOutline.__init__"]}
{"id": "C66", "title": "BContour.getLUT is independent of history", "statement": "getLUT(steps) on a contour of k curves returns k*(steps-1)+1 points, the concatenation of the curves' LUTs with duplicate joints removed, regardless of earlier getLUT calls.", "quantifier": "all contours, all histories of calls", "why_tests_cant": "history dependent cache", "anchors": ["PathLib/Bezier.py:BContour.getLUT"]}
{"id": "C67", "title": "Editing a contour is reflected by its queries", "statement": "After contour[i] = points or del contour[i], start, end, boundsRectangle and getLUT are those of a contour built afresh from the current curves.", "quantifier": "all histories of edits and queries", "why_tests_cant": "history dependent", "anchors": ["PathLib/Bezier.py:BContour.__setitem__", "PathLib/Bezier.py:BContour.__delitem__"]}
{"id": "C68", "title": "_findClosest returns the index of a nearest LUT point", "statement": "For a non-empty LUT with some point nearer than 2^53-1, the index returned is the first index minimising the distance; otherwise -1.", "quantifier": "all points and LUTs", "why_tests_cant": "all lists", "anchors": ["PathLib/Bezier.py:BContour._findClosest"]}
{"id": "C69", "title": "findClosestPoint returns a point of the contour and its distance, at least as near as the LUT", "statement": "findClosestPoint(point, steps) returns (d, q) with q on the contour, d the distance from point to q, and d no larger than the distance to the nearest LUT point.", "quantifier": "all contours, points and steps >= 2", "why_tests_cant": "iterative refinement over all inputs; failing cases are large step counts and end points", "anchors": ["PathLib/Bezier.py:BContour.findClosestPoint", "PathLib/Bezier.py:BContour._refineBinary"]}
{"id": "C70", "title": "The SVG path string round-trips", "statement": "Parsing BContour.d() with the SVG path grammar draws exactly the curves of a connected contour (segments of 2..4 points), omitting zero-length lines.", "quantifier": "all connected contours", "why_tests_cant": "all strings/contours; abbreviated commands depend on history", "anchors": ["PathLib/Bezier.py:BContour.d"]}
{"id": "C71", "title": "drawContours emits a path that draws the contours", "statement": "The path data appended by drawContours (and drawPaths), parsed with the SVG grammar, draws exactly the given contours, for poly True and False, regardless of earlier draw calls.", "quantifier": "all lists of connected contours, all plotter histories", "why_tests_cant": "history dependent command abbreviation", "anchors": ["PathLib/ContourPlotter.py:drawContours", "PathLib/ContourPlotter.py:drawPaths", "PathLib/ContourPlotter.py:getCommand"]}
{"id": "C72", "title": "Drawing calls restore the graphics state", "statement": "push/pop of stroke and fill attributes are LIFO and restore the saved attributes; drawContours, drawPaths, drawPointsAsSegments leave the fill and stroke attributes and stacks unchanged.", "quantifier": "all plotter states and call histories", "why_tests_cant": "stack discipline over all histories", "anchors": ["PathLib/ContourPlotter.py:pushStrokeAttributes", "PathLib/ContourPlotter.py:popStrokeAtributes", "PathLib/ContourPlotter.py:pushFillAttributes", "PathLib/ContourPlotter.py:popFillAttributes"]}
{"id": "C73", "title": "Filled drawing works", "statement": "drawContours(..., fill=True) and drawPaths(..., fill=True) append a filled path.", "quantifier": "all contours and states", "why_tests_cant": "no test covers it", "anchors": ["PathLib/ContourPlotter.py:drawContours", "PathLib/ContourPlotter.py:drawPaths", "PathLib/ContourPlotter.py:pushFillAttributes"]}
{"id": "C74", "title": "Colour names", "statement": "fromName is case-insensitive, returns None exactly for names that are not all letters, raises ValueError exactly for alphabetic names not in the table, and otherwise gives components in 0..255; gray/grey spellings agree.", "quantifier": "all ASCII strings", "why_tests_cant": "all strings", "anchors": ["PathLib/Color.py:Color._forKeyword", "PathLib/Color.py:Color.fromName"]}
{"id": "C75", "title": "randomHSLColor cycles through 360 hues", "statement": "From any integer hue, successive randomHSLColor calls visit every residue modulo 360 once before repeating, the hue stays in [0,360), and components are always in 64..191.", "quantifier": "all starting hues, all call counts", "why_tests_cant": "all histories", "anchors": ["PathLib/Color.py:Color.randomHSLColor", "PathLib/Color.py:Color.setCurrentHue"]}
{"id": "C76", "title": "intersects finds the crossings of two curves", "statement": "intersects(curve, threshold) on two quadratic/cubic curves returns parameter pairs (t,s) in [0,1] whose points are within 2*threshold of each other, and for every crossing a pair within the threshold of it.", "quantifier": "all pairs of curves, all thresholds, all crossings", "why_tests_cant": "composes reduce, the pairing of segments and the bisection for all curves", "anchors": ["PathLib/Bezier.py:Bezier.intersects", "PathLib/Bezier.py:Bezier.reduce", "PathLib/Bezier.py:Bezier.curveIntersects"]}
{"id": "C77", "title": "drawPointsAsSegments draws the polyline", "statement": "For a non-empty list of points drawPointsAsSegments appends one path whose data, parsed with the SVG grammar, draws the lines between consecutive points (none of zero length), for both values of poly and any earlier calls.", "quantifier": "all lists of points, all plotter states", "why_tests_cant": "history dependent pen and abbreviated commands", "anchors": ["PathLib/ContourPlotter.py:drawPointsAsSegments"]}
{"id": "C78", "title": "selfIntersects finds the self-crossings", "statement": "Whenever reduce returns segments, selfIntersects(threshold) terminates and returns parameter pairs whose points are close to each other, and for every crossing of the curve with itself at parameters t < s it returns a pair whose points lie within the threshold of the crossing point, although neighbouring segments are never compared.", "quantifier": "all quadratic/cubic curves that reduce, all thresholds, all self-crossings", "why_tests_cant": "composes reduce with the pairing of non-adjacent segments; needs that neighbouring simple segments cannot cross", "anchors": ["PathLib/Bezier.py:Bezier.selfIntersects", "PathLib/Bezier.py:Bezier.reduce"]}
{"id": "C79", "title": "drawHull draws the de Casteljau construction", "statement": "drawHull draws the skeleton polyline, a filled circle and a label for every control point, then one polyline per inner level of the de Casteljau triangle at t (with the line colour at half opacity if a line colour is given); it raises nothing and restores the stroke attributes and both attribute stacks.", "quantifier": "all curves of any order, all t, all plotter states", "why_tests_cant": "all orders and histories; the slices of the flat hull list must line up with the levels", "anchors": ["PathLib/ContourPlotter.py:drawHull", "PathLib/ContourPlotter.py:drawSkeleton"]}
{"id": "C80", "title": "tightbbox is a tight rectangle along the chord", "statement": "For curves of 2 to 4 control points tightbbox returns the four sides of a rectangle with sides parallel and perpendicular to the chord that contains the curve, every side of which the curve touches (up to the 15-digit rounding of sin and cos).", "quantifier": "all lines, quadratics and cubics", "why_tests_cant": "all curves, including closed ones whose chord has length 0", "anchors": ["PathLib/Bezier.py:Bezier.tightbbox"]}
{"id": "C81", "title": "scale by a number", "statement": "scale(d) of a quadratic or cubic moves the end points by d along the left unit normals there and every inner control point by d away from (or, if not clockwise, towards) the point where the end normals meet; it raises ValueError exactly when the end legs are parallel and ZeroDivisionError when a leg vanishes or an inner control point is that point.", "quantifier": "all quadratics and cubics, all distances", "why_tests_cant": "all curves, including degenerate ones", "anchors": ["PathLib/Bezier.py:Bezier.scale"]}
{"id": "C82", "title": "scale keeps the end tangents", "statement": "The curve returned by scale (number or function) leaves its ends along the lines of the end tangents of the original.", "quantifier": "all quadratics and cubics, all distances and distance functions", "why_tests_cant": "all curves", "anchors": ["PathLib/Bezier.py:Bezier.scale", "PathLib/Bezier.py:Bezier.raiseOrder"]}
{"id": "C83", "title": "Offset curves start and join at offset points", "statement": "offset(d) of a straight curve is the curve translated by d along its normal. Otherwise it has one piece per reduced segment, each of the order of the curve, starting at the point at distance d on the left of the curve, and ending there too unless the segment is straight, so that pieces that are not straight join exactly; a quadratic with non-parallel legs can always be offset.", "quantifier": "all quadratics and cubics, all distances", "why_tests_cant": "composes reduce and scale for all curves", "anchors": ["PathLib/Bezier.py:Bezier.offset", "PathLib/Bezier.py:Bezier.scale", "PathLib/Bezier.py:Bezier.reduce"]}
{"id": "C84", "title": "_linear and _clockwise", "statement": "_linear is true exactly when all control points are within 0.0001 of the line through the ends (of the horizontal through the start if the ends coincide); _clockwise is true exactly when the second control point is to the left of the chord, or on its line behind the start.", "quantifier": "all control point lists of length >= 2", "why_tests_cant": "all lists, with exact trigonometric functions for _linear", "anchors": ["PathLib/Bezier.py:Bezier.__init__", "PathLib/Bezier.py:Bezier._align"]}
{"id": "C85", "title": "simple and reduce do not raise on regular curves", "statement": "simple() and reduce() return for every quadratic or cubic whose derivative vanishes nowhere on [0,1].", "quantifier": "all regular curves", "why_tests_cant": "holds in exact arithmetic; rounding decides whether math.acos gets an argument above 1", "anchors": ["PathLib/Bezier.py:Bezier.simple", "PathLib/Bezier.py:Bezier.reduce"]}
{"id": "C86", "title": "bestFit minimises the squared error", "statement": "The control points bestFit returns give a curve whose summed squared distance to the data points, at the fitted time values, is at most that of any other Bezier curve of the same order; it is the only minimiser.", "quantifier": "all point lists and orders for which the normal matrix is regular, for both kinds of time values and any explicit n", "why_tests_cant": "optimality over a continuum of competing curves", "anchors": ["PathLib/CurveFitting.py:bestFit", "PathLib/CurveFitting.py:formTMatrix", "PathLib/CurveFitting.py:computeTimeValues"]}
{"id": "C87", "title": "moveAndRotate and rotateAndMove", "statement": "moveAndRotate(a,b,d) maps p to rot(d)(p+b-a) and rotateAndMove(a,b,d) maps p to rot(d)p+b-a; each with the points swapped and the angle negated is undone by the other, up to the 15-digit rounding of sin and cos.", "quantifier": "all points and angles", "why_tests_cant": "all real angles and points", "anchors": ["PathLib/Transform.py:Transform.moveAndRotate", "PathLib/Transform.py:Transform.rotateAndMove"]}
{"id": "C88", "title": "Rotation of points, segments and contours", "statement": "rotatePointAbout turns a point about a centre by the given angle (clockwise if ccw is false), keeps the centre and the distance to it, is undone by the opposite turn up to rounding; segments, contours and lists of contours are turned point by point.", "quantifier": "all points, centres, angles; contours of any length", "why_tests_cant": "all angles and lists", "anchors": ["PathLib/PathUtilities.py:rotatePointAbout", "PathLib/PathUtilities.py:rotateSegmentAbout", "PathLib/PathUtilities.py:rotateContourAbout", "PathLib/PathUtilities.py:rotateContoursAbout"]}
{"id": "C89", "title": "Slope and slope angle", "statement": "rawSlopeAngle is the direction of the chord in degrees in (-180,180]; slopeAngle is its angle with the vertical in [0,90]; slope is inf exactly for chords of zero width and otherwise the tangent of rawSlopeAngle.", "quantifier": "all segments of at least one point", "why_tests_cant": "all chord directions and the degenerate chords", "anchors": ["PathLib/PathUtilities.py:slope", "PathLib/PathUtilities.py:slopeAngle", "PathLib/PathUtilities.py:rawSlopeAngle"]}
{"id": "C90", "title": "angle is the signed angle between two legs", "statement": "angle(o,v1,v2) is in (-pi,pi], turning v1-o by it gives the direction of v2-o, it is 0 for degenerate legs and changes sign when the legs are swapped (except pi).", "quantifier": "all triples of points", "why_tests_cant": "all directions, including opposite and degenerate legs", "anchors": ["PathLib/BezierUtilities.py:angle"]}
{"id": "C91", "title": "overlaps is exact and conservative", "statement": "overlaps is symmetric, true whenever the two curves share a point, and (for coordinates within 32768) true exactly when the axis-aligned extents of the curves share a point.", "quantifier": "all pairs of curves of 2 to 4 control points", "why_tests_cant": "all pairs of curves", "anchors": ["PathLib/Bezier.py:Bezier.overlaps"]}
{"id": "C92", "title": "Small helpers", "statement": "unzipPoints splits into coordinate lists of the same length; flatten concatenates; minMax sorts two values; toMicros scales by 1000/unitsPerEM and raises ZeroDivisionError for 0; between is membership in the interval widened by 1e-6; pathFromSegments makes a contour with the given curves in order.", "quantifier": "all arguments", "why_tests_cant": "all arguments", "anchors": ["PathLib/Bezier.py:Bezier.unzipPoints", "PathLib/PathUtilities.py:flatten", "PathLib/PathUtilities.py:minMax", "PathLib/PathUtilities.py:toMicros", "PathLib/BezierUtilities.py:between", "PathLib/Bezier.py:Bezier.pathFromSegments"]}
{"id": "C93", "title": "Colour names follow CSS", "statement": "fromName returns a colour exactly for the 147 extended colour keywords of CSS Color 3, in any letter case, with the RGB values of the recommendation; other alphabetic names raise ValueError.", "quantifier": "all ASCII strings", "why_tests_cant": "all strings; the whole table against an independent one", "anchors": ["PathLib/Color.py:Color.fromName", "PathLib/Color.py:Color._keywords"]}
{"id": "C94", "title": "Generated colours have the right hue", "statement": "randomHSLColor steps the hue by 73 degrees and returns the nearest RGB colour of that hue at 50% saturation and lightness; hls_to_rgb agrees with the CSS conversion for every hue, lightness and saturation.", "quantifier": "all hues, lightnesses, saturations", "why_tests_cant": "a continuum of hues", "anchors": ["PathLib/Color.py:Color.randomHSLColor"]}
{"id": "C95", "title": "Tangent and normal", "statement": "_tangent is the unit vector in the direction of the derivative, _normal and normal are its left quarter turn, and ZeroDivisionError is raised exactly where the derivative vanishes.", "quantifier": "all quadratics and cubics, all t", "why_tests_cant": "all curves, with cusps", "anchors": ["PathLib/Bezier.py:Bezier._tangent", "PathLib/Bezier.py:Bezier._normal", "PathLib/Bezier.py:Bezier.normal"]}
{"id": "C96", "title": "crossesX and crossesY", "statement": "crossesX(x) is true exactly when the vertical line at x meets the rectangle, crossesY(y) likewise for the horizontal line.", "quantifier": "all rectangles and all comparable numbers (floats other than NaN included)", "why_tests_cant": "all rectangles including degenerate ones", "anchors": ["PathLib/PathUtilities.py:BoundsRectangle.crossesX", "PathLib/PathUtilities.py:BoundsRectangle.crossesY"]}
{"id": "C97", "title": "rotation and perspective", "statement": "rotation is the rotation about the origin; perspective(p,q,s) divides by p*x+q*y+s and raises ZeroDivisionError exactly on the line where that is zero; the identity matrix changes nothing.", "quantifier": "all angles, all coefficients, all points", "why_tests_cant": "the vanishing line is a set of measure zero", "anchors": ["PathLib/Transform.py:Transform.rotation", "PathLib/Transform.py:Transform.perspective", "PathLib/Transform.py:Transform._identityMatrix"]}
{"id": "C98", "title": "Drawing leaves the graphics attributes alone", "statement": "drawArrowBetweenPoints and drawSkeleton leave stroke, fill and label attributes of the client as they were.", "quantifier": "all plotter states and arguments", "why_tests_cant": "needs an attribute state other than the defaults", "anchors": ["PathLib/ContourPlotter.py:drawArrowBetweenPoints", "PathLib/ContourPlotter.py:drawSkeleton"]}
{"id": "C99", "title": "Text and circles at complex points", "statement": "drawText appends one label in the current label size and fill and changes nothing else; drawComplexPointsAsCircles never raises and draws what drawPointsAsCircles draws for the same points as pairs, which raises IndexError for no points.", "quantifier": "all plotter states and arguments", "why_tests_cant": "all states, empty lists included", "anchors": ["PathLib/ContourPlotter.py:drawText", "PathLib/ContourPlotter.py:drawComplexPointsAsCircles", "PathLib/ContourPlotter.py:drawPointsAsCircles"]}
{"id": "C100", "title": "Curves of order 1 and of order 4 or more", "statement": "For a curve of any order at least 1, _derivative(t) is the derivative at t and scale moves every control point.", "quantifier": "all curves of any order, all parameters, all distances (numbers and functions)", "why_tests_cant": "the tests use quadratics and cubics only; raise() returns curves of order 4, so higher orders do occur", "anchors": ["PathLib/Bezier.py:Bezier._derivative", "PathLib/Bezier.py:Bezier.scale"]}
{"id": "C101", "title": "Evaluation in double precision", "statement": "For a line, quadratic or cubic whose coordinates are finite doubles of size at most M <= 2^1020 and a double t in [0,1], get(t) does not overflow and is within 10*2^-53*M + 2^-1070 of the true curve point in either coordinate; for a curve of order n >= 4 (n <= 2^40) within 7*n*2^-53*M + 5*n*2^-1075.", "quantifier": "all finite double coordinates up to 2^1020, all double parameters in [0,1], all orders up to 2^40", "why_tests_cant": "worst-case rounding cannot be found by sampling", "anchors": ["PathLib/Bezier.py:Bezier.get", "PathLib/Bezier.py:Bezier._compute"]}
{"id": "C102", "title": "Affine transforms in double precision", "statement": "Applying an affine matrix of finite doubles to a point of finite doubles gives finite doubles within 4*2^-53*(|x||a|+|y||c|+|m|) + 2^-1072 of the exact image (likewise for the other coordinate), as long as those sums stay below 2^1020; the division by the third coordinate changes nothing.", "quantifier": "all affine matrices and points of finite doubles", "why_tests_cant": "worst-case rounding cannot be found by sampling", "anchors": ["PathLib/Transform.py:Transform.applyToPoint", "PathLib/Transform.py:multiplyRowByMatrix"]}
{"id": "C103", "title": "Integer outlines are transformed exactly", "statement": "In double precision, integer affine matrices map integer points to exactly the right integers while the sums stay below 2^53; products of integer matrices, translate, scale by integers and mirrorAround integer centres are exact too.", "quantifier": "all integers within the stated bounds", "why_tests_cant": "absence of rounding for every input", "anchors": ["PathLib/Transform.py:Transform.applyToPoint", "PathLib/Transform.py:multiplyMatrixByMatrix", "PathLib/Transform.py:Transform.translate", "PathLib/Transform.py:Transform.scale", "PathLib/Transform.py:Transform.mirrorAround"]}
{"id": "C104", "title": "Splitting in double precision", "statement": "Splitting a quadratic or cubic at a double t in [0,1] gives two curves that follow the original within 21*2^-53*M + 15*2^-1075 and share exactly the original ends and the joint; halving a curve with integer coordinates up to 2^47 is exact.", "quantifier": "all finite double coordinates up to 2^1020, all t in [0,1]", "why_tests_cant": "worst-case rounding cannot be found by sampling", "anchors": ["PathLib/Bezier.py:Bezier.split", "PathLib/Bezier.py:Bezier.hull"]}
{"id": "C105", "title": "Lookup tables in double precision", "statement": "getLUT(steps) in double precision has steps entries for 2 <= steps <= 2^53; it starts and ends exactly at the end points, and entry i is within 10*2^-53*M + 2^-1070 of the curve at a parameter within 2^-52 of i/(steps-1).", "quantifier": "all lines, quadratics and cubics of finite doubles up to 2^1020, all step counts from 2 to 2^53", "why_tests_cant": "worst-case rounding and all step counts", "anchors": ["PathLib/Bezier.py:Bezier.getLUT"]}
{"id": "C106", "title": "Curve intersection ends in double precision", "statement": "With double coordinates of at most 32768 and a threshold of at least M/2^43 (M the largest coordinate), intersecting quadratics and cubics finishes without an exception at recursion depth at most 49; a threshold as fine as 2^-37 can make the recursion endless for coordinates near 16384.", "quantifier": "all finite double coordinates up to 32768, all thresholds, all lists of curves", "why_tests_cant": "termination of a recursion for every input, with rounding", "anchors": ["PathLib/Bezier.py:Bezier.pairiteration", "PathLib/Bezier.py:Bezier.curveIntersects", "PathLib/Bezier.py:Bezier.overlaps"]}
{"id": "C107", "title": "Bounding boxes in double precision", "statement": "The double precision bounding box of a quadratic or cubic is at most a few roundings larger than the range of the control points, and contains the curve up to a few roundings.", "quantifier": "all finite double coordinates up to 32768", "why_tests_cant": "worst-case rounding cannot be found by sampling; the failing cubics are isolated", "anchors": ["PathLib/Bezier.py:Bezier.boundsRectangle", "PathLib/Bezier.py:Bezier.extrema", "PathLib/BezierUtilities.py:droots", "PathLib/Bezier.py:Bezier._getminmax"]}
{"id": "C108", "title": "Curve intersection in double precision", "statement": "Parameters reported by curveIntersects belong to points no further apart than the threshold up to rounding, and curves that cross are reported.", "quantifier": "all finite double coordinates, all thresholds", "why_tests_cant": "the failing inputs are isolated", "anchors": ["PathLib/Bezier.py:Bezier.curveIntersects", "PathLib/Bezier.py:Bezier.pairiteration", "PathLib/BezierUtilities.py:droots"]}
{"id": "C109", "title": "A new plotter", "statement": "A new ContourPlotter has no content, no saved attributes and square labels of half the whole twentieth of the height of its bounds; opposite margins are equal and are the whole twentieths of width and height.", "quantifier": "all bounds and both values of poly", "why_tests_cant": "all bounds, also empty and inverted ones", "anchors": ["PathLib/ContourPlotter.py:ContourPlotter.__init__", "PathLib/ContourPlotter.py:ContourPlotter.labelFontSize"]}
{"id": "C110", "title": "Glyphs with nested components", "statement": "Drawing a glyph made of sub-paths and component references on a SegmentPen records exactly the outline in which every reference is replaced, at any depth, by the affine image of the outline it stands for; it does so whatever the recursion limit, if large enough; otherwise it ends in KeyError or RecursionError, and cyclic references always end in RecursionError.", "quantifier": "all fonts, all glyphs, all recursion limits", "why_tests_cant": "arbitrary nesting and cycles", "anchors": ["PathLib/SegmentPen.py:SegmentPen.addComponent", "PathLib/SegmentPen.py:SegmentPen.contours"]}
{"id": "C111", "title": "reduce ends in double precision", "statement": "For every curve of doubles, also with infinite or NaN coordinates, and whatever the library functions return, reduce finishes after at most 102 rounds of each of its loops; it may raise, but it does not run on.", "quantifier": "all curves of doubles, all library functions", "why_tests_cant": "termination of nested loops whose counters are rounded sums of 0.01, for every input", "anchors": ["PathLib/Bezier.py:Bezier.reduce"]}
{"id": "C112", "title": "reduce tiles the curve in double precision", "statement": "For a quadratic or cubic with finite double coordinates of size at most M < 2^1019, the pieces reduce returns follow consecutive parts of the curve from 0 to 1 within 200*2^-53*M + 2^-1069; the recorded parameters are within 4*2^-53 of the true ones and each piece records as start exactly the recorded end of the one before. An empty result means that some part over at most 2.03% of the parameter range is not simple. A single split(t1, t2) follows the part from t1 to t2 within 98*2^-53*M + 2^-1070.", "quantifier": "all finite double coordinates up to 2^1019, all 0 <= t1 < t2 <= 1, all library functions", "why_tests_cant": "worst-case rounding, accumulated over two passes of splitting", "anchors": ["PathLib/Bezier.py:Bezier.reduce", "PathLib/Bezier.py:Bezier.split", "PathLib/BezierUtilities.py:map"]}
{"id": "C113", "title": "intersects ends in double precision", "statement": "For quadratics and cubics with double coordinates of at most 32767 and a threshold of at least M/2^42, intersects(curve) and intersects() for self-intersections finish within recursion depth 49: with a result, or with an exception raised by reduce.", "quantifier": "all finite double coordinates up to 32767, all such thresholds, all library functions", "why_tests_cant": "termination of loops and recursion with rounding, for every input", "anchors": ["PathLib/Bezier.py:Bezier.intersects", "PathLib/Bezier.py:Bezier.selfIntersects", "PathLib/Bezier.py:Bezier.curveIntersects", "PathLib/Bezier.py:Bezier.reduce"]}
{"id": "C114", "title": "Points given as complex numbers", "statement": "The measuring functions of PathUtilities (line tests, length, slope, angles, midpoint) give the same result for points given as pairs, as complex numbers or mixed; bounds, transforms, line intersection and pointOnLine raise on a complex point wherever it stands; drawPointsAsCircles draws the same for all-pair and all-complex lists, and on a mixed list raises at the first point of the other kind, after drawing those before it and leaving pushed stroke attributes behind.", "quantifier": "all lists of points of either kind, any numbers", "why_tests_cant": "arbitrary mixtures and positions", "anchors": ["PathLib/PathUtilities.py:pointXY", "PathLib/PathUtilities.py:endPoints", "PathLib/PathUtilities.py:BoundsRectangle.__init__", "PathLib/PathUtilities.py:pointOnLine", "PathLib/ContourPlotter.py:ContourPlotter.drawPointsAsCircles"]}
{"id": "C115", "title": "Rotation in double precision", "statement": "If the C library's sine and cosine are within e of the true ones and round(x, 15) rounds correctly, rotating a finite point about a finite centre (sizes at most M <= 2^990) by d degrees gives a finite point within E*(|dx|+|dy|) + 31*2^-53*M + 14*2^-1075 of the exact rotation in either coordinate, where (dx, dy) is the point relative to the centre and E = e + 6*2^-53 + |d|*2^-58, provided E <= 1/8.", "quantifier": "all finite points, centres and angles, both directions, all libraries of that accuracy", "why_tests_cant": "worst case over all points and angles, and over all accurate libraries", "anchors": ["PathLib/Transform.py:Transform.rotationAbout", "PathLib/Transform.py:Transform._rotationMatrix", "PathLib/PathUtilities.py:rotatePointAbout"]}
{"id": "C116", "title": "Quarter turns in double precision", "statement": "Rotating an integer point about an integer centre (up to 2^51) by a whole number of quarter turns gives exactly the turned integer point, although the angle in radians is not exact.", "quantifier": "all integer points and centres up to 2^51, all numbers of quarter turns, all libraries accurate to 2^-53", "why_tests_cant": "all multiples of 90 degrees; the rounding to 15 places hides the error of the angle only up to a point", "anchors": ["PathLib/Transform.py:Transform.rotationAbout", "PathLib/Transform.py:Transform._rotationMatrix"]}
{"id": "C117", "title": "Alignment in double precision", "statement": "With a library accurate to e (sine, cosine) and e2 (atan2), aligning finite points of size at most M <= 2^990 with the line from s to f, s different from f, puts every point within (e + e2 + 21*2^-53)*(|dx|+|dy|) + 31*2^-53*M + 14*2^-1075 of its exact place: the signed length along the line and the signed distance from it. The point s itself lands exactly on the origin.", "quantifier": "all finite points and lines, all libraries of that accuracy", "why_tests_cant": "accumulated rounding through atan2, degrees, radians, sine, cosine and two matrix products, for every input", "anchors": ["PathLib/Bezier.py:Bezier._align", "PathLib/Transform.py:Transform.moveAndRotate", "PathLib/PathUtilities.py:rawSlopeAngle"]}
{"id": "C118", "title": "The test for straight curves in double precision", "statement": "For control points with coordinates up to 65536 whose first and last are different, and a library with e + e2 <= 8*2^-53, the linear flag is True if all control points are within 10^-4 - 2*10^-9 of the chord and False if some control point is further than 10^-4 + 2*10^-9 from it.", "quantifier": "all finite control points up to 65536, all libraries of that accuracy", "why_tests_cant": "a decision on rounded values, for every input", "anchors": ["PathLib/Bezier.py:Bezier.__init__", "PathLib/Bezier.py:Bezier._align"]}
{"id": "C119", "title": "Roots of quadratics in double precision", "statement": "Bezier.roots of a quadratic reports, up to an error that shrinks with the unit roundoff, every parameter in [0, 1] at which the curve meets the x axis, and reports nothing that is not within that error of such a parameter in [-3*10^-6, 1 + 3*10^-6].", "quantifier": "all finite control points, not all on the axis", "why_tests_cant": "cancellation in the discriminant and in the leading coefficient, over all inputs", "anchors": ["PathLib/Bezier.py:Bezier.roots", "PathLib/BezierUtilities.py:sqrt"]}
{"id": "C120", "title": "Crossings with horizontal and vertical lines in double precision", "statement": "For integer control points and a horizontal or vertical line with integer end points (sizes at most N <= 2^24), not all control points on the line, Bezier.roots relative to the line reports every parameter in [0, 1] at which the quadratic meets the line within 20*2^-53*N, and only parameters that close to a true one. For N <= 4096 Bezier.lineIntersects reports every crossing with the segment that closely, and only crossings with the line at most 3*10^-6 beyond the ends of the segment.", "quantifier": "all integer quadratics and axis-parallel lines up to the stated size, all libraries with sine and cosine within 2^-53, atan2 as in C Annex F on the axes, and correct rounding to 15 places", "why_tests_cant": "the rotation that aligns the line goes through degrees, radians, sine and cosine; exactness for every input", "anchors": ["PathLib/Bezier.py:Bezier.roots", "PathLib/Bezier.py:Bezier.lineIntersects", "PathLib/Bezier.py:Bezier._align", "PathLib/BezierUtilities.py:between"]}
{"id": "C121", "title": "Straight lines with whole coordinates in double precision", "statement": "For end points with whole coordinates up to 65536, lli gives None exactly for parallel lines and otherwise the crossing point with each coordinate correctly rounded. Up to 32768, intersectionPoint decides exactly whether two non-parallel segments share a point, and gives that point correctly rounded; pointOnLine decides exactly whether a point other than the start of a sloping line lies on the segment.", "quantifier": "all whole-number end points and points of the stated size", "why_tests_cant": "a decision on rounded values (the crossing is compared with the boxes after rounding, the slopes are compared as doubles) for every input; with tenths instead of whole numbers the decision is wrong", "anchors": ["PathLib/BezierUtilities.py:lli", "PathLib/BezierUtilities.py:lli4", "PathLib/BezierUtilities.py:lli8", "PathLib/PathUtilities.py:intersectionPoint", "PathLib/PathUtilities.py:pointOnLine", "PathLib/PathUtilities.py:slope"]}
{"id": "C122", "title": "The closest point of a contour in double precision", "statement": "For a contour of lines, quadratics and cubics and a point, all coordinates finite and at most M <= 2^50 in size, and 2 to 200 steps, BContour(contour) succeeds and its findClosestPoint returns a finite distance and a point: the point is within 10*2^-53*M + 32*2^-1075 per coordinate of a point of one of the curves, the distance is its distance up to 5*(e + 2^-53)*M + 8*2^-1075, and it exceeds the distance of no point of the sampled table by more than 4/5 of the way a curve goes in one step plus a rounding error of (15*e + 75*2^-53)*M + 12*2^-53*V + 216*2^-1075, V being a bound for the speed of the curves.", "quantifier": "all finite contours, points and step counts of the stated size; all math.hypot accurate to a fraction e <= 1/100", "why_tests_cant": "up to 25 rounds of refinement on rounded parameters, with a stop test on a rounded step, for every input; the stop must not trigger before the first round", "anchors": ["PathLib/Bezier.py:BContour.findClosestPoint", "PathLib/Bezier.py:BContour._findClosest", "PathLib/Bezier.py:BContour._refineBinary", "PathLib/Bezier.py:BContour.getLUT"]}
{"id": "C123", "title": "Derivatives, tangents, normals and offset points in double precision", "statement": "For a quadratic or cubic with finite coordinates of size at most M and a finite t in [0, 1], the computed derivative is within z = 73*2^-53*M + 50*2^-1075 per coordinate of the true one (M <= 2^1000). If the true derivative has length l >= 4*z and l >= 2^-390 (M <= 2^490), normal succeeds and is within 4*2^-53 + 3*z/l of the unit vector to the left of the direction of travel; _tangent and _normal succeed and are within 2*(e + 2^-53) + 3*z/l of the unit direction and the left normal, e being the accuracy of math.hypot; and offset(t, d) with d not 0 and at most 2^490 gives the point of the curve, the normal, and the point at distance d along the normal, within 12*2^-53*M + |d|*(9*2^-53 + 3*z/l) + 40*2^-1075. If the first two control points coincide, normal(0) raises ZeroDivisionError.", "quantifier": "all finite quadratics and cubics, parameters and distances of the stated size; all math.hypot accurate to a fraction e <= 1/100", "why_tests_cant": "cancellation in the derivative near a cusp, overflow and underflow of the squares, for every input", "anchors": ["PathLib/Bezier.py:Bezier._derivative", "PathLib/Bezier.py:Bezier._tangent", "PathLib/Bezier.py:Bezier._normal", "PathLib/Bezier.py:Bezier.normal", "PathLib/Bezier.py:Bezier.offset"]}
{"id": "C124", "title": "Fitting parameters in double precision", "statement": "For at most 1000000 finite points of size at most M <= 2^900, whose polygon has length at least 2^-900, computeTimeValues (polygonal) returns one finite number per point; the first is exactly 0, the last exactly 1, they never decrease, and each is within 3*(e + (n + 3)*2^-53) of the fraction of the polygon's length travelled so far, e being the accuracy of math.hypot. If all points coincide it raises ZeroDivisionError. With polygonal=False and n >= 2 the numbers are the correctly rounded i/(n - 1): exactly 0 and 1 at the ends, strictly increasing.", "quantifier": "all lists of finite points of the stated size; all math.hypot accurate to a fraction e <= 1/100, never negative and exact on the zero vector", "why_tests_cant": "a long sum of rounded lengths: that the last quotient is exactly 1 and the order is kept must hold for every input", "anchors": ["PathLib/CurveFitting.py:computeTimeValues", "PathLib/CurveFitting.py:dist"]}
{"id": "C125", "title": "Generated colours in double precision", "statement": "randomHSLColor with Python's floats: for an integer hue the new hue is (hue + 73) mod 360 and each component is a nearest integer of 255 times the CSS channel of that hue at 50% saturation and lightness; it is the colour of exact arithmetic with ties to even except at exactly twelve hues, where a component ending in one half is rounded the other way. For a finite float hue the new hue is finite, in [0, 360] (360 itself occurs), equal to hue + 73 up to whole turns and rounding; each component is within 1/2 + 10^-9 of 255 times the CSS channel and in 64..191. A NaN or infinite hue stays NaN and always gives the grey (64, 64, 64), without an exception. Python's % of finite doubles with a positive divisor is the correctly rounded remainder.", "quantifier": "all integers, all doubles (finite, infinite, NaN)", "why_tests_cant": "a continuum of hues; the twelve exceptions and the hue 360 come from rounding and are easily missed by sampling", "anchors": ["PathLib/Color.py:Color.randomHSLColor", "PathLib/Color.py:Color.setCurrentHue"]}
{"id": "C126", "title": "Which pen calls raise, and what they leave behind", "statement": "After any history of pen calls (exceptions caught): if no moveTo was made, curveTo, qCurveTo and closePath raise AttributeError, and so does lineTo unless its point is the origin; once a moveTo was made lineTo, qCurveTo, closePath and curveTo with at least one point never raise, and curveTo() raises IndexError after appending a one-point segment. addPoint, beginPath and endPath always raise NotImplementedError, addComponent of an unknown glyph raises KeyError, moveTo never raises. Every raising call other than curveTo() leaves the pen as it was.", "quantifier": "all histories of pen calls, all glyph sets, all numbers", "why_tests_cant": "all histories of calls on a mutable object", "anchors": ["PathLib/SegmentPen.py:SegmentPen.moveTo", "PathLib/SegmentPen.py:SegmentPen.lineTo", "PathLib/SegmentPen.py:SegmentPen.curveTo", "PathLib/SegmentPen.py:SegmentPen.qCurveTo", "PathLib/SegmentPen.py:SegmentPen.closePath", "PathLib/SegmentPen.py:SegmentPen.addComponent", "PathLib/SegmentPen.py:SegmentPen.addPoint", "PathLib/SegmentPen.py:SegmentPen.beginPath", "PathLib/SegmentPen.py:SegmentPen.endPath"]}
{"id": "C127", "title": "Glyphs are drawn exactly in double precision", "statement": "For a font with TrueType numbers (whole coordinates and component offsets of size at most 32768, component scales that are multiples of 2^-14 in [-2, 2]), drawing a glyph with up to two levels of components with Python's floats records exactly the contours of exact arithmetic: every implied on-curve point, every transformed component point and every decision (repeated point, closing line, identity transformation) is the same, and so is the exception, if any. With components that are only shifted, mirrored or turned by quarter turns it holds to any depth that Python reaches. In general it holds if reach * 2^(1 + g*n) < 2^53, where scales are multiples of 2^-g, n is the depth and reach the bound for coordinates at that depth.", "quantifier": "all fonts, glyphs and call sequences with numbers on the grid; all recursion limits for glyphs of two levels", "why_tests_cant": "fonts are unbounded, and a single rounded coordinate would move a contour or change a comparison; tests compare with the same rounded code", "anchors": ["PathLib/SegmentPen.py:SegmentPen.moveTo", "PathLib/SegmentPen.py:SegmentPen.lineTo", "PathLib/SegmentPen.py:SegmentPen.curveTo", "PathLib/SegmentPen.py:SegmentPen.qCurveTo", "PathLib/SegmentPen.py:SegmentPen.closePath", "PathLib/SegmentPen.py:SegmentPen.addComponent", "PathLib/Transform.py:GTTransform.applyToContours"]}
{"id": "C128", "title": "length approximates the true arc length", "statement": "The value of Bezier.length on a curve of three or four points approximates the integral of the speed of the curve. If a polynomial of degree at most 47 follows the speed within e, the value is within e(2+10^-36) of the integral plus 10^-39 of the polynomial's coefficient sum. A quadratic whose speed stays between m and M is within M(rho^24/4 + 10^-19), a cubic within M(2 rho^12/5 + 10^-24), with rho = (M^2-m^2)/(M^2+m^2). Any curve is within the excess of its control polygon over its chord (plus 10^-36 of the polygon). The two halves of a split have true lengths that add up to the true length of the curve, and the piece split(t1, t2) has the true length of the part between t1 and t2.", "quantifier": "all curves of three and four control points with real coordinates, all speed bounds, all split parameters", "why_tests_cant": "The true length is an integral without closed form for cubics, so tests can only compare with another quadrature on chosen curves; one wrong digit in the 48 table entries changes it in a place a tolerance hides.", "anchors": ["PathLib/Bezier.py:Bezier.length", "PathLib/Bezier.py:Bezier._arcfun", "PathLib/Bezier.py:Bezier.split", "PathLib/BezierUtilities.py:tValues", "PathLib/BezierUtilities.py:cValues"]}
{"id": "C129", "title": "length in Decimal arithmetic", "statement": "Bezier.length on a curve of three or four points with float coordinates, computed as in the source: control points of the derivative in double precision, then Decimals with two more digits than the context's precision p, every operation rounded half to even, fma rounded once, the final value rounded to p digits. The result differs from the quadrature sum in exact arithmetic on the same points by at most (30*10^-p + 11*2^-53) of the length of the control polygon (plus 100*2^-1075), and for whole coordinates below 2^50 by at most 30*10^-p of it. With C128 the same holds against the true length for curves of steady speed. The result has at most p digits. A line raises IndexError.", "quantifier": "all precisions p >= 1, all curves of three and four control points with finite double coordinates up to 2^1000", "why_tests_cant": "The result depends on the decimal context of the thread; a test fixes one precision and compares with a tolerance, so losing the two guard digits or a rounding in between goes unnoticed.", "anchors": ["PathLib/Bezier.py:Bezier.length", "PathLib/Bezier.py:Bezier._arcfun", "PathLib/Bezier.py:Bezier._derivative"]}
{"id": "C130", "title": "Moving or resizing a drawing", "statement": "If every control point of a curve is multiplied by k > 0 and moved by v, then: points on the curve, lookup tables, hulls, ABC points, the raised curve, split parts, reduced segments, tight boxes and scaled curves come out multiplied and moved in the same way (with the same exceptions); tangents, normals, extrema, direction, clockwise and simple stay; the length is multiplied by k; the bounding box is multiplied and moved as long as a point of the curve is within +-32768 before and after; intersects and selfIntersects return the same list of parameter pairs when the threshold is multiplied by k and both curves stay within +-32768. Crossings with a line, the test for straightness and offset curves, which use fixed tolerances, follow a move (k = 1).", "quantifier": "for every k > 0, displacement v, curve (of any order for points and parts; of order 2 or 3 for intersections and offsets), parameter, threshold and fuel", "why_tests_cant": "Tests compare a handful of placements of one drawing; an absolute coordinate slipping into a formula shows only at some positions, and every order, branch and recursion depth of the search would have to be compared.", "anchors": ["PathLib/Bezier.py:Bezier.get", "PathLib/Bezier.py:Bezier.extrema", "PathLib/Bezier.py:Bezier.boundsRectangle", "PathLib/Bezier.py:Bezier.tightbbox", "PathLib/Bezier.py:Bezier.split", "PathLib/Bezier.py:Bezier.reduce", "PathLib/Bezier.py:Bezier.intersects", "PathLib/Bezier.py:Bezier.lineIntersects", "PathLib/Bezier.py:Bezier.offset", "PathLib/Bezier.py:Bezier.scale", "PathLib/Bezier.py:Bezier.length"]}
{"id": "C131", "title": "Order of the arguments and direction of drawing", "statement": "intersects(a, b) and intersects(b, a) on two quadratic or cubic curves return the same pairs of parameters, each pair the other way round (possibly in another order), or raise the same exception; the crossing of two lines or segments does not depend on which is named first or which end is named first; for two different boxes relationTo seen from the other box is the same with encloses and enclosed exchanged. A quadratic or cubic curve whose control points are listed from last to first has at t the point the original has at 1-t, the opposite derivative there, the same bounding box and the same length, and splitting it at 1-t gives the two parts of the original, exchanged and listed from last to first.", "quantifier": "for every pair of quadratic or cubic curves, threshold and fuel; for every four points; for every two boxes; for every curve and parameter", "why_tests_cant": "A test compares a few pairs; agreement has to hold through every branch of the recursive search, in every order of the queue of pairs and for every position of the extrema.", "anchors": ["PathLib/Bezier.py:Bezier.intersects", "PathLib/Bezier.py:Bezier.overlaps", "PathLib/Bezier.py:Bezier.get", "PathLib/Bezier.py:Bezier.derivative", "PathLib/Bezier.py:Bezier.split", "PathLib/Bezier.py:Bezier.boundsRectangle", "PathLib/Bezier.py:Bezier.length", "PathLib/PathUtilities.py:intersectionPoint", "PathLib/PathUtilities.py:relationTo"]}
{"id": "C132", "title": "Glyphs, contours and outlines moved, resized or transformed as a whole", "statement": "Drawing a glyph without components into SegmentPen with every point sent through an invertible transformation gives the contours of the original, every point sent through it, and addComponent adds exactly what its glyph (beginning with moveTo, without nested components) would draw with transformed points, or raises what that drawing raises. BContour and BOutline built from segments multiplied by k>0 and moved are the original objects with curves, bounds, start and end so changed, when coordinates stay within 32768; getLUT of such a contour gives the changed samples; findClosestPoint of the changed contour and point gives the changed point and k times the distance (or, where the original search never refined and reported its start values, those same values), or the same exception.", "quantifier": "for every invertible transformation tuple, glyph set and sequence of pen calls; for every k>0, vector, contour or outline of segments of two to four points in range; for every contour object, point and steps", "why_tests_cant": "A test draws a few glyphs at a few places; agreement depends on every equality test, sentinel and threshold inside the pen, the boxes and the closest-point search reacting alike for every drawing and placement.", "anchors": ["PathLib/SegmentPen.py:SegmentPen.addComponent", "PathLib/SegmentPen.py:SegmentPen.lineTo", "PathLib/SegmentPen.py:SegmentPen.qCurveTo", "PathLib/Bezier.py:BContour.__init__", "PathLib/Bezier.py:BContour.getLUT", "PathLib/Bezier.py:BContour.findClosestPoint", "PathLib/Bezier.py:BContour._refineBinary", "PathLib/Bezier.py:BContour._findClosest", "PathLib/Bezier.py:BOutline.__init__"]}
{"id": "C133", "title": "Drawings sent through an affine map, turned, or turned over", "statement": "For a curve whose control points go through an affine map, get, getLUT, hull, raiseOrder, split and split2 give the mapped answers and derivative the answer through the linear part; if the map does not flatten the plane, lli4 and getABC too. If the map keeps distances, the length quadrature is unchanged and findClosestPoint gives the same distance and the mapped point. A turn also turns tangent, normal and offset points, keeps angle, isClockwise and simple, and scale by a number (and by a function, for cubics) gives the turned curve. After a quarter turn boundsRectangle is the turned box, extrema key 2 and the intersection parameters are the same, reduce gives the turned pieces, and BContour and BOutline are the turned objects. Turned over (y negated): the box is turned over, extrema key 2 is the same, normals point to the other side, offset by -d is the turned-over offset by d; for a first control point off the base line isClockwise is negated and scale(-d) gives the turned-over scale(d); simple is the same unless a control point of a cubic lies on the base line exactly behind the start, where it may differ.", "quantifier": "for every affine map, curve, parameter, distance and point; boxes and reduction for curves of two to four control points, intersections for three or four and every threshold, contours and outlines of such segments", "why_tests_cant": "A test turns a few curves; that nothing depends on the position of the axes or on the side requires every comparison, sentinel and root order to react alike for all curves and all maps.", "anchors": ["PathLib/Bezier.py:Bezier.get", "PathLib/Bezier.py:Bezier.hull", "PathLib/Bezier.py:Bezier.split", "PathLib/Bezier.py:Bezier.split2", "PathLib/Bezier.py:Bezier.raiseOrder", "PathLib/Bezier.py:Bezier.getABC", "PathLib/Bezier.py:Bezier.normal", "PathLib/Bezier.py:Bezier.simple", "PathLib/Bezier.py:Bezier.extrema", "PathLib/Bezier.py:Bezier.boundsRectangle", "PathLib/Bezier.py:Bezier.reduce", "PathLib/Bezier.py:Bezier.intersects", "PathLib/Bezier.py:Bezier.offset", "PathLib/Bezier.py:Bezier.scale", "PathLib/Bezier.py:BContour.findClosestPoint", "PathLib/Bezier.py:BOutline.__init__"]}
{"id": "C134", "title": "Fits go along with affine maps and do not depend on the direction of travel", "statement": "bestFit of points sent through any affine map (with the parameters kept) returns the affinely mapped control points, and bestFit of the points in the opposite order with parameters 1 - t returns the control points in the opposite order; when it raises TypeError for one it does for the other. Points sampled from a Bezier curve at parameters of which enough are different are fitted by exactly the curve's control points. computeTimeValues without polygonal does not look at the points; with polygonal it gives the same parameters for a polygon that is moved, turned, reflected and uniformly resized, and the parameters seen from the other end for the reversed polygon. Hence fit commutes with every affine map (polygonal=False), with every similarity (polygonal=True), and with reversal, including its exceptions.", "quantifier": "all point lists, parameter lists, numbers of control points, affine maps and histories of the binomial table", "why_tests_cant": "A test compares a few hand-made point sets; this covers every affine map and every number of points, including the failing cases.", "anchors": ["PathLib/CurveFitting.py:bestFit", "PathLib/CurveFitting.py:fit", "PathLib/CurveFitting.py:computeTimeValues", "PathLib/CurveFitting.py:multiply"]}
{"id": "C135", "title": "Measures of segments and boxes in double precision", "statement": "In IEEE double precision: isVerticalLine, isHorizontalLine, isDiagonalLine and the infinite slope decide exactly whether two finite coordinates are equal, also where a difference overflows; getDeltas gives the nearest doubles with the right signs; slope on a binary grid is rounded once; midpoint and centerPoint never leave the box of the end points and are off by at most three units of rounding; width and height are the nearest doubles, are never negative and are zero exactly for equal sides; xFromLeft and yFromBottom never leave the box on the low side, grow with the percentage, are exact at 0 (and at 1 on a grid) and are off by at most 6 units of rounding; toMicros raises ZeroDivisionError exactly for a zero of either sign and is correctly rounded for whole numbers. The points that the percentages give stay inside the box, the centre is finite and the area of a box with positive sides is positive.", "quantifier": "all finite doubles within the stated size", "why_tests_cant": "A test samples a few doubles and cannot see rounding at all magnitudes.", "anchors": ["PathLib/PathUtilities.py:BoundsRectangle.width", "PathLib/PathUtilities.py:getDeltas", "PathLib/PathUtilities.py:midpoint", "PathLib/PathUtilities.py:slope", "PathLib/PathUtilities.py:toMicros"]}
{"id": "C136", "title": "How many results there can be", "statement": "roots returns at most two parameters for a curve of order 2 and at most three for any other (and raises for order 0 or 1), lineIntersects no more; extrema lists at most one parameter per direction for order 2 and at most three for order 3, and its combined list is no longer than the two together; reduce cuts a quadratic into at most 306 pieces and a cubic into at most 714, and offset without a distance returns no more curves; a larger limit on the loops of reduce never changes its result.", "quantifier": "all curves, segments, distances and limits; roots, lineIntersects and extrema for any kind of number and any mathematical library", "why_tests_cant": "Memory and running time on hostile input depend on these bounds, and no test reaches the worst case.", "anchors": ["PathLib/Bezier.py:Bezier.roots", "PathLib/Bezier.py:Bezier.lineIntersects", "PathLib/Bezier.py:Bezier.extrema", "PathLib/Bezier.py:Bezier.reduce", "PathLib/Bezier.py:Bezier.offset"]}
{"id": "C137", "title": "Hulls, ABC points and raised polygons in double precision", "statement": "In IEEE double precision, for control points of size M up to 2^1020 and t from 0 to 1: every point of the hull of a curve of order n is within 7n units of rounding of the exact de Casteljau scheme, level by level; the ABC ratios never divide by zero and are right to 32 (quadratic) and 140 (cubic) units; getABC raises nothing, B is within 21 units of the curve and A is the control point of a quadratic itself; raiseOrder keeps the ends bit for bit, repeats the start exactly and puts each other point within 4 units of the exact division of two neighbours.", "quantifier": "all curves with finite double control points within the stated size, all double parameters from 0 to 1", "why_tests_cant": "A test samples a few doubles and cannot see rounding at all magnitudes or at parameters where a divisor comes near zero.", "anchors": ["PathLib/Bezier.py:Bezier.hull", "PathLib/Bezier.py:Bezier.getABC", "PathLib/Bezier.py:Bezier.raiseOrder", "PathLib/BezierUtilities.py:quadraticRatio", "PathLib/BezierUtilities.py:cubicRatio"]}
{"id": "C138", "title": "Coordinates that are not numbers", "statement": "For every double as a coordinate, NaN and the infinities included: the edges of a BoundsRectangle are never NaN and are decided by the coordinates that are numbers, one by one; union, intersection, fromContour, fromContours, bbox and boundsRectangle never give a NaN; a box encloses no point with a NaN; roots, lineIntersects and extrema report finite parameters between 0 and 1 only (within the tolerance of the code); a line is vertical (horizontal) exactly when both coordinates are finite and equal and diagonal exactly when it is neither; _findClosest passes over samples at a NaN distance and finds a nearest one of the others.", "quantifier": "all doubles, all lists of points, all curves, all math libraries", "why_tests_cant": "NaN propagates through arithmetic but not through comparisons, so the outcome depends on the order of the arguments of every min, max and comparison; tests rarely use NaN at all.", "anchors": ["PathLib/PathUtilities.py:BoundsRectangle.__init__", "PathLib/PathUtilities.py:BoundsRectangle.union", "PathLib/Bezier.py:Bezier.roots", "PathLib/Bezier.py:Bezier.extrema", "PathLib/Bezier.py:BContour._findClosest", "PathLib/PathUtilities.py:isDiagonalLine"]}
{"id": "C139", "title": "Curves stay in the convex hull of their control points", "statement": "For 0 <= t <= 1 the point get(t), every point of the de Casteljau scheme hull(t) and every sample of getLUT lie in the convex hull of the control points (every half plane that holds the control points holds them), for curves of every order; so do all control points of the pieces made by split and reduce and of the raised curve; derivative(t) lies in the hull of the legs of the control polygon times its degree; and where the control polygon never turns back in a direction neither does the curve.", "quantifier": "all curves, all parameters in [0, 1], all directions, all sample counts", "why_tests_cant": "The hull property is about every half plane at once and every parameter; a test can only look at some points and some lines.", "anchors": ["PathLib/Bezier.py:Bezier.get", "PathLib/Bezier.py:Bezier.hull", "PathLib/Bezier.py:Bezier.getLUT", "PathLib/Bezier.py:Bezier.split", "PathLib/Bezier.py:Bezier.reduce", "PathLib/Bezier.py:Bezier.raiseOrder", "PathLib/Bezier.py:Bezier.derivative"]}
{"id": "C140", "title": "Edits of the control points", "statement": "When the control points of a curve are moved (any edits, the number of points staying the same), then for 0 <= t <= 1 the point get(t), every point of hull(t), every sample of getLUT, every control point of the pieces made by split at the same parameters and every control point of the raised curve move by a vector in the convex hull of the edits; derivative(t) changes by a vector in the hull of the legs of the edits; length changes by at most 2 * degree * longest edit (up to 1e-36 of it); the edges of bbox and of BoundsRectangle move no further than the edits along their axis, and the distance found by _findClosest changes by at most the longest edit.", "quantifier": "all pairs of curves with the same number of control points, all parameters in [0, 1], all lists of points", "why_tests_cant": "This relates two runs over all pairs of inputs; a test can only compare a few pairs.", "anchors": ["PathLib/Bezier.py:Bezier.get", "PathLib/Bezier.py:Bezier.hull", "PathLib/Bezier.py:Bezier.getLUT", "PathLib/Bezier.py:Bezier.split", "PathLib/Bezier.py:Bezier.raiseOrder", "PathLib/Bezier.py:Bezier.derivative", "PathLib/Bezier.py:Bezier.length", "PathLib/Bezier.py:Bezier.bbox", "PathLib/PathUtilities.py:BoundsRectangle.__init__", "PathLib/Bezier.py:BContour._findClosest"]}
{"id": "C141", "title": "A curve crosses a line no more often than its control polygon", "statement": "For curves of every order and every line with a control point off it: the distinct parameters strictly between 0 and 1 at which get is on the line are no more than the changes of side of the control polygon. Hence roots and lineIntersects report no more distinct parameters strictly between 0 and 1 than the control polygon has crossings with the line (quadratics; cubics outside the epsilon bands of the code), and derivative vanishes in a direction no more often than the control polygon turns back in it.", "quantifier": "all curves, all lines, all sets of parameters", "why_tests_cant": "This is an upper bound on a count over a continuum of parameters; tests can exhibit crossings but not exclude further ones.", "anchors": ["PathLib/Bezier.py:Bezier.get", "PathLib/Bezier.py:Bezier.roots", "PathLib/Bezier.py:Bezier.lineIntersects", "PathLib/Bezier.py:Bezier.derivative"]}
{"id": "C142", "title": "Matrix products and transposes in double precision", "statement": "In IEEE double precision, multiply of an a x k and a k x c matrix with finite entries of at most al and be (al*be up to 2^900, k up to 2^20) raises nothing, overflows nowhere and has every entry within 2k(k+1) units of rounding of al*be plus 4k of underflow of the exact row-by-column sum; whole-number matrices whose sums stay below 2^53 are multiplied exactly; the unit matrix on either side changes no value; transpose moves entries bit for bit and is its own inverse; the transpose of a product is the product of the transposes in the other order, to the last bit, infinities and NaNs included.", "quantifier": "all matrices of doubles of matching shapes within the stated sizes; for the transposes all doubles", "why_tests_cant": "Rounding of a sum of products depends on every entry and on the order of summation; a test with a few small matrices sees exact results only.", "anchors": ["PathLib/CurveFitting.py:multiply", "PathLib/CurveFitting.py:transpose", "PathLib/CurveFitting.py:col"]}
{"id": "C143", "title": "Lookup tables and control polygons stand for the curve", "statement": "For a curve of order m, the polyline through getLUT(s) follows the curve parameter by parameter within m(m-1)/8*D/(s-1)^2, D being twice the largest distance of a control point from the middle of its neighbours; the way along the table is at least the chord and at most the control polygon, and dividing every step into k never shortens it; the control polygons of the two parts from split are together no longer than the original one; and where findClosestPoint works (up to 201 steps, moderate coordinates), no point of the whole contour is nearer than the answer by more than 9/5 of the way a curve goes in one step.", "quantifier": "all curves of any order (split: quadratic and cubic), all numbers of steps from 2, all parameters; for the closest point all contours and points in the range of C69", "why_tests_cant": "The worst parameter lies between the samples, which is where a test of the samples does not look.", "anchors": ["PathLib/Bezier.py:Bezier.getLUT", "PathLib/Bezier.py:Bezier.split", "PathLib/Bezier.py:BContour.findClosestPoint"]}
{"id": "C144", "title": "A curve and the pieces it is cut into agree", "statement": "For the pieces from split(t): their derivatives are those of the curve at the corresponding parameter times t and 1-t; their tangents, normals and offset points are the same; the union of their boxes (bbox, boundsRectangle) is the box of the curve, and so it is for all the pieces from reduce; their lookup tables, joined without repeating the cut, are the table of the curve; a line crosses a quadratic exactly where it crosses its pieces; and two cuts made in the other order give the same three pieces with the same recorded intervals.", "quantifier": "all quadratic and cubic curves (crossings: quadratic), all cuts t and parameters; boxes for t in [0,1] and coordinates in the safe range", "why_tests_cant": "The two sides of each equation go through different code on different numbers, for a continuum of cuts.", "anchors": ["PathLib/Bezier.py:Bezier.split", "PathLib/Bezier.py:Bezier.derivative", "PathLib/Bezier.py:Bezier.bbox", "PathLib/Bezier.py:Bezier.boundsRectangle", "PathLib/Bezier.py:Bezier.reduce", "PathLib/Bezier.py:Bezier.getLUT", "PathLib/Bezier.py:Bezier.roots", "PathLib/Bezier.py:Bezier.offset"]}
{"id": "C145", "title": "Perspective, composition and exact moves in double precision", "statement": "In IEEE double precision, applyToPoint with any 3x3 matrix and a point whose exact divisor is at least twice its rounding slip gives the exact quotients up to the slips of numerator and divisor over the divisor and one rounding; it raises only ZeroDivisionError, and only when the exact divisor is zero up to rounding; for whole matrices and points it raises exactly when the divisor is zero and otherwise gives the doubles nearest to the quotients. The product of two affine matrices is affine with its last column exactly 0, 0, 1 and entries within 13 roundings of K*K; applying the product and applying the matrices in turn both give the exact composition within 80 roundings of M*K*K. The identity matrix and the mirrors are exact for every finite point and a mirror is its own inverse; scaling costs one rounding per coordinate; translating one for the distance and one for the sum.", "quantifier": "all 3x3 matrices and points of finite doubles within the stated sizes; for identity and mirrors all finite points", "why_tests_cant": "The rounding of a quotient of sums depends on cancellation in the divisor, near the horizon; tests on round numbers away from it see exact results.", "anchors": ["PathLib/Transform.py:Transform.applyToPoint", "PathLib/Transform.py:Transform.multiplyMatrixByMatrix", "PathLib/Transform.py:Transform._identityMatrix", "PathLib/Transform.py:Transform.mirror", "PathLib/Transform.py:Transform.scale", "PathLib/Transform.py:Transform.translate"]}
{"id": "C146", "title": "Which calls on curves and transforms raise", "statement": "For numbers of any kind, NaNs and infinities included: a Bezier can be made exactly of two or more points and otherwise raises IndexError; get returns for every parameter when there is a point; the derivative, split and roots return exactly from three points on and otherwise raise IndexError; tangent and normals raise IndexError below three points and otherwise ZeroDivisionError at worst (normal also ValueError); extrema, bbox and boundsRectangle return exactly from two points on; overlaps when both curves have them; the hull of n points has n(n+1)/2; every non-empty polygon can be raised; getLUT gives an empty table for 0 or fewer steps, ZeroDivisionError for 1 and as many points as steps otherwise. A product of matrices returns exactly when the rows of the first have three entries and the second is 3x3, and otherwise raises ValueError; applyToPoint raises ValueError exactly for matrices that are not 3x3 and ZeroDivisionError at worst for those that are.", "quantifier": "all lists of control points of any length, all parameters, all matrices of any shape, over any number type (reals and doubles as instances)", "why_tests_cant": "Shapes and lengths are unbounded and error branches are rarely tested; special values such as NaN and infinity multiply the cases.", "anchors": ["PathLib/Bezier.py:Bezier.__init__", "PathLib/Bezier.py:Bezier.get", "PathLib/Bezier.py:Bezier._derivative", "PathLib/Bezier.py:Bezier._tangent", "PathLib/Bezier.py:Bezier._normal", "PathLib/Bezier.py:Bezier.normal", "PathLib/Bezier.py:Bezier.extrema", "PathLib/Bezier.py:Bezier.bbox", "PathLib/Bezier.py:Bezier.boundsRectangle", "PathLib/Bezier.py:Bezier.overlaps", "PathLib/Bezier.py:Bezier.hull", "PathLib/Bezier.py:Bezier.split", "PathLib/Bezier.py:Bezier.roots", "PathLib/Bezier.py:Bezier.raiseOrder", "PathLib/Bezier.py:Bezier.getLUT", "PathLib/Transform.py:Transform.multiplyMatrixByMatrix", "PathLib/Transform.py:Transform.applyToPoint"]}
{"id": "C147", "title": "Inverse matrices undo transforms", "statement": "For square real matrices of any size: matrixInvert applied to its own result gives back the matrix; the inverse of a product (CurveFitting.multiply) is the product of the inverses in the opposite order; the inverse of the transpose is the transpose of the inverse; and whatever inverts a matrix from either side is what matrixInvert returns. For 3x3 matrices the products of CurveFitting and Transform agree, and matrixInvert returns None exactly when the determinant is zero. A point, segment or contour a transform (affine or perspective) can be applied to is brought back exactly by the inverse matrix; a composed transform is inverted by composing the inverses in the opposite order; moves, scalings, mirrors, shears, rotations, perspectives, rotationAbout, mirrorAround and perspectiveFrom have the inverses one expects, and scalings, shears and perspectives have none exactly when a factor is 0, the product of the shears is 1, or s is 0.", "quantifier": "all n and all real n x n matrices, all 3x3 real matrices and points, all lists of matrices of any length", "why_tests_cant": "Round trips hold for infinitely many matrices and pivot orders, and the singular boundary has measure zero, so tests never reach it.", "anchors": ["PathLib/MatrixInversion.py:matrixInvert", "PathLib/CurveFitting.py:multiply", "PathLib/CurveFitting.py:transpose", "PathLib/Transform.py:Transform.multiplyMatrixByMatrix", "PathLib/Transform.py:Transform.concatenateMatrices", "PathLib/Transform.py:Transform.applyToPoint", "PathLib/Transform.py:Transform.applyToContour", "PathLib/Transform.py:Transform.rotationAbout", "PathLib/Transform.py:Transform.mirrorAround", "PathLib/Transform.py:Transform.perspectiveFrom"]}
{"id": "C148", "title": "Sampling and fitting undo each other", "statement": "Over the reals, with the default uniform parameters of getLUT and of fit(polygonal=False): fitting the table of n >= 2 samples of a curve with at most n control points gives n control points of the very same curve, and exactly its own when it has n; the least-squares bestFit with as many control points as the curve has returns them; two curves with at most n control points and the same table of n samples are the same curve, and have the same control points when they have equally many; and n >= 2 arbitrary points that are fitted are exactly the table of n samples of the fitted curve. Straight lines between different points are given back with chord-length parameters as well, while a curve is exhibited that they do not give back.", "quantifier": "all curves of any order, all table sizes, all lists of two or more points, any history of calls of binomial", "why_tests_cant": "Needs unbounded orders and exact arithmetic; rounding hides failures of exact round trips and tests cover a few orders only.", "anchors": ["PathLib/CurveFitting.py:fit", "PathLib/CurveFitting.py:bestFit", "PathLib/CurveFitting.py:computeTimeValues", "PathLib/CurveFitting.py:basisMatrix", "PathLib/Bezier.py:Bezier.getLUT", "PathLib/Bezier.py:Bezier.get", "PathLib/Bezier.py:Bezier.__init__"]}
{"id": "C149", "title": "Named transforms compose like their parameters; determinants and areas", "statement": "Over the reals, with exact sines and cosines: composing two moves adds their displacements, two scalings multiply, two shears along one axis and two perspectives add, mirrors combine axis by axis, two rotations the same way add their angles, a negative angle is the turn the other way and a half turn mirrors both axes; rotateAndMove with the points exchanged and the opposite angle is the inverse of moveAndRotate and conversely. The determinant of a composition of any number of 3x3 matrices is the product of theirs, and it is 1 for moves and rotations, sx*sy for scalings, 1 - sx*sy for shears, -1 for one mirror and 1 for two or none, and s for perspectives. All these but perspectives are affine and so are their compositions; an affine transform applies to every polygon of any number of points and multiplies its signed area by the determinant; with perspectives the signed area of a triangle is also divided by the third coordinates of its corners, which are not zero.", "quantifier": "all real parameters and points, all lists of 3x3 matrices, all polygons of any length", "why_tests_cant": "Identities over all real parameters and polygons of unbounded length; rounding hides them from tests.", "anchors": ["PathLib/Transform.py:Transform.concatenateMatrices", "PathLib/Transform.py:Transform._translateMatrix", "PathLib/Transform.py:Transform._scaleMatrix", "PathLib/Transform.py:Transform._shearMatrix", "PathLib/Transform.py:Transform._mirrorMatrix", "PathLib/Transform.py:Transform._rotationMatrix", "PathLib/Transform.py:Transform._perspectiveMatrix", "PathLib/Transform.py:Transform.moveAndRotate", "PathLib/Transform.py:Transform.rotateAndMove", "PathLib/Transform.py:Transform.applyToSegment"]}
{"id": "C150", "title": "The algebra of bounds rectangles", "statement": "For numbers of any totally ordered kind (floats that are not NaN included) the bounds of more points are at least as large on every side, and neither order nor repetition of the points matters. Over the reals the rectangles around at least one point are exactly those with left <= right and bottom <= top that respect the initial values +-32768 of the scan; union and intersection keep among them and are commutative, associative, idempotent and absorb each other; encloses(a, b) holds exactly when union(a, b) is a and exactly when intersection(a, b) is b, and is a partial order; areas grow with enclosure, the area of a union is at least the sum when the rectangles are apart, and at least the sum less the area of the intersection when they meet, which is no larger than either.", "quantifier": "all lists of points of any ordered number type; all triples of non-empty rectangles over the reals", "why_tests_cant": "Algebraic laws over all triples of rectangles, with touching and degenerate ones among them, which random tests rarely produce.", "anchors": ["PathLib/PathUtilities.py:BoundsRectangle.__init__", "PathLib/PathUtilities.py:BoundsRectangle.union", "PathLib/PathUtilities.py:BoundsRectangle.intersection", "PathLib/PathUtilities.py:BoundsRectangle.encloses", "PathLib/PathUtilities.py:BoundsRectangle.area"]}
{"id": "C151", "title": "Bounds of transformed outlines", "statement": "Over the reals: for every affine transform and every outline of non-empty contours with non-empty segments, the bounds of the transformed corners of the outline's bounds enclose the bounds of the transformed outline. If the transform keeps or exchanges the axes (moves, scalings, mirrorings, quarter turns and their compositions) and the outline is within the range of the initial values +-32768, the two rectangles are the same. Neither application raises.", "quantifier": "all affine matrices, all non-empty lists of contours with real coordinates", "why_tests_cant": "Quantifies over all transforms and outlines at once; the cases differ by the signs of four coefficients and by which points are extreme.", "anchors": ["PathLib/PathUtilities.py:BoundsRectangle.__init__", "PathLib/PathUtilities.py:BoundsRectangle.fromContour", "PathLib/PathUtilities.py:BoundsRectangle.encloses", "PathLib/Transform.py:Transform.applyToContour", "PathLib/Transform.py:Transform.applyToContours", "PathLib/Transform.py:Transform._scaleMatrix", "PathLib/Transform.py:Transform.mirrorAround"]}
{"id": "C152", "title": "Intersection, union and enclosure of bounds for every kind of ordered numbers", "statement": "For numbers of any totally ordered kind (floats that are not NaN, infinities included) and rectangles around at least one point: union and intersection are again such rectangles; the union is the least one that encloses both and the intersection the largest one both enclose, None meaning that there is none; the intersection is commutative and associative and absorbs with the union; encloses(a, b) holds exactly when union(a, b) has the edges of a and exactly when intersection(a, b) has the edges of b, and it is reflexive, transitive, and antisymmetric up to equality of the edges. The bounds of an outline depend only on its set of points, and those of two outlines put together are the union of their bounds.", "quantifier": "all ordered number types, all triples of rectangles around at least one point, all outlines of non-empty contours with non-empty segments", "why_tests_cant": "The laws quantify over all triples of rectangles and all number types at once, including infinities and signed zeros among floats.", "anchors": ["PathLib/PathUtilities.py:BoundsRectangle.union", "PathLib/PathUtilities.py:BoundsRectangle.intersection", "PathLib/PathUtilities.py:BoundsRectangle.encloses", "PathLib/PathUtilities.py:BoundsRectangle.enclosesPoint", "PathLib/PathUtilities.py:BoundsRectangle.fromContour"]}
{"id": "C153", "title": "The bounding box of a transformed curve", "statement": "For every curve of order 1, 2 or 3 over the reals and every affine transform that leaves its control points within +-32768: boundsRectangle of the transformed curve is enclosed in the bounds of the transformed corners of boundsRectangle of the curve, and equal to them when the transform keeps or exchanges the axes (moves, scalings with different factors, mirrorings, quarter turns and their compositions) and the curve was within +-32768 too. boundsRectangle of a curve is enclosed in the bounds of its control points.", "quantifier": "all curves of order 1 to 3 with real control points, all affine matrices", "why_tests_cant": "Needs that the box is exact at the interior extrema of all curves and transforms, which sampling can only approximate.", "anchors": ["PathLib/Bezier.py:Bezier.boundsRectangle", "PathLib/Bezier.py:Bezier.bbox", "PathLib/PathUtilities.py:BoundsRectangle.contour", "PathLib/PathUtilities.py:BoundsRectangle.fromContour", "PathLib/Transform.py:Transform.applyToContour", "PathLib/Transform.py:Transform.applyToSegment"]}
{"id": "C154", "title": "Contour and outline bounds are exact, also after transforms", "statement": "Over the reals, for contours of at least one curve of order 1 to 3 with control points within +-32768: the bounds of BContour and BOutline hold every point of every curve and each of the four edges has such a point, and only one rectangle has this property; they are enclosed in the bounds of all control points. If an affine transform keeps the control points within +-32768, the bounds of the transformed outline are enclosed in the bounds of the transformed corners of the bounds of the outline, and equal to them when the transform keeps or exchanges the axes. None of the calls raises.", "quantifier": "all non-empty outlines of such contours, all affine matrices", "why_tests_cant": "Needs exact extrema for all curves and an induction over arbitrarily many curves and contours.", "anchors": ["PathLib/Bezier.py:BContour.__init__", "PathLib/Bezier.py:BOutline.__init__", "PathLib/Bezier.py:Bezier.boundsRectangle", "PathLib/PathUtilities.py:BoundsRectangle.union", "PathLib/PathUtilities.py:BoundsRectangle.contour", "PathLib/Transform.py:Transform.applyToContours"]}
{"id": "C155", "title": "The bounds of a lookup table approximate the box of the curve", "statement": "For a curve of order m = 1, 2 or 3 over the reals with control points within +-32768 and a table from getLUT(s), s >= 2: boundsRectangle encloses the bounds of the table, and no edge of the latter is farther inside than m (m - 1) / 8 * D / (s - 1)^2, where D is at least twice the distance of every inner control point from the middle of its neighbours. Dividing every step into k makes the bounds of the table larger or leaves them.", "quantifier": "all curves of order 1 to 3, all numbers of samples", "why_tests_cant": "An error bound for all curves and all numbers of samples; tests can only compare individual curves against further samples.", "anchors": ["PathLib/Bezier.py:Bezier.getLUT", "PathLib/Bezier.py:Bezier.boundsRectangle", "PathLib/Bezier.py:Bezier.bbox", "PathLib/PathUtilities.py:BoundsRectangle.__init__", "PathLib/PathUtilities.py:BoundsRectangle.encloses"]}
