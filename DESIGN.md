# Formal model of ermader/PathLib in Rocq (Coq 8.16.1)

## 1. What is modelled and how

The model is a set of Gallina functions that follow the Python functions branch by branch
(`theories/M*.v`). Every definition cites the file and lines it models.

* **Exceptions are values.** `res A := Ok a | Err e`, `e` one of the Python exceptions that the
  code can raise (`IndexError`, `ZeroDivisionError`, `TypeError`, ...). List indexing, tuple
  unpacking and division go through this monad.
* **Numbers are abstract.** Every function is written once over a class `NumOps T` of
  *operations only* (no laws): `+ - * /`, `abs`, comparisons, conversion of integer literals.
  Functions using `math.*` take a second operations-only class `TrigOps T`.
  The same model text is instantiated at
  - `R` (Coq's reals): exact arithmetic. Geometric theorems are about this instance. Rounding,
    overflow and NaN/inf of binary64 are not visible in it, except where the code itself creates
    NaN (`math.nan` in `BezierUtilities.sqrt`) or inf (`slope`), which are modelled explicitly,
    and the explicit `round(.., 15)` in `Transform.sin/cos`, which is modelled as rounding of the
    real number to 15 decimals.
  - `Q` (rationals): exact and executable; used for witnesses and examples by `vm_compute`.
  - `b64` (Flocq's binary64): executable IEEE arithmetic, the arithmetic CPython uses. Theorems
    C101-C108, C111-C113 and C115-C145 are about it: error bounds, exactness on integers, termination, and the places where
    rounding breaks a property that holds in exact arithmetic.
  - theorems that need no arithmetic law (pen, SVG strings, caches, end points of curves) are
    proved for *every* `T`, and theorems that only need an order (bounds rectangles) for every
    `T` with a total preorder on a domain of values; so they hold for floats too.
* **Mutable objects are state.** Pens, curve objects with caches, contours, the plotter, the
  binomial table, the decimal context and the current hue are records; a method is a function
  from state to (state, result). Properties over histories are inductions over lists of calls.
* **Loops** are structural recursion or folds; the three data dependent loops (`reduce`,
  `pairiteration`, glyph components) use fuel and return `RecursionError`/`OutOfFuel`, and the
  theorems exclude or bound that case.

`theories/Spec*.v` hold the independent specifications: Bernstein polynomials, matrix product,
rectangles as point sets, line segments as point sets, drawings, the SVG path grammar.

## 2. Plan per property

| id | model | proof |
|----|-------|-------|
| C01 C02 | `MTransform` matrices as lists of rows | 3x3 ring algebra, induction on the chain |
| C03 C04 | translate/scale/shear/mirror | ring |
| C05 | rotation with rounded trig | ring identity `|Rp-Rq|^2=(s^2+c^2)|p-q|^2`, then bound on `s^2+c^2-1` |
| C06 | applyTo* as `mapM` | induction |
| C07 | applyToSegment + get | Bernstein partition of unity |
| C08 | applyToPoint error branch | field, determinant identity |
| C09-C15 | `MBounds` over an ordered domain | induction on the point list; lattice reasoning; refutations for out of range / empty |
| C16-C19 | `MPathUtil` | real arithmetic |
| C20-C23 | `MSegmentPen` state machine | invariant by induction on calls; refinement to drawings |
| C24-C26 | `MMatrix`, loops with in-place updates | row operation invariant `C = E M, I = E`; rank argument for completeness |
| C27 | `MCurveFit` global table as state | invariant |
| C28 | basisMatrix | binomial identity |
| C29-C31 | multiply/transpose/fit | list matrix algebra; Vandermonde; uses C24/C25 |
| C32-C36 | `MBezUtil` | real arithmetic |
| C37-C47 | `MBezier` pure part | Bernstein/de Casteljau induction; extreme value theorem + C33 |
| C48-C50 | roots | quadratic formula, Cardano, trigonometric identity |
| C51-C53 | pairiteration | Lipschitz bound; induction on fuel |
| C54 C55 | reduce | loop invariants in exact arithmetic |
| C56 | raiseOrder | refutation + what is true |
| C57 C58 C61-C64 | remaining Bezier methods | real arithmetic / state |
| C59 C60 | curve objects with caches | invariant over method histories; refutation for extrema |
| C65-C70 | `MContour` | induction; SVG grammar in `SpecSVG` |
| C71-C73 | `MPlotter` | induction; refutations |
| C74 C75 C93 C94 | `MColor` | finite tables lifted to all strings; number theory; piecewise linear hue |
| C76 C78 | intersects, selfIntersects | C51-C55; refutations; what every reported pair satisfies |
| C77 C79 C98 C99 | `MPlotter` rest | induction on points; rows of the de Casteljau triangle |
| C100 | `MBezier.derivative`, `scaleNum`, `scaleFn` at orders 1 and ≥ 4 | formulas read off the derivative points; padding of the control list |
| C80 | tightbbox | C58 (alignment) and C40 (boxes) |
| C81-C83 C85 | scale, offset, simple | real geometry of normals; refutations with explicit curves |
| C84 C90 | `_linear`, `_clockwise`, `angle` | polar form of atan2 |
| C86 | bestFitN | normal equations, polynomial with too many roots |
| C87 C88 C97 | Transform and rotation rest | rounded rotation as scaled rotation |
| C89 C91 C92 C95 C96 C109 | small functions | direct |
| C101-C105 | the same model at `b64` (`ProofDouble`, `ProofDouble2`) | every operation is `fl` of the exact one (Flocq); error accounting; dyadic numbers stay exact |
| C106 | `pairiteration` at `b64` (`ProofDouble3`) | a piece halves its width up to rounding; below the rounding level a curve reproduces itself |
| C107 C108 | bounding boxes and intersection at `b64` (`ProofDouble4`-`7`) | boxes of quadratics and of cubics on a dyadic grid; soundness of intersection for quadratics; counterexamples where `d != 0` in `droots` sees rounding noise, and touching curves |
| C111 C112 C113 | reduce and intersects at `b64` (`ProofDouble8`, vocabulary in `SpecDouble2`) | the loop counters advance by at least 0.00999; relative error of differences; sorting of finite doubles is sorting of their values; composition of `follows` |
| C115 C116 C117 C118 | rotation, alignment and the linear test at `b64` with any accurate C library (`ProofDouble9`-`ProofDouble12`, vocabulary in `SpecDouble3`) | sine and cosine are 1-Lipschitz; the rotation matrix entry by entry; unit vectors of rounded differences; for quarter turns the angle is computed and the rounding to 15 places decided; a correctly rounded library is built to show the hypotheses can hold |
| C119 C120 | roots of quadratics and `lineIntersects` with axis-parallel lines at `b64` (`ProofDouble13`, `ProofDouble14`) | on a grid the discriminant and the leading coefficient are exact, so each root is one rounded square root, sum and quotient away; on the axes atan2, degrees and the rounding to 15 places make the aligning rotation an exact quarter turn; running error bounds for the evaluation in the segment test |
| C121 | `lli`, `intersectionPoint`, `pointOnLine`, `slope` at `b64` (`ProofDouble15`) | with whole coordinates all products are exact, so a coordinate is one rounded quotient n/d; as |d| <= 2^33, n/d cannot round across a whole number, and two different slopes cannot round to the same double |
| C122 | `newContour`, `findClosestPoint`, `findClosest`, `refineBinary`, `locate`, `getLUT` at `b64` (`ProofDouble16`) | `math.hypot` is any function within a fraction e of the true length; every comparison is between finite doubles, so the search is the exact one on perturbed distances; the sampled parameters stay in [0, 1] because three of the five steps are at least 2/5 short of the end |
| C123 | `derivative`, `tangent`, `normal_`, `normal`, `offset` at `b64` (`ProofDouble17`) | `math.sqrt` is correctly rounded, `math.hypot` any function within a fraction e; the bound for the direction carries the error of the derivative divided by its true length |
| C124 | `computeTimeValues`, `chordLengths`, `dist` at `b64` (`ProofDouble18`) | `math.hypot` is any function within a fraction e of the true length, never negative, zero on the zero vector; sums of non-negative doubles never decrease, x / x is exactly 1 |
| C125 | `MColorFloat`: `pymod`, `fhls_to_rgb`, `fround`, `randomHSLColorI`, `randomHSLColorF` at `b64` (`ProofColorFloat`, `ProofColorFloat2`) | the channel as a piecewise linear function of the hue on a circle is 3-Lipschitz; remainders of doubles are exact before the last addition |
| C126 | `penStep`, `penHistory` (`ProofPenErr`) | the slot `_contour` is unset until the first moveTo; induction over the history |
| C127 | `drawGlyph` with `FNum`, `implied`, `addComponent`, `applyToContours` | lockstep with the real-number model; the grid is refined by g binary places per component level |
| C128 | `Bezier.length`, `split` | the quadrature against the integral of the speed (Coquelicot `RInt`); a priori bounds from the moments of the table |
| C129 | `Bezier.length`, `_arcfun`, `_derivative` | `MDecimal.v`: Decimals as reals rounded to p+2 and p digits (Flocq FLX, radix 10), coordinates as binary64 |
| C130 | `get`, `extrema`, `boundsRectangle`, `reduce`, `intersects`, `offsetCurves` | a moved and resized drawing (`placed k v`): every query commutes with it |
| C131 | `intersects`, `lli4`, `intersectionPoint`, `relationTo`, `get`, `derivative`, `boundsRectangle`, `quadrature`, `split1` | metamorphic: exchanged arguments, reversed control points |
| C132 | `penStep`, `addComponent`, `newContour`, `newOutline`, `contourLUT`, `findClosestPoint` | metamorphic: affine maps of pen calls, placed contours |
| C133 | `get`, `hull`, `split1`, `split2curve`, `raiseOrder`, `getABC`, `normal`, `simple`, `extrema`, `boundsRectangle`, `reduce`, `intersects`, `offsetPoint`, `scaleNum`, `scaleFn`, `findClosestPoint`, `newOutline` | metamorphic: affine maps, turns, reflections |
| C134 | `computeTimeValues`, `bestFit`, `fit` | fits of mapped and reversed points, points of a curve |
| C135 | `getDeltas`, `isVerticalLine`, `isHorizontalLine`, `isDiagonalLine`, `slope`, `midpoint`, `centerPoint`, `BoundsRectangle`, `toMicros` | in doubles |
| C136 | `roots`, `lineIntersects`, `extrema`, `reduce`, `offset` | number of results, for any kind of number |
| C137 | `hull`, `getABC`, `quadraticRatio`, `cubicRatio`, `raiseOrder` | in doubles |
| C138 | `BoundsRectangle`, `roots`, `extrema`, `_findClosest`, `isDiagonalLine` | with NaN and infinities |
| C139 | `get`, `hull`, `getLUT`, `split`, `reduce`, `raiseOrder`, `derivative` | convex hull by half planes |
| C140 | `get`, `hull`, `getLUT`, `split`, `raiseOrder`, `derivative`, `length`, `bbox`, `BoundsRectangle`, `_findClosest` | two runs compared |
| C141 | `get`, `roots`, `lineIntersects`, `derivative` | number of crossings; Descartes' rule of signs |
| C142 | `multiply`, `transpose`, `col` | in doubles |
| C143 | `getLUT`, `split1`, `findClosestPoint` | error of the table as a polyline |
| C144 | `split1`, `derivative`, `tangent`, `normal`, `offset`, `bbox`, `boundsRectangle`, `reduce`, `getLUT`, `roots` | pieces against the whole |
| C145 | `applyToPoint`, `multiplyMatrixByMatrix`, `mirror`, `scale`, `translate` | in doubles: perspective, composition, exact moves |
| C146 | `newBezier`, `get`, `derivative`, `split1`, `bbox`, `getLUT`, `applyToPoint`, `multiplyMatrixByMatrix` | which calls raise, any number type |
| C147 | `matrixInvert`, `multiply`, `transpose`, `mkTransform`, `applyTo…` | inverses and their algebra, round trips of points and contours, named transforms |
| C148 | `getLUT`, `fit`, `bestFit` | sample-then-fit and fit-then-sample round trips |
| C149 | `mkTransform`, the matrix builders, `applyToSegment` | composition laws, determinants, signed areas |
| C150 | `BoundsRectangle`, `union`, `intersection`, `encloses`, `area` | lattice laws, order, areas |
| C151 | `fromContours`, `fromContour`, `contour`, `encloses`, `applyToContour(s)`, `translate`, `scale`, `mirror`, `mirrorAround` | transformed bounds against bounds of the transformed |
| C152 | `union`, `intersection`, `encloses`, `fromContours` | the lattice of C150 from order alone, for floats too; outlines as sets of points |
| C153 | `boundsRectangle`, `fromContour`, `contour`, `applyToSegment`, `applyToContour` | box of the transformed curve against the transformed box |
| C154 | `newContour`, `newOutline`, `boundsRectangle`, `union`, `fromContours`, `applyToContours` | bounds of curves are exact; transformed outlines |
| C155 | `getLUT`, `boundsRectangle`, `BoundsRectangle`, `encloses` | bounds of samples against the box, with the error bound of C143 |
| C114 | `stands`, `all_pairs`, `all_complex` (`SpecComplex`) | case analysis on the representation; the circle loop by induction, prefix first |
| C110 | `MSegmentPen.drawGlyph` | outline as an inductive relation; both directions by induction |

## 3. Trusted base

### 3.1 Logic

* The Coq 8.16.1 kernel, including `vm_compute`.
* Axioms, all from the Coq standard library (classical reals): `ClassicalDedekindReals.sig_forall_dec`,
  `ClassicalDedekindReals.sig_not_dec`, `FunctionalExtensionality.functional_extensionality_dep`,
  `Classical_Prop.classic`. `ASSUMPTIONS.md` lists for every theorem which of them
  `Print Assumptions` reports; 99 theorems need none.
* No axiom, parameter, admitted proof or disabled check of our own. Libraries used: the Coq
  standard library, Flocq (binary64, `InstFloat.v`) and Coquelicot (integrals, `SpecArc.v`);
  none adds an axiom of its own to a theorem. (Whole-library listings also show the sealed constants of
  `Coq.Reals.Rdefinitions` and `Coq.ssr.ssrunder`; these are module-opaque definitions of the
  standard library, not assumptions of ours.)

### 3.2 The model is hand-written

Nothing mechanical ties `M*.v` to the Python text; the link is the citation at each definition and
the replay of the repository's own tests on the model (`TestReplay.v`, over rationals and binary64).
Two tables were generated from the source text by a script: the colour keywords (`MColor.keywords`)
and the Gauss-Legendre abscissae and weights (`MTables.v`).

### 3.3 Numbers

| statement is over | meaning |
|---|---|
| any `T` with `NumOps T` | holds for Python ints, floats, Fractions alike: no arithmetic law is used |
| any `T` with `TotalOrder D` | holds for all comparable values, floats other than NaN included (`float_order`) |
| `R` with `RTrig rnd` / `RPy` | exact arithmetic; `round(sin, 15)` modelled as rounding of the exact value |
| `b64` (Flocq binary64) | IEEE arithmetic, round to nearest even; sqrt correctly rounded; sin, cos, acos, atan2, hypot, pow are parameters (`FTrig`), so the statements hold for every C library |
| `Q`, `Z` | witnesses and examples |

Python ints and floats are not distinguished: `//`, `%` and int overflow play no role except in
`Color` (integers in `MColor`, both in `MColorFloat`, with Python's float `%` and `round`). `decimal.Decimal` (length of a curve) is modelled with exact arithmetic in `MBezierObj`, and with rounding in `MDecimal` (C129);
precision of the decimal context is tracked as state (C59). The exponent limits of Decimals are not modelled.

### 3.4 What is modelled

Function by function, all of: `Transform.py`; `PathUtilities.py`; `BezierUtilities.py`;
`MatrixInversion.py`; `CurveFitting.py` except its `test`; `SegmentPen.py`; `Bezier.py` (classes
`Bezier`, `BContour`, `BOutline`); `Color.py`; `ContourPlotter.py`.

### 3.5 What is not modelled, or only up to an assumption

* `FontDocTools` (base classes of `Color` and `ContourPlotter`, `GlyphPlotterEngine`) and fontTools
  are not in the repository. Assumed of the plotter base class: setters assign the attribute of the
  same name, `drawCircle`, `drawLabel` and `drawArrow` append one item and change no modelled
  attribute. Content items carry the attribute values instead of their SVG text; the `d` attribute is
  the exact string.
* The effect of margins (their sizes are modelled, C109) and the final image of the plotter; text alignment; arrow style and position.
* The complex-number representation of points (`PathUtilities.pointXY`), except in `MComplex.v` (the
  functions of PathUtilities.py, transforms of points and segments, `drawPointsAsCircles`) and in
  `drawComplexPointsAsCircles`, where a complex number is its pair.
* In double precision: a slope that overflows equals `math.inf` in Python and is a finite slope
  (`SFin inf`) here; `list.index` finds a NaN by identity, so `removeDuplicates` keeps NaN entries
  the model drops (extrema are filtered to [0, 1] before, so none arrive there).
* Non-ASCII letters in colour names. `random.randint` is an argument of `randomRGBColor`.
* Python's `str` of numbers is a parameter `show`; SVG theorems assume `printer parse D show`: the
  printed form is a non-empty SVG number token that reads back as the same number on the coordinates in `D`
  (proved for integers, `Z_printer`; for floats it is what `repr` promises for finite values).
* Logger calls, type annotations, `__repr__`-like accessors, commented-out code.
* Recursion limits: the recursive or unbounded loops take fuel; theorems either show that a stated
  amount suffices or hold for every amount.
* Objects are values: aliasing is modelled only where a method mutates (caches of `Bezier` objects,
  contours, plotter, pen, binomial table).

## 4. Files

`Py.v` exceptions, list operations, classes of operations; `Inst*.v` number instances;
`M*.v` model; `Spec*.v` vocabulary of the statements; `Proof*.v` proofs; `Prop*.v` the property
theorems with their examples and `Print Assumptions`; `TestReplay.v` the repository's tests on the model.
`seeded/LOG.jsonl` records wrong programs tried against the theorems.

Naming: `Cnn_..._refuted` is a counterexample to the claim `Cnn` as stated in `properties.jsonl`;
`Cnn_..._partial` proves the part of it that holds, with the missing part named in `MANIFEST.json`.
