{
 "claims": [
  {
   "property": "C01",
   "status": "proved",
   "theorems": [
    "C01_concatenation_applies_left_to_right"
   ],
   "note": "Exact real arithmetic, perspective matrices included."
  },
  {
   "property": "C02",
   "status": "proved",
   "theorems": [
    "C02_concatenation_regroups",
    "C02_empty_chain_raises"
   ],
   "note": "Exact real arithmetic, 3x3 matrices."
  },
  {
   "property": "C03",
   "status": "proved",
   "theorems": [
    "C03_translate"
   ],
   "note": "Exact real arithmetic."
  },
  {
   "property": "C04",
   "status": "proved",
   "theorems": [
    "C04_scale_shear",
    "C04_mirror",
    "C04_mirrorAround"
   ],
   "note": "Exact real arithmetic."
  },
  {
   "property": "C05",
   "status": "proved",
   "theorems": [
    "C05_rotation_fixes_centre",
    "C05_rotation_keeps_distances",
    "C05_rotation_direction",
    "C05_rotation_back",
    "C05_quarter_turns_exact",
    "C05_exact_trigonometry"
   ],
   "note": "Real arithmetic with sine and cosine rounded to 15 places as in the code; exact variant for unrounded trigonometry."
  },
  {
   "property": "C06",
   "status": "proved",
   "theorems": [
    "C06_pointwise",
    "C06_pointwise_contour",
    "C06_pointwise_segment",
    "C06_raises",
    "C06_keeps_connected"
   ],
   "note": "Any number type, any matrix."
  },
  {
   "property": "C07",
   "status": "proved",
   "theorems": [
    "C07_affine_commutes_with_get"
   ],
   "note": "Exact real arithmetic, any order."
  },
  {
   "property": "C08",
   "status": "proved",
   "theorems": [
    "C08_failure_set",
    "C08_collinearity",
    "C08_perspectiveFrom"
   ],
   "note": "Exact real arithmetic."
  },
  {
   "property": "C09",
   "status": "proved",
   "theorems": [
    "C09_encloses",
    "C09_sentinels"
   ],
   "note": "Every totally ordered set of numbers; instances: reals, rationals, non-NaN binary64."
  },
  {
   "property": "C10",
   "status": "partial",
   "theorems": [
    "C10_tight_refuted",
    "C10_tight_partial",
    "C10_exact_edges"
   ],
   "note": "The full statement is false beyond +-32768 (C10_tight_refuted: BoundsRectangle((40000,40000)) has left 32768). Proved when the points reach into the range on every side (in_range), and the exact edges in general."
  },
  {
   "property": "C11",
   "status": "partial",
   "theorems": [
    "C11_union_contains",
    "C11_union_comm",
    "C11_union_idem_refuted",
    "C11_union_least_partial",
    "C11_union_assoc_partial",
    "C11_union_idem_partial",
    "C11_union_of_points_partial"
   ],
   "note": "Containment and commutativity hold without conditions. The rest is false when both rectangles are empty (C11_union_idem_refuted: the union of two empty rectangles is the square +-32768); proved when not both operands are empty."
  },
  {
   "property": "C12",
   "status": "partial",
   "theorems": [
    "C12_fromContours_encloses",
    "C12_tight_refuted",
    "C12_fromContour_tight_partial",
    "C12_fromContours_tight_partial"
   ],
   "note": "Enclosure is unconditional. Tightness is false with an empty contour or segment in the list (C12_tight_refuted); proved for non-empty contours of non-empty segments within the sentinel range."
  },
  {
   "property": "C13",
   "status": "proved",
   "theorems": [
    "C13_intersection_none",
    "C13_intersection_some"
   ],
   "note": "Every totally ordered set of numbers."
  },
  {
   "property": "C14",
   "status": "proved",
   "theorems": [
    "C14_relationTo",
    "C14_relationTo_consistent"
   ],
   "note": "Every totally ordered set of numbers, rectangles built from at least one point."
  },
  {
   "property": "C15",
   "status": "proved",
   "theorems": [
    "C15_contour_bounds",
    "C15_contour_shape",
    "C15_center",
    "C15_fractions",
    "C15_area"
   ],
   "note": "Order part for any number type, arithmetic part over the reals. Rectangles built from at least one point."
  },
  {
   "property": "C16",
   "status": "proved",
   "theorems": [
    "C16_exactly_one_class",
    "C16_other_lengths",
    "C16_slope"
   ],
   "note": "Exact real arithmetic. The empty segment raises IndexError in all three tests (C16_other_lengths)."
  },
  {
   "property": "C17",
   "status": "partial",
   "theorems": [
    "C17_common_point_found",
    "C17_parallel_none",
    "C17_sound_refuted",
    "C17_sound_partial"
   ],
   "note": "Completeness and the parallel case hold without conditions. Soundness is false for lines entirely beyond +-32768 on one side (C17_sound_refuted: lines (40000,0)-(50000,0) and (35000,-10)-(35000,10) give (35000,0)); proved when each line reaches into the sentinel range."
  },
  {
   "property": "C18",
   "status": "partial",
   "theorems": [
    "C18_start_point_refuted",
    "C18_far_line_refuted",
    "C18_membership_partial",
    "C18_true_is_member_partial",
    "C18_start_point_never"
   ],
   "note": "False for the start point of every non-vertical line (C18_start_point_never) and for lines entirely beyond +-32768 (C18_far_line_refuted); proved as an equivalence otherwise."
  },
  {
   "property": "C19",
   "status": "proved",
   "theorems": [
    "C19_midpoint",
    "C19_length",
    "C19_length_metric",
    "C19_slopeAngle_range"
   ],
   "note": "Exact real arithmetic."
  },
  {
   "property": "C20",
   "status": "proved",
   "theorems": [
    "C20_nonempty_connected",
    "C20_closed",
    "C20_closed_real"
   ],
   "note": "Non-emptiness and connection for any number type; closedness for any number type whose == is equality, in particular the reals. Histories include calls that raise."
  },
  {
   "property": "C21",
   "status": "proved",
   "theorems": [
    "C21_quadratic_spline",
    "C21_at_most_one_off_curve",
    "C21_before_moveTo"
   ],
   "note": "Exact real midpoints; short argument lists for any number type."
  },
  {
   "property": "C22",
   "status": "proved",
   "theorems": [
    "C22_component",
    "C22_nesting"
   ],
   "note": "Exact real arithmetic; glyph drawing with any nesting depth (deeper nesting than the fuel is RecursionError)."
  },
  {
   "property": "C23",
   "status": "proved",
   "theorems": [
    "C23_drawing_recorded",
    "C23_glyph_drawn"
   ],
   "note": "Exact real arithmetic."
  },
  {
   "property": "C24",
   "status": "proved",
   "theorems": [
    "C24_sound"
   ],
   "note": "Exact real arithmetic."
  },
  {
   "property": "C25",
   "status": "proved",
   "theorems": [
    "C25_none_only_if_singular",
    "C25_invertible_is_inverted"
   ],
   "note": "Exact real arithmetic."
  },
  {
   "property": "C26",
   "status": "proved",
   "theorems": [
    "C26_shapes"
   ],
   "note": "The model works on values, so mutation of the argument is not expressible; all writes of the model go to the copies built by copyRows (MatrixInversion.py:33-45)."
  },
  {
   "property": "C27",
   "status": "proved",
   "theorems": [
    "C27_pascal",
    "C27_outside",
    "C27_table_grows"
   ],
   "note": "Exact real arithmetic."
  },
  {
   "property": "C28",
   "status": "proved",
   "theorems": [
    "C28_bernstein_basis"
   ],
   "note": "Exact real arithmetic."
  },
  {
   "property": "C29",
   "status": "partial",
   "theorems": [
    "C29_multiply",
    "C29_associative",
    "C29_unit",
    "C29_transpose",
    "C29_transpose_product",
    "C29_errors_partial",
    "C29_mismatch_raises_refuted"
   ],
   "note": "Algebra and shapes proved; the error clause is false in general: a second factor with too many rows is silently truncated and multiply([], X) is [] (C29_mismatch_raises_refuted); the cases that do raise are in C29_errors_partial."
  },
  {
   "property": "C30",
   "status": "proved",
   "theorems": [
    "C30_polygonal",
    "C30_coinciding_points_raise",
    "C30_uniform",
    "C30_given_n"
   ],
   "note": "Exact real arithmetic."
  },
  {
   "property": "C31",
   "status": "proved",
   "theorems": [
    "C31_interpolates",
    "C31_succeeds",
    "C31_parameters"
   ],
   "note": "Any call history."
  },
  {
   "property": "C32",
   "status": "proved",
   "theorems": [
    "C32_none_iff_parallel",
    "C32_meets_both_lines",
    "C32_unique"
   ],
   "note": "Exact real arithmetic."
  },
  {
   "property": "C33",
   "status": "proved",
   "theorems": [
    "C33_quadratic",
    "C33_linear",
    "C33_other_lengths",
    "C33_nan"
   ],
   "note": "Exact real arithmetic; NaN entries characterised."
  },
  {
   "property": "C34",
   "status": "proved",
   "theorems": [
    "C34_cube",
    "C34_odd",
    "C34_monotone",
    "C34_sign"
   ],
   "note": "Exact real arithmetic, math.pow(v, 1/3) as the real power."
  },
  {
   "property": "C35",
   "status": "proved",
   "theorems": [
    "C35_first_occurrences",
    "C35_same_values"
   ],
   "note": "Any type whose equality test is an equivalence relation; sharper form for Leibniz equality."
  },
  {
   "property": "C36",
   "status": "proved",
   "theorems": [
    "C36_lerp",
    "C36_map"
   ],
   "note": "Exact real arithmetic."
  },
  {
   "property": "C37",
   "status": "proved",
   "theorems": [
    "C37_get_is_the_Bernstein_sum",
    "C37_get_is_curve"
   ],
   "note": "Exact real arithmetic, any order, any real t."
  },
  {
   "property": "C38",
   "status": "proved",
   "theorems": [
    "C38_ends_any_number_type",
    "C38_ends_real",
    "C38_ends_float",
    "C38_ends_rational"
   ],
   "note": "Any number type in which 0 == 0, 1 == 1 and 1 != 0; instances reals, rationals, binary64 (NaN and infinities included)."
  },
  {
   "property": "C39",
   "status": "proved",
   "theorems": [
    "C39_split_restricts",
    "C39_line_raises"
   ],
   "note": "Exact real arithmetic, any real t. Order 1 raises IndexError (C39_line_raises)."
  },
  {
   "property": "C40",
   "status": "proved",
   "theorems": [
    "C40_split_extracts",
    "C40_outside"
   ],
   "note": "Exact real arithmetic; also t1 = 1 when t2 = 1. C40_outside says what happens outside the domain."
  },
  {
   "property": "C41",
   "status": "proved",
   "theorems": [
    "C41_intervals_after_any_history"
   ],
   "note": "Induction over all histories of one- and two-argument split calls."
  },
  {
   "property": "C42",
   "status": "proved",
   "theorems": [
    "C42_boxes_enclose"
   ],
   "note": "Exact real arithmetic, no range condition."
  },
  {
   "property": "C43",
   "status": "proved",
   "theorems": [
    "C43_bbox_tight",
    "C43_boundsRectangle_tight"
   ],
   "note": "Exact real arithmetic; safe range is 2^53-1 for bbox, 32768 for boundsRectangle."
  },
  {
   "property": "C44",
   "status": "proved",
   "theorems": [
    "C44_hull_is_the_de_Casteljau_triangle"
   ],
   "note": "Exact real arithmetic, any order."
  },
  {
   "property": "C45",
   "status": "proved",
   "theorems": [
    "C45_in_control_box",
    "C45_in_skeletonBounds",
    "C45_skeletonBounds_room"
   ],
   "note": "Exact real arithmetic, any order."
  },
  {
   "property": "C46",
   "status": "proved",
   "theorems": [
    "C46_dcPoints_are_derivatives",
    "C46_derivative",
    "C46_line_raises"
   ],
   "note": "Exact real arithmetic. Order 1 raises IndexError."
  },
  {
   "property": "C47",
   "status": "proved",
   "theorems": [
    "C47_direction",
    "C47_direction_of_a_line"
   ],
   "note": "Exact real arithmetic."
  },
  {
   "property": "C48",
   "status": "proved",
   "theorems": [
    "C48_quadratic_roots",
    "C48_quadratic_roots_on_a_line",
    "C48_inside",
    "C48_line_raises"
   ],
   "note": "Exact arithmetic (square root exact, exact trigonometry for the line variant). The result also contains roots within 1e-6 outside [0,1], as the code accepts; a curve lying inside the line gives no roots."
  },
  {
   "property": "C49",
   "status": "proved",
   "theorems": [
    "C49_cubic_roots",
    "C49_cubic_roots_on_a_line"
   ],
   "note": "Exact arithmetic; cube roots and cosines exact. Hypothesis cubic_clear says the coefficients the code compares with 1e-6 are exactly 0 or outside the tolerance."
  },
  {
   "property": "C50",
   "status": "proved",
   "theorems": [
    "C50_quadratic_line_intersections",
    "C50_cubic_line_intersections",
    "C50_intersectWithLine"
   ],
   "note": "Quadratic curves unconditionally; cubic curves under cubic_clear; also intersectWithLine."
  },
  {
   "property": "C51",
   "status": "proved",
   "theorems": [
    "C51_curveIntersects_terminates",
    "C51_pairiteration_terminates",
    "C51_threshold_needed",
    "C51_range_needed"
   ],
   "note": "Exact real arithmetic. Depth k+1 suffices when 2^k > degree * control polygon length / threshold; hypotheses shown necessary (C51_threshold_needed, C51_range_needed)."
  },
  {
   "property": "C52",
   "status": "proved",
   "theorems": [
    "C52_reported_pairs_are_near",
    "C52_fresh_curves"
   ],
   "note": "Exact real arithmetic, no range hypothesis; stated in the taxicab metric, which bounds each coordinate."
  },
  {
   "property": "C53",
   "status": "proved",
   "theorems": [
    "C53_no_crossing_is_missed",
    "C53_fresh_curves"
   ],
   "note": "Exact real arithmetic, no range hypothesis."
  },
  {
   "property": "C54",
   "status": "proved",
   "theorems": [
    "C54_reduce_tiles",
    "C54_empty_result",
    "C54_gentle_curves"
   ],
   "note": "For all quadratic/cubic curves over exact reals: reduce terminates within 102 loop steps per segment, and returns a tiling of [0,1] (consecutive intervals, each segment is that part of the curve), or an empty list, or raises ZeroDivisionError when an end tangent vanishes. C54_empty_result shows the empty list does occur."
  },
  {
   "property": "C55",
   "status": "proved",
   "theorems": [
    "C55_reduce_simple",
    "C55_simple_holds"
   ],
   "note": "Every returned segment satisfies the code's simple(), and independently turns by less than 60 degrees without an S-bend. Exact real arithmetic (with binary64 the accumulated step 0.01 may skip the test at t = 1)."
  },
  {
   "property": "C56",
   "status": "partial",
   "theorems": [
    "C56_raiseOrder_refuted",
    "C56_raiseOrder_partial",
    "C56_raised_polygon_partial",
    "C56_curve_kept_partial"
   ],
   "note": "False as stated (C56_raiseOrder_refuted: the line (0,0),(1,0) becomes a cubic through (5/16,0) at t=1/2). Proved: the result is the control polygon of order n+1 of the same curve with its first point doubled (order n+2, ends kept), and the curve is kept exactly when all control points coincide."
  },
  {
   "property": "C57",
   "status": "proved",
   "theorems": [
    "C57_normal",
    "C57_offset"
   ],
   "note": "Exact real arithmetic; a zero derivative raises ZeroDivisionError."
  },
  {
   "property": "C58",
   "status": "proved",
   "theorems": [
    "C58_getLUT",
    "C58_one_step_raises",
    "C58_no_steps"
   ],
   "note": "Over exact reals, after every history of queries on the object."
  },
  {
   "property": "C59",
   "status": "proved",
   "theorems": [
    "C59_history_independent",
    "C59_floats"
   ],
   "note": "Generic over every number type with a total order (reals, rationals, binary64 without NaN literals involved); covers dcPoints, bbox, boundsRectangle, getLUT, reduce, derivative, length, get, hull, split."
  },
  {
   "property": "C60",
   "status": "partial",
   "theorems": [
    "C60_extrema_refuted",
    "C60_only_ends_added_partial",
    "C60_other_queries_partial"
   ],
   "note": "The code violates it: _getminmax and reduce insert 0 and 1 into the memoised extrema lists (C60_extrema_refuted). Proved instead: only a leading 0 and trailing 1 can be added, and extrema is exact before any bbox/boundsRectangle/reduce."
  },
  {
   "property": "C61",
   "status": "proved",
   "theorems": [
    "C61_align",
    "C61_align_to_a_segment"
   ],
   "note": "Exact trigonometry; also align(segment)."
  },
  {
   "property": "C62",
   "status": "proved",
   "theorems": [
    "C62_ABC"
   ],
   "note": "Exact real arithmetic; c is None exactly when the lines are parallel."
  },
  {
   "property": "C63",
   "status": "proved",
   "theorems": [
    "C63_length_nonneg",
    "C63_length_similar",
    "C63_length_at_most_polygon",
    "C63_length_at_least_chord",
    "C63_length_of_a_straight_curve",
    "C63_line_raises",
    "C63_length_query"
   ],
   "note": "Decimal arithmetic on the 40-digit tables is modelled exactly (the code rounds to precision+2 digits). Also proved: at least the chord, and invariance under rotation."
  },
  {
   "property": "C64",
   "status": "partial",
   "theorems": [
    "C64_length_refuted",
    "C64_precision_kept_partial"
   ],
   "note": "The code violates it: on a line length raises IndexError and leaves the precision raised by 2 (C64_length_refuted). For quadratics and cubics it is kept through every history."
  },
  {
   "property": "C65",
   "status": "proved",
   "theorems": [
    "C65_contour_bounds",
    "C65_outline_bounds",
    "C65_empty_raises"
   ],
   "note": "Contours and outlines of lines, quadratics and cubics (curves of order above 3 have an empty extrema set, see C48). The empty contour raises IndexError."
  },
  {
   "property": "C66",
   "status": "partial",
   "theorems": [
    "C66_getLUT_refuted",
    "C66_getLUT_partial",
    "C66_exact_partial",
    "C66_one_curve_partial",
    "C66_table_length_partial",
    "C66_table_entry_partial"
   ],
   "note": "Refuted: on k>=2 curves getLUT(s) followed by getLUT(k(s-1)+1) returns the old table. Proved exactly: after every history of getLUT/findClosestPoint calls, a kept table of length steps is returned and any other request builds a new table (C66_exact_partial); in particular all one-curve contours are right. Length and entries of the table proved."
  },
  {
   "property": "C67",
   "status": "partial",
   "theorems": [
    "C67_bounds_refuted",
    "C67_getLUT_refuted",
    "C67_delete_refuted",
    "C67_set_ends_partial",
    "C67_delete_ends_partial"
   ],
   "note": "Refuted for boundsRectangle, getLUT and deletion of the only curve. Partial: beziers, start and end after any edit are those of a fresh contour; bounds and table are unchanged."
  },
  {
   "property": "C68",
   "status": "proved",
   "theorems": [
    "C68_findClosest"
   ],
   "note": "For all points and tables over R; 2^53-1 is the start value of the code."
  },
  {
   "property": "C69",
   "status": "partial",
   "theorems": [
    "C69_closest_refuted",
    "C69_many_steps_refuted",
    "C69_far_refuted",
    "C69_closest_partial"
   ],
   "note": "Refuted: an end point of a curve is never sampled; with more than 401 steps, or more than 201 when the nearest table point is at the start or end of a curve, or for points 2^53-1 away, the answer is (2^53-1, (0,0)). Otherwise (coordinates up to 1e15) the answer of a new contour is a point of the contour with its distance, within 4/5 of a step of the nearest table point."
  },
  {
   "property": "C70",
   "status": "proved",
   "theorems": [
    "C70_d_draws",
    "C70_edited"
   ],
   "note": "Proved for any numbers whose printed form is read back (record printer, a stated hypothesis about str on floats), for contours as constructed and after any sequence of assignments, deletions and lookups."
  },
  {
   "property": "C71",
   "status": "partial",
   "theorems": [
    "C71_poly_refuted",
    "C71_poly_malformed_refuted",
    "C71_history_refuted",
    "C71_paths_refuted",
    "C71_drawContours_partial",
    "C71_poly_single_partial",
    "C71_poly_contours_partial",
    "C71_poly_paths_partial",
    "C71_drawPaths_partial"
   ],
   "note": "Refuted for poly=True: the last command survives M, so later contours or calls can be drawn wrongly or as malformed data. Partial: poly=False with any history (drawContours, drawPaths); poly=True exactly when every contour (path) begins with L or with another command than the one written before it (both directions)."
  },
  {
   "property": "C72",
   "status": "partial",
   "theorems": [
    "C72_balanced",
    "C72_underflow",
    "C72_pushed",
    "C72_drawContours_partial",
    "C72_drawPaths",
    "C72_drawPoints_partial",
    "C72_drawContours_refuted",
    "C72_drawPoints_refuted",
    "C72_circles_refuted"
   ],
   "note": "Proved for matching pushes and pops with drawing calls in between, and for calls that do not raise. Refuted: IndexError (empty contour, no points) leaves the colour pushed; filled circles leave their fill colour."
  },
  {
   "property": "C73",
   "status": "partial",
   "theorems": [
    "C73_fill_refuted"
   ],
   "note": "Refuted for every input: pushFillAttributes has no parameter fill, so TypeError is raised and nothing is drawn."
  },
  {
   "property": "C74",
   "status": "proved",
   "theorems": [
    "C74_case_insensitive",
    "C74_none",
    "C74_error",
    "C74_known",
    "C74_range",
    "C74_gray_grey"
   ],
   "note": "Strings are ASCII strings."
  },
  {
   "property": "C75",
   "status": "proved",
   "theorems": [
    "C75_visits",
    "C75_repeats",
    "C75_range",
    "C75_components"
   ],
   "note": "Hues are integers; colorsys is modelled with exact rationals (with floats: C125)."
  },
  {
   "property": "C76",
   "status": "partial",
   "theorems": [
    "C76_intersects_refuted",
    "C76_intersects_sound_partial",
    "C76_intersects_complete_partial",
    "C76_intersects_terminates_partial"
   ],
   "note": "The code violates completeness: two crossing quadratics on which reduce gives up yield no intersection (C76_intersects_refuted). Soundness holds for all curves; completeness and termination are proved when reduce returns a non-empty list for both curves."
  },
  {
   "property": "C77",
   "status": "proved",
   "theorems": [
    "C77_polyline"
   ],
   "note": "Proved for any numbers whose printed form is read back."
  },
  {
   "property": "C78",
   "status": "proved",
   "theorems": [
    "C78_self_sound",
    "C78_self_complete",
    "C78_self_terminates"
   ],
   "note": "Exact arithmetic; conditional on reduce returning segments (as the property says). When reduce gives up and returns [] selfIntersects returns [] as well; C54_gentle_curves gives a class of curves for which reduce succeeds."
  },
  {
   "property": "C79",
   "status": "proved",
   "theorems": [
    "C79_drawHull"
   ],
   "note": "Generic in the number type and for any printer that is read back; labels are modelled by their position and fill only (not their text), 'black' and 0.5 are any truthy values. The fill colour is left at the point colour (see C72)."
  },
  {
   "property": "C80",
   "status": "proved",
   "theorems": [
    "C80_tightbbox",
    "C80_tightbbox_exact"
   ],
   "note": "Real coordinates; with sin and cos rounded to 15 digits the rectangle encloses the curve enlarged about its start by a factor within 4e-15 of 1, with exact functions the curve itself."
  },
  {
   "property": "C81",
   "status": "proved",
   "theorems": [
    "C81_scale_number"
   ],
   "note": "Real coordinates."
  },
  {
   "property": "C82",
   "status": "partial",
   "theorems": [
    "C82_end_tangents_refuted",
    "C82_scale_function_partial",
    "C82_scale_function_quadratic_refuted"
   ],
   "note": "Refuted for a number (the inner points move radially, which does not preserve tangents) and for functions on quadratics (raiseOrder duplicates the first point, so every call divides by zero). Proved for functions on cubics, with the error cases."
  },
  {
   "property": "C83",
   "status": "proved",
   "theorems": [
    "C83_offset_straight",
    "C83_offset_pieces",
    "C83_pieces_join",
    "C83_quadratics"
   ],
   "note": "Real coordinates. Nothing is claimed about the end of a straight piece (the 0.0001 tolerance of _linear leaves a gap there)."
  },
  {
   "property": "C84",
   "status": "proved",
   "theorems": [
    "C84_linear",
    "C84_clockwise"
   ],
   "note": "_linear with exact trigonometric functions, real coordinates."
  },
  {
   "property": "C85",
   "status": "partial",
   "theorems": [
    "C85_exact_partial",
    "C85_float_refuted"
   ],
   "note": "Proved in exact arithmetic; refuted in binary64 for any behaviour of the transcendental functions: a straight diagonal curve makes math.acos raise ValueError."
  },
  {
   "property": "C86",
   "status": "proved",
   "theorems": [
    "C86_least_squares"
   ],
   "note": "Exact real arithmetic. Hypothesis: bestFit returns (the normal matrix is regular); C86_case gives a concrete instance."
  },
  {
   "property": "C87",
   "status": "proved",
   "theorems": [
    "C87_exact_trigonometry",
    "C87_rounded"
   ],
   "note": "Exact version with exact sin/cos; second theorem bounds the error from round(.., 15)."
  },
  {
   "property": "C88",
   "status": "proved",
   "theorems": [
    "C88_point",
    "C88_pointwise"
   ],
   "note": "Arithmetic exact except for the modelled round(sin/cos, 15); the pointwise theorem is for any number type."
  },
  {
   "property": "C89",
   "status": "proved",
   "theorems": [
    "C89_rawSlopeAngle",
    "C89_slopeAngle",
    "C89_slope"
   ],
   "note": "Exact real arithmetic with exact atan2 and degrees."
  },
  {
   "property": "C90",
   "status": "proved",
   "theorems": [
    "C90_signed_angle"
   ],
   "note": "Exact real arithmetic with exact atan2."
  },
  {
   "property": "C91",
   "status": "proved",
   "theorems": [
    "C91_overlaps"
   ],
   "note": "Exact real arithmetic. The bound 32768 comes from the initial values min/max in BoundsRectangle-style loops."
  },
  {
   "property": "C92",
   "status": "proved",
   "theorems": [
    "C92_unzipPoints",
    "C92_flatten",
    "C92_minMax",
    "C92_toMicros",
    "C92_between",
    "C92_pathFromSegments"
   ],
   "note": "unzipPoints, flatten for any number type; minMax for any total order (floats without NaN included); the rest over the reals."
  },
  {
   "property": "C93",
   "status": "proved",
   "theorems": [
    "C93_css_keywords",
    "C93_other_names"
   ],
   "note": "ASCII strings only (str.isalpha and str.lower also accept other Unicode letters). css3 in SpecColor.v is the CSS table."
  },
  {
   "property": "C94",
   "status": "proved",
   "theorems": [
    "C94_random_color",
    "C94_conversion"
   ],
   "note": "Exact rational arithmetic, integer current hue in the first theorem; any rational hue in the second. With Python's floats twelve of the 360 hues round a tie the other way: C125."
  },
  {
   "property": "C95",
   "status": "proved",
   "theorems": [
    "C95_tangent_normal"
   ],
   "note": "Exact real arithmetic."
  },
  {
   "property": "C96",
   "status": "proved",
   "theorems": [
    "C96_crossesX",
    "C96_crossesY"
   ],
   "note": "For any total order on comparable values; the hypothesis bottom <= top (left <= right) holds for every rectangle of at least one point in range."
  },
  {
   "property": "C97",
   "status": "proved",
   "theorems": [
    "C97_rotation",
    "C97_perspective",
    "C97_identity"
   ],
   "note": "Exact real arithmetic with round(.., 15) of sin and cos in rotation."
  },
  {
   "property": "C98",
   "status": "partial",
   "theorems": [
    "C98_arrow_partial",
    "C98_skeleton_partial",
    "C98_arrow_refuted",
    "C98_skeleton_refuted"
   ],
   "note": "The claim is false: C98_arrow_refuted (stroke colour and dash are lost) and C98_skeleton_refuted (label size and fill colour are lost). C98_arrow_partial and C98_skeleton_partial say exactly what the two calls draw and change (for points and colours of any number); stroke attributes of drawSkeleton, and both stacks, are kept. drawHull is in C79."
  },
  {
   "property": "C99",
   "status": "proved",
   "theorems": [
    "C99_text",
    "C99_complex_circles"
   ],
   "note": "A complex number is modelled as its pair of parts."
  },
  {
   "property": "C100",
   "status": "partial",
   "theorems": [
    "C100_derivative_used_partial",
    "C100_derivative_refuted",
    "C100_line_refuted",
    "C100_scale_collapses_refuted"
   ],
   "note": "Holds for orders 2 and 3 (C46, C81). Violated otherwise: _derivative raises IndexError on lines, treats the first three derivative points as a quadratic for order 4 or more, and scale leaves the control points from the fourth to the last but one at (0,0)."
  },
  {
   "property": "C101",
   "status": "proved",
   "theorems": [
    "C101_accuracy",
    "C101_higher_order"
   ],
   "note": "In IEEE binary64 (Flocq), every rounding included; evaluation at t = 0 and t = 1 returns the end points themselves (C38)."
  },
  {
   "property": "C102",
   "status": "proved",
   "theorems": [
    "C102_affine_accuracy"
   ],
   "note": "In IEEE binary64, for matrices whose third column is 0, 0, 1 as all affine ones built by Transform."
  },
  {
   "property": "C103",
   "status": "proved",
   "theorems": [
    "C103_apply",
    "C103_product",
    "C103_translate",
    "C103_scale",
    "C103_mirrorAround"
   ],
   "note": "In IEEE binary64; results are exact integers, not only close."
  },
  {
   "property": "C104",
   "status": "proved",
   "theorems": [
    "C104_accuracy",
    "C104_halving_exact"
   ],
   "note": "In IEEE binary64; recorded parameter intervals are not part of this property (C41)."
  },
  {
   "property": "C105",
   "status": "proved",
   "theorems": [
    "C105_table"
   ],
   "note": "In IEEE binary64; step counts 0 and 1 are covered by C58."
  },
  {
   "property": "C106",
   "status": "proved",
   "theorems": [
    "C106_pair_terminates",
    "C106_terminates",
    "C106_fine_threshold_diverges"
   ],
   "note": "In IEEE binary64, for any implementation of the library functions. Depth 49 always suffices within the bounds; sharper depth from the sizes in C106_pair_terminates. C106_fine_threshold_diverges is the counterpart below the rounding level."
  },
  {
   "property": "C107",
   "status": "partial",
   "theorems": [
    "C107_not_too_large",
    "C107_quadratic_covers",
    "C107_cubic_covers_partial",
    "C107_cubic_refuted"
   ],
   "note": "Never too large; covers for all quadratics and for cubics whose coordinates are multiples of a power of two (integers, halves, ...; at most 2^20 units). Refuted for other cubics: droots tests d != 0 exactly, so rounding noise in d hides the extremum; (0,0),(1,8/3),(2,3),(3,1) has box top 1 but reaches 2.25."
  },
  {
   "property": "C108",
   "status": "partial",
   "theorems": [
    "C108_complete_refuted",
    "C108_sound_refuted",
    "C108_quadratic_sound_partial",
    "C108_touching_refuted"
   ],
   "note": "Quadratics: reported parameters belong to points within 2 thresholds plus a rounding term. Otherwise refuted through the boxes of C107: a crossing cubic is missed at every depth and threshold, touching integer quadratics are missed, and a crossing is reported where the curves are 15 apart with threshold 1/2."
  },
  {
   "property": "C109",
   "status": "proved",
   "theorems": [
    "C109_new_plotter",
    "C109_margins"
   ],
   "note": "Over the reals with floor division; frame margins and the base class are outside the model."
  },
  {
   "property": "C110",
   "status": "proved",
   "theorems": [
    "C110_recorded",
    "C110_nothing_else",
    "C110_errors",
    "C110_cyclic",
    "C110_limit"
   ],
   "note": "Affine images over the reals; independence of the recursion limit for any number type."
  },
  {
   "property": "C111",
   "status": "proved",
   "theorems": [
    "C111_reduce_terminates"
   ],
   "note": "Library functions arbitrary; the reachable exceptions are not listed."
  },
  {
   "property": "C112",
   "status": "proved",
   "theorems": [
    "C112_reduce_tiles",
    "C112_split_part"
   ],
   "note": "The pieces need not pass the test simple themselves: reduce splits again at a rounded parameter after testing."
  },
  {
   "property": "C113",
   "status": "proved",
   "theorems": [
    "C113_intersects_terminates"
   ],
   "note": "Which results are returned is not stated here; see C108."
  },
  {
   "property": "C114",
   "status": "proved",
   "theorems": [
    "C114_measures",
    "C114_pairs",
    "C114_complex_raises",
    "C114_circles",
    "C114_circles_mixed"
   ],
   "note": "For any number type. Functions not listed (contours of complex points, Bezier) are not modelled on complex points."
  },
  {
   "property": "C115",
   "status": "proved",
   "theorems": [
    "C115_library_exists",
    "C115_rotation_accuracy"
   ],
   "note": "C115_library_exists: a library with these properties exists (correct rounding). The accuracy of a real libm is an assumption, stated as a hypothesis."
  },
  {
   "property": "C116",
   "status": "partial",
   "theorems": [
    "C116_quarter_turns_partial",
    "C116_many_turns_refuted"
   ],
   "note": "Up to six quarter turns either way. Refuted for eleven (990 degrees): the abscissa of the image of (1, 0) is about 10^-15 instead of 0, for every library accurate to 2^-53. Seven to ten are not decided."
  },
  {
   "property": "C117",
   "status": "proved",
   "theorems": [
    "C117_alignment_accuracy"
   ],
   "note": "The atan2 hypothesis allows -pi as well as pi on the negative axis, so signed zeros are covered."
  },
  {
   "property": "C118",
   "status": "proved",
   "theorems": [
    "C118_linear_test"
   ],
   "note": "Closed curves (first point equal to last) are excluded: the direction of the chord is then atan2(0, 0)."
  },
  {
   "property": "C119",
   "status": "partial",
   "theorems": [
    "C119_quadratic_roots_grid_partial",
    "C119_off_grid_refuted"
   ],
   "note": "Proved for control points on a binary grid (whole multiples of 2^-e, e <= 400, at most N <= 2^25 of them), with error 10*2^-53*N. Refuted off the grid: y coordinates -1, 0, 1 + 2^-52 have a root near 1/2, but only t = 0 is reported, where y is -1."
  },
  {
   "property": "C120",
   "status": "proved",
   "theorems": [
    "C120_axis_roots",
    "C120_axis_crossings",
    "C120_library_exists"
   ],
   "note": "C120_library_exists: a library meeting the hypotheses exists. Oblique lines are not covered: the aligned points are then rounded, and C119_off_grid_refuted shows what rounding can do."
  },
  {
   "property": "C121",
   "status": "proved",
   "theorems": [
    "C121_line_crossing",
    "C121_intersection_point",
    "C121_point_on_line",
    "C121_fractions_can_fail"
   ],
   "note": "C121_fractions_can_fail: with coordinates in tenths two segments that share an end point are reported not to meet."
  },
  {
   "property": "C122",
   "status": "proved",
   "theorems": [
    "C122_closest_point",
    "C122_library_exists"
   ],
   "note": "For new contours and 2 to 200 steps. That an end point of a curve is never sampled, so that the answer can be farther than a point of the table, is C69; it holds here too and shows as the 4/5 of a step."
  },
  {
   "property": "C123",
   "status": "proved",
   "theorems": [
    "C123_derivative",
    "C123_normal",
    "C123_tangent",
    "C123_offset",
    "C123_no_normal"
   ],
   "note": "For quadratics and cubics. Near a cusp (derivative shorter than four times its error) nothing is claimed except the exact case of C123_no_normal."
  },
  {
   "property": "C124",
   "status": "proved",
   "theorems": [
    "C124_polygonal",
    "C124_coinciding_points_raise",
    "C124_uniform",
    "C124_library_exists"
   ],
   "note": "fit and bestFit themselves (matrix inversion) are treated with exact arithmetic only (C31, C86)."
  },
  {
   "property": "C125",
   "status": "proved",
   "theorems": [
    "C125_whole_hues",
    "C125_ties",
    "C125_float_hue",
    "C125_components",
    "C125_not_a_number",
    "C125_hue_360_attained",
    "C125_remainder"
   ],
   "note": "Integer hues checked by computation over the 360 residues and lifted to all integers. colorsys and float remainder follow CPython's source."
  },
  {
   "property": "C126",
   "status": "proved",
   "theorems": [
    "C126_before_moveTo",
    "C126_after_moveTo",
    "C126_other_calls",
    "C126_raising_keeps_the_pen"
   ],
   "note": "For every number type. Errors inside a component are C110's."
  },
  {
   "property": "C127",
   "status": "proved",
   "theorems": [
    "C127_truetype",
    "C127_two_levels",
    "C127_unscaled",
    "C127_grid"
   ],
   "note": "Coordinates are doubles in the model; fontTools passes ints, for which the same exact results are reached. The depth bound is sufficient: with scales near 2 a third level can need more than 53 bits."
  },
  {
   "property": "C128",
   "status": "proved",
   "theorems": [
    "C128_length_where_the_speed_is_nearly_polynomial",
    "C128_length_of_a_quadratic",
    "C128_length_of_a_cubic",
    "C128_length_of_any_curve",
    "C128_true_length_between_chord_and_polygon",
    "C128_halves_of_a_split",
    "C128_piece_of_a_split"
   ],
   "note": "The error bound comes from the 24-point table itself: its moments up to degree 47 are computed exactly (within 10^-39), the speed of a steady curve is followed by a truncated square root series. Over the reals; the rounding of the Decimal arithmetic is not in it."
  },
  {
   "property": "C129",
   "status": "proved",
   "theorems": [
    "C129_decimal_length",
    "C129_whole_coordinates",
    "C129_true_length",
    "C129_line_raises",
    "C129_digits_of_the_result"
   ],
   "note": "Decimals are reals rounded with Flocq's radix-10 FLX format (no exponent limits); Decimal(float) is exact."
  },
  {
   "property": "C130",
   "status": "proved",
   "theorems": [
    "C130_points",
    "C130_directions_and_lengths",
    "C130_parts",
    "C130_boxes",
    "C130_intersections",
    "C130_lines_and_offsets"
   ],
   "note": "Exact arithmetic with sin and cos rounded to 15 digits. C130_range_needed and C130_tolerance_is_fixed show that the range condition and k = 1 are needed where they are assumed."
  },
  {
   "property": "C131",
   "status": "proved",
   "theorems": [
    "C131_exchanged_intersections",
    "C131_exchanged_lines",
    "C131_exchanged_boxes",
    "C131_backwards_points",
    "C131_backwards_sizes",
    "C131_backwards_parts"
   ],
   "note": "Over the real numbers. The recursion of the search is bounded by fuel on both sides; reduce gets the fuel it needs (102)."
  },
  {
   "property": "C132",
   "status": "proved",
   "theorems": [
    "C132_transformed_drawing",
    "C132_component_is_a_drawing",
    "C132_contours",
    "C132_outlines",
    "C132_samples",
    "C132_closest_point"
   ],
   "note": "Metamorphic.  Flattening transformations may drop a line (C132_flat_differs); a glyph whose first call is not moveTo, and nested components, are covered by C22, C110 and C126 instead.  Resizing keeps to positive factors."
  },
  {
   "property": "C133",
   "status": "proved",
   "theorems": [
    "C133_affine_maps",
    "C133_crossings",
    "C133_lengths_and_closest_points",
    "C133_turns",
    "C133_turned_offsets",
    "C133_quarter_turns",
    "C133_quarter_turn_intersections",
    "C133_quarter_turned_outlines",
    "C133_turned_over",
    "C133_turned_over_sides",
    "C133_straight_behind_matters"
   ],
   "note": "Metamorphic, over the real numbers.  Turning about another point is a turn followed by a move (C130, C132).  No range condition is needed for quarter turns and turning over: the start values of the boxes are symmetric.  C133_straight_behind_matters shows where turning over changes an answer: angle is pi, not negated, for a control point exactly behind the start."
  },
  {
   "property": "C134",
   "status": "proved",
   "theorems": [
    "C134_best_fit",
    "C134_reproduces",
    "C134_parameters",
    "C134_fit",
    "C134_fit_backward"
   ],
   "note": "Exact arithmetic. bestFit with as many parameters as points. C134_stretched shows that the similarity hypothesis is needed for polygonal fits."
  },
  {
   "property": "C135",
   "status": "partial",
   "theorems": [
    "C135_lines",
    "C135_curves",
    "C135_deltas",
    "C135_slope",
    "C135_midpoint",
    "C135_box",
    "C135_parts",
    "C135_whole_side",
    "C135_whole_side_off_grid_refuted",
    "C135_extremes_refuted",
    "C135_toMicros_zero",
    "C135_toMicros"
   ],
   "note": "C135_whole_side_off_grid_refuted: with left = -1, right = 3/2^54 the point 100% across lies outside the box. C135_extremes_refuted: the centre of a box near 2^1023 is infinite, and an area underflows to 0. Everything else in the statement is proved."
  },
  {
   "property": "C136",
   "status": "proved",
   "theorems": [
    "C136_roots",
    "C136_lineIntersects",
    "C136_extrema",
    "C136_reduce",
    "C136_offset",
    "C136_reduce_double",
    "C136_offset_double",
    "C136_limit"
   ],
   "note": "The bounds on reduce and offset are proved for exact arithmetic and for doubles. C136_case reaches the bounds on extrema and roots."
  },
  {
   "property": "C137",
   "status": "proved",
   "theorems": [
    "C137_hull",
    "C137_quadraticRatio",
    "C137_cubicRatio",
    "C137_getABC",
    "C137_raiseOrder"
   ],
   "note": "All parts proved. The point C of getABC is stated as the code's own intersection of the two lines: its distance from the exact one has no uniform bound, as the lines may be nearly parallel. raiseOrder gives two points more, not one (C56 has the defect)."
  },
  {
   "property": "C138",
   "status": "proved",
   "theorems": [
    "C138_box",
    "C138_box_skips",
    "C138_boxes",
    "C138_enclosesPoint",
    "C138_curve_box",
    "C138_roots",
    "C138_lineIntersects",
    "C138_extrema",
    "C138_lines",
    "C138_findClosest"
   ],
   "note": "All parts proved; no hypothesis on the doubles."
  },
  {
   "property": "C139",
   "status": "proved",
   "theorems": [
    "C139_hull_of_two",
    "C139_get",
    "C139_scheme",
    "C139_table",
    "C139_split1",
    "C139_split2",
    "C139_reduce",
    "C139_raiseOrder",
    "C139_derivative",
    "C139_forward"
   ],
   "note": "All parts proved over the reals. The example shows that past t = 1 the curve does leave the hull."
  },
  {
   "property": "C140",
   "status": "proved",
   "theorems": [
    "C140_mixtures_are_small",
    "C140_get",
    "C140_scheme",
    "C140_table",
    "C140_split1",
    "C140_split2",
    "C140_raiseOrder",
    "C140_derivative",
    "C140_length",
    "C140_bbox",
    "C140_points",
    "C140_nearest"
   ],
   "note": "All parts proved over the reals; bbox for coordinates within the largest safe integer, where the sentinels of bbox do not show."
  },
  {
   "property": "C141",
   "status": "proved",
   "theorems": [
    "C141_get",
    "C141_quadratic_roots",
    "C141_cubic_roots",
    "C141_lineIntersects",
    "C141_turns"
   ],
   "note": "All parts proved over the reals, by a proof of Descartes' rule of signs; the alignment of roots with exact sines and cosines as in C48-C50."
  },
  {
   "property": "C142",
   "status": "proved",
   "theorems": [
    "C142_product",
    "C142_whole",
    "C142_unit_left",
    "C142_unit_right",
    "C142_transpose",
    "C142_transpose_product"
   ],
   "note": "All parts proved. Python's basisMatrix has whole-number entries that convert to doubles exactly; the mixed products of fit are covered by that. raiseRowPower is libm's pow and gets no claim in doubles."
  },
  {
   "property": "C143",
   "status": "proved",
   "theorems": [
    "C143_sag",
    "C143_walk",
    "C143_finer",
    "C143_split",
    "C143_closest"
   ],
   "note": "All parts proved. The bound on the sag is attained by a parabola (Example)."
  },
  {
   "property": "C144",
   "status": "proved",
   "theorems": [
    "C144_derivative",
    "C144_normal",
    "C144_boxes",
    "C144_rectangles",
    "C144_reduce_boxes",
    "C144_tables",
    "C144_contour_table",
    "C144_order_of_cuts",
    "C144_crossings"
   ],
   "note": "All parts proved over the reals; crossings with exact sine and cosine in the rotation, as for C48."
  },
  {
   "property": "C145",
   "status": "proved",
   "theorems": [
    "C145_perspective",
    "C145_raises",
    "C145_whole",
    "C145_product",
    "C145_composed",
    "C145_identity",
    "C145_mirror",
    "C145_scale",
    "C145_translate"
   ],
   "note": "All parts proved. Entries are doubles; Python ints convert exactly below 2^53."
  },
  {
   "property": "C146",
   "status": "proved",
   "theorems": [
    "C146_new",
    "C146_get",
    "C146_derivative",
    "C146_tangent",
    "C146_box",
    "C146_overlaps",
    "C146_hull",
    "C146_split",
    "C146_roots",
    "C146_raise",
    "C146_table",
    "C146_product",
    "C146_apply",
    "C146_numbers"
   ],
   "note": "All parts proved. roots is covered with no segment; with a segment the alignment comes first (C48, C49)."
  },
  {
   "property": "C147",
   "status": "proved",
   "theorems": [
    "C147_twice",
    "C147_product",
    "C147_transpose",
    "C147_found",
    "C147_products_agree",
    "C147_determinant",
    "C147_point",
    "C147_contours",
    "C147_chain",
    "C147_named",
    "C147_flattening",
    "C147_about"
   ],
   "note": "Over the real numbers; rotations with exact sines and cosines (the code rounds them to 15 digits, so there the inverse is close but not equal)."
  },
  {
   "property": "C148",
   "status": "proved",
   "theorems": [
    "C148_table_fit",
    "C148_best_fit",
    "C148_tables_tell",
    "C148_fit_table",
    "C148_line",
    "C148_chords_not_enough"
   ],
   "note": "Over the real numbers. C148_chords_not_enough shows why the claim is restricted to uniform parameters."
  },
  {
   "property": "C149",
   "status": "proved",
   "theorems": [
    "C149_moves",
    "C149_scalings",
    "C149_shears",
    "C149_perspectives",
    "C149_mirrors",
    "C149_rotations",
    "C149_move_and_rotate",
    "C149_determinants",
    "C149_named",
    "C149_affine",
    "C149_area",
    "C149_triangle"
   ],
   "note": "Over the real numbers; the code rounds sines and cosines to 15 digits (see C05, C115, C116 for that)."
  },
  {
   "property": "C150",
   "status": "proved",
   "theorems": [
    "C150_more_points",
    "C150_same_points",
    "C150_proper",
    "C150_closed",
    "C150_commute",
    "C150_associate",
    "C150_absorb",
    "C150_encloses",
    "C150_order",
    "C150_areas"
   ],
   "note": "Restricted to rectangles around at least one point; for the empty rectangle the laws fail (C11_union_idem_refuted)."
  },
  {
   "property": "C151",
   "status": "proved",
   "theorems": [
    "C151_encloses",
    "C151_equal",
    "C151_upright",
    "C151_compose"
   ],
   "note": "C151_larger shows that the frame is larger in general (a turn by an eighth), C151_range that equality fails outside the range of the initial values."
  },
  {
   "property": "C152",
   "status": "proved",
   "theorems": [
    "C152_closed",
    "C152_bounds",
    "C152_commute",
    "C152_associate",
    "C152_absorb",
    "C152_encloses",
    "C152_order",
    "C152_outline_points",
    "C152_outline_join"
   ],
   "note": "Equality is that of the edges under ==, so that 0.0 and -0.0 agree; for the empty rectangle the laws fail (C11_union_idem_refuted)."
  },
  {
   "property": "C153",
   "status": "proved",
   "theorems": [
    "C153_frame",
    "C153_control"
   ],
   "note": "Extends C130 and C133 (equal factors, quarter turns, mirroring) to different factors along the axes and, as enclosure, to all affine maps."
  },
  {
   "property": "C154",
   "status": "proved",
   "theorems": [
    "C154_contour",
    "C154_outline",
    "C154_unique",
    "C154_control",
    "C154_frame"
   ],
   "note": "Tightness complements C65 (enclosure only). The range is needed: C10_tight_refuted."
  },
  {
   "property": "C155",
   "status": "proved",
   "theorems": [
    "C155_table",
    "C155_finer"
   ],
   "note": "The bound is attained (C155_case)."
  }
 ]
}
