# What Print Assumptions lists for each theorem

Generated from the output of `Print Assumptions` in `rocq/theories/Prop*.v`.

### No axioms (closed under the global context) — 128 theorems

`C02_empty_chain_raises` `C06_keeps_connected` `C06_pointwise` `C06_pointwise_contour` `C06_pointwise_segment` `C06_raises` `C09_encloses` `C09_sentinels` `C10_exact_edges` `C10_tight_partial` `C10_tight_refuted` `C110_limit` `C114_circles` `C114_circles_mixed` `C114_complex_raises` `C114_measures` `C114_pairs` `C11_union_assoc_partial` `C11_union_comm` `C11_union_contains` `C11_union_idem_partial` `C11_union_idem_refuted` `C11_union_least_partial` `C11_union_of_points_partial` `C126_after_moveTo` `C126_before_moveTo` `C126_other_calls` `C126_raising_keeps_the_pen` `C12_fromContour_tight_partial` `C12_fromContours_encloses` `C12_fromContours_tight_partial` `C12_tight_refuted` `C136_extrema` `C136_limit` `C136_lineIntersects` `C136_roots` `C13_intersection_none` `C13_intersection_some` `C142_transpose` `C146_apply` `C146_box` `C146_derivative` `C146_get` `C146_hull` `C146_new` `C146_overlaps` `C146_product` `C146_raise` `C146_roots` `C146_split` `C146_table` `C146_tangent` `C14_relationTo` `C14_relationTo_consistent` `C150_more_points` `C150_same_points` `C152_absorb` `C152_associate` `C152_bounds` `C152_closed` `C152_commute` `C152_encloses` `C152_order` `C152_outline_join` `C152_outline_points` `C15_contour_bounds` `C15_contour_shape` `C20_closed` `C20_nonempty_connected` `C21_at_most_one_off_curve` `C21_before_moveTo` `C26_shapes` `C35_first_occurrences` `C35_same_values` `C38_ends_any_number_type` `C38_ends_rational` `C59_history_independent` `C60_only_ends_added_partial` `C60_other_queries_partial` `C70_d_draws` `C70_edited` `C71_drawContours_partial` `C71_drawPaths_partial` `C71_history_refuted` `C71_paths_refuted` `C71_poly_contours_partial` `C71_poly_malformed_refuted` `C71_poly_paths_partial` `C71_poly_refuted` `C71_poly_single_partial` `C72_balanced` `C72_circles_refuted` `C72_drawContours_partial` `C72_drawContours_refuted` `C72_drawPaths` `C72_drawPoints_partial` `C72_drawPoints_refuted` `C72_pushed` `C72_underflow` `C73_fill_refuted` `C74_case_insensitive` `C74_error` `C74_gray_grey` `C74_known` `C74_none` `C74_range` `C75_components` `C75_range` `C75_repeats` `C75_visits` `C77_polyline` `C79_drawHull` `C88_pointwise` `C92_flatten` `C92_minMax` `C92_unzipPoints` `C93_css_keywords` `C93_other_names` `C94_conversion` `C94_random_color` `C96_crossesX` `C96_crossesY` `C98_arrow_partial` `C98_arrow_refuted` `C98_skeleton_partial` `C98_skeleton_refuted` `C99_complex_circles` `C99_text`

### `ClassicalDedekindReals.sig_forall_dec`, `FunctionalExtensionality.functional_extensionality_dep` — 153 theorems

`C01_concatenation_applies_left_to_right` `C02_concatenation_regroups` `C03_translate` `C04_mirror` `C04_mirrorAround` `C04_scale_shear` `C07_affine_commutes_with_get` `C08_collinearity` `C08_failure_set` `C08_perspectiveFrom` `C100_derivative_refuted` `C100_derivative_used_partial` `C100_line_refuted` `C109_margins` `C109_new_plotter` `C110_cyclic` `C110_errors` `C110_nothing_else` `C110_recorded` `C130_points` `C131_backwards_parts` `C131_backwards_points` `C131_exchanged_boxes` `C131_exchanged_lines` `C132_component_is_a_drawing` `C132_samples` `C132_transformed_drawing` `C133_affine_maps` `C133_crossings` `C134_best_fit` `C134_reproduces` `C139_derivative` `C139_get` `C139_hull_of_two` `C139_raiseOrder` `C139_scheme` `C139_split1` `C139_split2` `C139_table` `C140_derivative` `C140_get` `C140_points` `C140_raiseOrder` `C140_scheme` `C140_split1` `C140_split2` `C140_table` `C144_contour_table` `C144_derivative` `C144_order_of_cuts` `C144_tables` `C147_chain` `C147_contours` `C147_determinant` `C147_flattening` `C147_found` `C147_point` `C147_product` `C147_products_agree` `C147_transpose` `C147_twice` `C149_area` `C149_determinants` `C149_mirrors` `C149_moves` `C149_perspectives` `C149_scalings` `C149_shears` `C149_triangle` `C150_absorb` `C150_areas` `C150_associate` `C150_closed` `C150_commute` `C150_encloses` `C150_order` `C150_proper` `C151_compose` `C151_encloses` `C151_equal` `C151_upright` `C154_unique` `C155_finer` `C15_area` `C15_center` `C15_fractions` `C16_exactly_one_class` `C16_other_lengths` `C16_slope` `C17_common_point_found` `C17_parallel_none` `C17_sound_partial` `C17_sound_refuted` `C18_far_line_refuted` `C18_membership_partial` `C18_start_point_never` `C18_start_point_refuted` `C18_true_is_member_partial` `C20_closed_real` `C21_quadratic_spline` `C22_component` `C22_nesting` `C23_drawing_recorded` `C23_glyph_drawn` `C24_sound` `C25_invertible_is_inverted` `C25_none_only_if_singular` `C27_outside` `C27_pascal` `C27_table_grows` `C28_bernstein_basis` `C29_associative` `C29_errors_partial` `C29_mismatch_raises_refuted` `C29_multiply` `C29_transpose` `C29_transpose_product` `C29_unit` `C32_meets_both_lines` `C32_none_iff_parallel` `C32_unique` `C36_lerp` `C36_map` `C37_get_is_curve` `C37_get_is_the_Bernstein_sum` `C38_ends_real` `C39_line_raises` `C39_split_restricts` `C40_outside` `C40_split_extracts` `C41_intervals_after_any_history` `C44_hull_is_the_de_Casteljau_triangle` `C45_in_control_box` `C45_in_skeletonBounds` `C45_skeletonBounds_room` `C46_dcPoints_are_derivatives` `C46_derivative` `C46_line_raises` `C47_direction` `C47_direction_of_a_line` `C56_curve_kept_partial` `C56_raiseOrder_partial` `C56_raiseOrder_refuted` `C56_raised_polygon_partial` `C62_ABC` `C65_empty_raises` `C66_table_entry_partial` `C66_table_length_partial` `C86_least_squares` `C92_between` `C92_toMicros` `C97_identity` `C97_perspective`

### `ClassicalDedekindReals.sig_forall_dec`, `ClassicalDedekindReals.sig_not_dec`, `FunctionalExtensionality.functional_extensionality_dep` — 4 theorems

`C140_mixtures_are_small` `C143_finer` `C143_split` `C19_midpoint`

### `ClassicalDedekindReals.sig_forall_dec`, `ClassicalDedekindReals.sig_not_dec`, `Classical_Prop.classic`, `FunctionalExtensionality.functional_extensionality_dep` — 298 theorems

`C05_exact_trigonometry` `C05_quarter_turns_exact` `C05_rotation_back` `C05_rotation_direction` `C05_rotation_fixes_centre` `C05_rotation_keeps_distances` `C100_scale_collapses_refuted` `C101_accuracy` `C101_higher_order` `C102_affine_accuracy` `C103_apply` `C103_mirrorAround` `C103_product` `C103_scale` `C103_translate` `C104_accuracy` `C104_halving_exact` `C105_table` `C106_fine_threshold_diverges` `C106_pair_terminates` `C106_terminates` `C107_cubic_covers_partial` `C107_cubic_refuted` `C107_not_too_large` `C107_quadratic_covers` `C108_complete_refuted` `C108_quadratic_sound_partial` `C108_sound_refuted` `C108_touching_refuted` `C111_reduce_terminates` `C112_reduce_tiles` `C112_split_part` `C113_intersects_terminates` `C115_library_exists` `C115_rotation_accuracy` `C116_many_turns_refuted` `C116_quarter_turns_partial` `C117_alignment_accuracy` `C118_linear_test` `C119_off_grid_refuted` `C119_quadratic_roots_grid_partial` `C120_axis_crossings` `C120_axis_roots` `C120_library_exists` `C121_fractions_can_fail` `C121_intersection_point` `C121_line_crossing` `C121_point_on_line` `C122_closest_point` `C122_library_exists` `C123_derivative` `C123_no_normal` `C123_normal` `C123_offset` `C123_tangent` `C124_coinciding_points_raise` `C124_library_exists` `C124_polygonal` `C124_uniform` `C125_components` `C125_float_hue` `C125_hue_360_attained` `C125_not_a_number` `C125_remainder` `C125_ties` `C125_whole_hues` `C127_grid` `C127_truetype` `C127_two_levels` `C127_unscaled` `C128_halves_of_a_split` `C128_length_of_a_cubic` `C128_length_of_a_quadratic` `C128_length_of_any_curve` `C128_length_where_the_speed_is_nearly_polynomial` `C128_piece_of_a_split` `C128_true_length_between_chord_and_polygon` `C129_decimal_length` `C129_digits_of_the_result` `C129_line_raises` `C129_true_length` `C129_whole_coordinates` `C130_boxes` `C130_directions_and_lengths` `C130_intersections` `C130_lines_and_offsets` `C130_parts` `C131_backwards_sizes` `C131_exchanged_intersections` `C132_closest_point` `C132_contours` `C132_outlines` `C133_lengths_and_closest_points` `C133_quarter_turn_intersections` `C133_quarter_turned_outlines` `C133_quarter_turns` `C133_straight_behind_matters` `C133_turned_offsets` `C133_turned_over` `C133_turned_over_sides` `C133_turns` `C134_fit` `C134_fit_backward` `C134_parameters` `C135_box` `C135_curves` `C135_deltas` `C135_extremes_refuted` `C135_lines` `C135_midpoint` `C135_parts` `C135_slope` `C135_toMicros` `C135_toMicros_zero` `C135_whole_side` `C135_whole_side_off_grid_refuted` `C136_offset` `C136_offset_double` `C136_reduce` `C136_reduce_double` `C137_cubicRatio` `C137_getABC` `C137_hull` `C137_quadraticRatio` `C137_raiseOrder` `C138_box` `C138_box_skips` `C138_boxes` `C138_curve_box` `C138_enclosesPoint` `C138_extrema` `C138_findClosest` `C138_lineIntersects` `C138_lines` `C138_roots` `C139_forward` `C139_reduce` `C140_bbox` `C140_length` `C140_nearest` `C141_cubic_roots` `C141_get` `C141_lineIntersects` `C141_quadratic_roots` `C141_turns` `C142_product` `C142_transpose_product` `C142_unit_left` `C142_unit_right` `C142_whole` `C143_closest` `C143_sag` `C143_walk` `C144_boxes` `C144_crossings` `C144_normal` `C144_rectangles` `C144_reduce_boxes` `C145_composed` `C145_identity` `C145_mirror` `C145_perspective` `C145_product` `C145_raises` `C145_scale` `C145_translate` `C145_whole` `C146_numbers` `C147_about` `C147_named` `C148_best_fit` `C148_chords_not_enough` `C148_fit_table` `C148_line` `C148_table_fit` `C148_tables_tell` `C149_affine` `C149_move_and_rotate` `C149_named` `C149_rotations` `C153_control` `C153_frame` `C154_contour` `C154_control` `C154_frame` `C154_outline` `C155_table` `C19_length` `C19_length_metric` `C19_slopeAngle_range` `C30_coinciding_points_raise` `C30_given_n` `C30_polygonal` `C30_uniform` `C31_interpolates` `C31_parameters` `C31_succeeds` `C33_linear` `C33_nan` `C33_other_lengths` `C33_quadratic` `C34_cube` `C34_monotone` `C34_odd` `C34_sign` `C38_ends_float` `C42_boxes_enclose` `C43_bbox_tight` `C43_boundsRectangle_tight` `C48_inside` `C48_line_raises` `C48_quadratic_roots` `C48_quadratic_roots_on_a_line` `C49_cubic_roots` `C49_cubic_roots_on_a_line` `C50_cubic_line_intersections` `C50_intersectWithLine` `C50_quadratic_line_intersections` `C51_curveIntersects_terminates` `C51_pairiteration_terminates` `C51_range_needed` `C51_threshold_needed` `C52_fresh_curves` `C52_reported_pairs_are_near` `C53_fresh_curves` `C53_no_crossing_is_missed` `C54_empty_result` `C54_gentle_curves` `C54_reduce_tiles` `C55_reduce_simple` `C55_simple_holds` `C57_normal` `C57_offset` `C58_getLUT` `C58_no_steps` `C58_one_step_raises` `C59_floats` `C60_extrema_refuted` `C61_align` `C61_align_to_a_segment` `C63_length_at_least_chord` `C63_length_at_most_polygon` `C63_length_nonneg` `C63_length_of_a_straight_curve` `C63_length_query` `C63_length_similar` `C63_line_raises` `C64_length_refuted` `C64_precision_kept_partial` `C65_contour_bounds` `C65_outline_bounds` `C66_exact_partial` `C66_getLUT_partial` `C66_getLUT_refuted` `C66_one_curve_partial` `C67_bounds_refuted` `C67_delete_ends_partial` `C67_delete_refuted` `C67_getLUT_refuted` `C67_set_ends_partial` `C68_findClosest` `C69_closest_partial` `C69_closest_refuted` `C69_far_refuted` `C69_many_steps_refuted` `C76_intersects_complete_partial` `C76_intersects_refuted` `C76_intersects_sound_partial` `C76_intersects_terminates_partial` `C78_self_complete` `C78_self_sound` `C78_self_terminates` `C80_tightbbox` `C80_tightbbox_exact` `C81_scale_number` `C82_end_tangents_refuted` `C82_scale_function_partial` `C82_scale_function_quadratic_refuted` `C83_offset_pieces` `C83_offset_straight` `C83_pieces_join` `C83_quadratics` `C84_clockwise` `C84_linear` `C85_exact_partial` `C85_float_refuted` `C87_exact_trigonometry` `C87_rounded` `C88_point` `C89_rawSlopeAngle` `C89_slope` `C89_slopeAngle` `C90_signed_angle` `C91_overlaps` `C92_pathFromSegments` `C95_tangent_normal` `C97_rotation` `order_of_floats`
