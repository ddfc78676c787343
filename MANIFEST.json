{"claims": [
  {"property": "C01", "status": "proved", "theorems": ["C01_keys_unique", "C01_keys_sequence", "C01_unbounded_unique_refuted"], "note": "Interleaving semantics of lock / increment / unlock for any number of threads and any schedule; wrap-around after 2^64 calls proved as _refuted for the unbounded claim."},
  {"property": "C02", "status": "proved", "theorems": ["C02_history_consistent", "C02_reachable"], "note": "Induction over arbitrary call histories on any number of managers; no undefined behaviour except where call_defined excludes it (C11, C12, C13 describe these cases)."},
  {"property": "C03", "status": "proved", "theorems": ["C03_insert", "C03_insert_twice"], "note": "For every consistent manager, which every reachable one is (C02_reachable)."},
  {"property": "C04", "status": "proved", "theorems": ["C04_bulk_abort_iff", "C04_bulk_values", "C04_bulk_order"], "note": "Values, keys, positions, abort condition, order independence."},
  {"property": "C05", "status": "proved", "theorems": ["C05_listing", "C05_reachable"], "note": "Consequences of the invariant."},
  {"property": "C06", "status": "proved", "theorems": ["C06_lookup", "C06_reachable"], "note": "Listed keys and unknown keys."},
  {"property": "C07", "status": "proved", "theorems": ["C07_remove", "C07_insert_remove"], "note": "Including insert-then-remove."},
  {"property": "C08", "status": "proved", "theorems": ["C08_update", "C08_update_many_order", "C08_update_many_values"], "note": "Including order independence of updateCoefficients."},
  {"property": "C09", "status": "proved", "theorems": ["C09_domain", "C09_bracket", "C09_reachable"], "note": "Complete characterisation of success and of the bracket; instantiated for IEEE doubles."},
  {"property": "C10", "status": "proved", "theorems": ["C10_window", "C10_first_missing", "C10_abort_and_ub"], "note": "The missing first knot and the undefined behaviour for fewer than two coefficients are theorems."},
  {"property": "C11", "status": "proved", "theorems": ["C11_batch", "C11_batch_other"], "note": "Success, abort and undefined behaviour cases."},
  {"property": "C12", "status": "proved", "theorems": ["C12_add_at_end"], "note": "Success, abort and undefined behaviour cases."},
  {"property": "C13", "status": "proved", "theorems": ["C13_move", "C13_move_own_time", "C13_move_taken_time"], "note": "The lost coefficient / dangling key and the aliasing case are theorems."},
  {"property": "C14", "status": "proved", "theorems": ["C14_clear_observations", "C14_clear_replay", "C14_refinement"], "note": "Observations after clear and replay of any key-free history, by refinement to a sorted association list."},
  {"property": "C15", "status": "proved", "theorems": ["C15_kept_measurements", "C15_count_and_newest", "C15_default_ratio"], "note": "Exact set of kept measurements, count, newest and first two, for every ratio and sequence; over any time order. A curve whose ratio was not set keeps every measurement (C15_default_ratio)."},
  {"property": "C16", "status": "proved", "theorems": ["C16_ratio_one", "C16_unordered_accepted", "C16_repeated_time_destroys", "C16_key_lookup_after_extend_refuted", "C16_clear_is_not_new_refuted"], "note": "Ratio 1 characterised; loss of the newest coefficient for every state in the down-sampling phase; two refutations by computed runs."},
  {"property": "C17", "status": "proved", "theorems": ["C17_curve", "C17_newest_and_spacing", "C17_count_without_period", "C17_not_newer_aborts", "C17_default_settings"], "note": "Exact contents of the curve, spacing of permanent points, count without a period, abort for older measurements. Settings of a new curve: C17_default_settings."},
  {"property": "C18", "status": "proved", "theorems": ["C18_position", "C18_constant_outside", "C18_default"], "note": "Over the reals, orders 1 to 5."},
  {"property": "C19", "status": "proved", "theorems": ["C19_derivatives_inside", "C19_derivatives_ends", "C19_derivative_everywhere_refuted"], "note": "Interior derivatives and one sided derivatives at the ends; differentiability everywhere is refuted."},
  {"property": "C20", "status": "proved", "theorems": ["C20_time_vectors", "C20_time_vectors_length", "C20_at_zero", "C20_add_variants", "C20_ddiff_refuted"], "note": "Time vectors, values at zero and the add variants; one accessor is refuted with a witness."},
  {"property": "C21", "status": "proved", "theorems": ["C21_boundary", "C21_unique"], "note": "Boundary conditions and uniqueness, for any exact linear solver; Gaussian elimination is shown to be one."},
  {"property": "C22", "status": "proved", "theorems": ["C22_lookup", "C22_cases", "C22_unique", "C22_empty"], "note": "Over the reals, any number of splines."},
  {"property": "C23", "status": "proved", "theorems": ["C23_at_time", "C23_outside", "C23_end", "C23_empty", "C23_duration"], "note": "Fewer than 2^31 splines."},
  {"property": "C24", "status": "proved", "theorems": ["C24_small_steps", "C24_time", "C24_set_time", "C24_set_time_steps", "C24_large_step_refuted", "C24_negative_step_refuted", "C24_add_after_end_refuted"], "note": "Small steps; three refutations of the unrestricted claim."},
  {"property": "C25", "status": "proved", "theorems": ["C25_in_bounds", "C25_empty_set_time_refuted", "C25_three_calls", "C25_get_spline"], "note": "Fewer than 2^31 calls; the three call counterexample is a theorem."},
  {"property": "C26", "status": "proved", "theorems": ["C26_six_arguments", "C26_four_arguments", "C26_two_arguments"], "note": "Any number of knots below 2^29 (the 32 bit sizes do not wrap), any exact linear solver; the system is shown solvable and its solution unique enough to give the knot values."},
  {"property": "C27", "status": "proved", "theorems": ["C27_six_arguments", "C27_four_arguments"], "note": "Derivatives on the closed range, two sided inside and one sided at the ends; continuity of the acceleration inside."},
  {"property": "C28", "status": "proved", "theorems": ["C28_all_boundary_values", "C28_velocities_only", "C28_linear", "C28_two_arguments"], "note": "All order / segment count cases; independence from ignored boundary values is part of the statements."},
  {"property": "C29", "status": "proved", "theorems": ["C29_rejects", "C29_one_knot", "C29_linear_rejects", "C29_linear_leaves_nothing_refuted", "C29_two_arguments_keeps"], "note": "Including the two refutations for orders 1 and 2."},
  {"property": "C30", "status": "proved", "theorems": ["C30_two_arguments", "C30_four_arguments", "C30_six_arguments"], "note": "All orders 1 to 5 and all three overloads."},
  {"property": "C31", "status": "proved", "theorems": ["C31_passes_through", "C31_boundary", "C31_default", "C31_smooth", "C31_shift", "C31_orders"], "note": "Any previous state, any exact solver; shift invariance for every input, also rejected ones."},
  {"property": "C32", "status": "proved", "theorems": ["C32_silent_failure", "C32_replaces", "C32_option_list_appends", "C32_option_list_clears_refuted"], "note": "Silent failure for order 5, appending of option lists, refutation of the documented clearing."},
  {"property": "C33", "status": "proved", "theorems": ["C33_orders", "C33_relative_time", "C33_time_from_zero", "C33_max_time_wrong", "C33_passes_through_refuted", "C33_clear_keeps_min_time", "C33_too_few_values", "C33_derivative_lists"], "note": "Any number of components; relative time behaviour, agreement for first time 0, refutation otherwise; also short input vectors and the derivative list overload."},
  {"property": "C34", "status": "proved", "theorems": ["C34_passes_through", "C34_fit_curve", "C34_se3_passes_through", "C34_se3_fit_curve"], "note": "E3: every point and the end velocities of fitCurve. SE3: positions exactly, orientations up to the sign of the quaternion and exactly so before the last point."},
  {"property": "C35", "status": "proved", "theorems": ["C35_knot_velocities", "C35_ends", "C35_se3_knot_twists"], "note": "E3: Catmull-Rom derivative of an independent specification; SE3 likewise, the interior angular velocity characterised as the one that turns the previous into the next orientation."},
  {"property": "C36", "status": "proved", "theorems": ["C36_se3_positions", "C36_segment_is_hermite_cubic", "C36_continuously_differentiable", "C36_acceleration_jumps_refuted"], "note": "For arbitrary coefficients: each segment is the cubic Hermite polynomial, first derivative exact everywhere and continuous, second derivative inside segments, one sided at the ends; the jump of the second derivative at a knot has a witness. The positions of the SE3 curve likewise (C36_se3_positions)."},
  {"property": "C37", "status": "proved", "theorems": ["C37_domain", "C37_higher_derivatives", "C37_empty", "C37_empty_evaluation_refuted", "C37_se3_domain", "C37_se3_higher_derivatives", "C37_se3_empty", "C37_se3_empty_evaluation_refuted"], "note": "E3 and SE3, including the undefined behaviour of an empty curve at time zero."},
  {"property": "C38", "status": "proved", "theorems": ["C38_fit_merges", "C38_fit_clears_refuted", "C38_se3_fit_replaces"], "note": "E3: merging proved for every previous curve, clearing refuted. SE3: the result of a fit is the same for any two previous curves."},
  {"property": "C39", "status": "proved", "theorems": ["C39_three_points_nan", "C39_same_end_derivatives", "C39_end_derivative_reversed", "C39_seam_slope_refuted", "C39_too_few_points", "C39_se3_periodic", "C39_se3_too_few_points"], "note": "E3 and SE3: equal end derivatives, seam differentiability (E3), reversed end derivative for every data set with at least four points, out of range access. E3 on binary64: three points make every evaluation NaN."},
  {"property": "C40", "status": "proved", "theorems": ["C40_reproduces_straight_motion", "C40_reproduces_constant_acceleration", "C40_equivariant", "C40_constant_acceleration_refuted"], "note": "Straight motions for all times, constant acceleration for equidistant times (refuted otherwise), equivariance under affine maps of space and increasing affine maps of time."},
  {"property": "C41", "status": "proved", "theorems": ["C41_segment_ends", "C41_curve_at_knots", "C41_fit_through_points", "C41_overflow_refuted"], "note": "Segments, whole curves and curves after a fit; refuted when the length of a segment overflows."},
  {"property": "C42", "status": "proved", "theorems": ["C42_orientation_is_unit", "C42_knot_orientations", "C42_continuous"], "note": "Any exponential/logarithm pair with the stated laws (a concrete one is constructed); continuity of every rotated vector on the closed range."},
  {"property": "C43", "status": "proved", "theorems": ["C43_quaternion_derivative", "C43_rotation_derivative", "C43_angular_velocity_continuous", "C43_knot_twists"], "note": "Quaternion equation between knots, rotation equation and continuity of the angular velocity at all times, stored derivative at the knots."},
  {"property": "C44", "status": "proved", "theorems": ["C44_curve_equivariant", "C44_fit_equivariant", "C44_fit_curve_equivariant"], "note": "Evaluation for any logarithm, fits for any logarithm that commutes with conjugation; both functions at every time."},
  {"property": "C45", "status": "proved", "theorems": ["C45_write_aborts", "C45_write_then_load"], "note": "Rows shorter than 2^32 fields."},
  {"property": "C46", "status": "proved", "theorems": ["C46_load_behaviour", "C46_loaded_columns", "C46_times_are_first_entries", "C46_round_trip_refuted", "C46_two_times"], "note": "Any exact number format; complete behaviour of loadTimeVectorCSV on any file; reading the right times refuted for any two different numbers."},
  {"property": "C47", "status": "proved", "theorems": ["C47_e3_rows", "C47_se3_rows", "C47_no_samples", "C47_no_range", "C47_int_min", "C47_one_sample", "C47_never_ends", "C47_termination_refuted", "C47_row_count_refuted", "C47_columns", "C47_header_names", "C47_row_words"], "note": "Both curves in real arithmetic; the E3 curve for n <= 0, for curves without a range and on binary64: one sample, non-termination (all such curves and a witness), row count refuted."},
  {"property": "C48", "status": "proved", "theorems": ["C48_missing_joint", "C48_first_entry", "C48_short_point", "C48_no_names_refuted", "C48_joint_trajectory", "C48_true_is_success_refuted", "C48_no_points", "C48_translations", "C48_poses", "C48_one_point_refuted"], "note": "Refuted parts: empty name list, and true as a sign of success. The conversion of ROS poses is a parameter."},
  {"property": "C49", "status": "proved", "theorems": ["C49_nearest", "C49_at_coefficient", "C49_outside"], "note": "Any type of values; ties and both ends included."},
  {"property": "C50", "status": "proved", "theorems": ["C50_single_measurements", "C50_extend", "C50_feed", "C50_fold", "C50_reset", "C50_reset_without_times_refuted", "C50_fold_between_refuted"], "note": "Any group and any two discrete or semi-discrete parts; extend in any state, feeding a new curve, folding, resetting; refuted: folding between base times, resetting with no times."},
  {"property": "C51", "status": "proved", "theorems": ["C51_by_time", "C51_reads_the_original", "C51_sets_the_original", "C51_independence_refuted", "C51_dangling", "C51_removed_from_original", "C51_own_nodes", "C51_cleared_copy", "C51_check"], "note": "Independence of copies is refuted; a copy with dangling iterators is UB in the model."},
  {"property": "C52", "status": "proved", "theorems": ["C52_six_arguments", "C52_four_arguments", "C52_two_arguments"], "note": "All three overloads, orders 1 to 5."},
  {"property": "C53", "status": "proved", "theorems": ["C53_fresh_counter_keeps_fit", "C53_stale_counter_deletes_last_point", "C53_stale_counter_one_point"], "note": "Zero counter, stale counter, and the one point case."},
  {"property": "C54", "status": "proved", "theorems": ["C54_slerp_ratio_zero", "C54_slerp_ratio_zero_overflow", "C54_hermite_ratio_zero"], "note": "Slerp including the int overflow; Hermite without a period."},
  {"property": "C55", "status": "proved", "theorems": ["C55_uniform_motion"], "note": "Any increasing times with less than half a turn between a point and the next but one."},
  {"property": "C56", "status": "proved", "theorems": ["C56_transform_curve_refuted"], "note": "For every curve, time and transformation that moves the value."},
  {"property": "C57", "status": "proved", "theorems": ["C57_curve_velocities", "C57_short_segment_refuted"], "note": "Whole curves; refuted when the inverse of the length of a segment overflows."},
  {"property": "C58", "status": "proved", "theorems": ["C58_save_at_times", "C58_save_curve", "C58_load_saved"], "note": "Any text format for numbers (without delimiters for reading back)."},
  {"property": "C59", "status": "proved", "theorems": ["C59_transform_discrete", "C59_transform_semi_discrete"], "note": "Any group; the semi-discrete curve for any exponential/logarithm."},
  {"property": "C60", "status": "proved", "theorems": ["C60_at_coefficient", "C60_range", "C60_equal_steps", "C60_constant"], "note": "Any group with an exponential/logarithm satisfying the stated laws; the translations of a line are an instance."},
  {"property": "C61", "status": "proved", "theorems": ["C61_discrete_expression", "C61_single_coefficient", "C61_semi_discrete_refuted"], "note": "Discrete curve for every curve; refuted for the semi-discrete curve."},
  {"property": "C62", "status": "proved", "theorems": ["C62_extend_keeps_the_past", "C62_ratio_refuted"], "note": "Any group, any state with covering corrections; refuted for ratio 2."},
  {"property": "C63", "status": "proved", "theorems": ["C63_transform", "C63_corrections_refuted"], "note": "Any group; refuted with a correction in a non-commutative group."},
  {"property": "C64", "status": "proved", "theorems": ["C64_set_correction_times"], "note": "Success condition is exact."},
  {"property": "C65", "status": "proved", "theorems": ["C65_set_correction", "C65_remove_correction", "C65_remove_refuted"], "note": "Success conditions are exact; refuted: coverage after removal."},
  {"property": "C66", "status": "proved", "theorems": ["C66_set_base"], "note": "Success condition is exact."},
  {"property": "C67", "status": "proved", "theorems": ["C67_new_curve_covered", "C67_coverage_refuted"], "note": "Refuted by a computed history; the positive part is also in C50_feed."},
  {"property": "C68", "status": "proved", "theorems": ["C68_cubic_unique", "C68_cubic_superposition", "C68_cubic_reversal"], "note": "Order 3; any two exact solvers, any containers; superposition at every time, reversal on the time range."},
  {"property": "C69", "status": "proved", "theorems": ["C69_least_acceleration", "C69_attained"], "note": "Order 3, four arguments; existence of the integrals is part of the theorem; attained by an extension of the trajectory."},
  {"property": "C70", "status": "proved", "theorems": ["C70_quintic_undetermined", "C70_solver_independent_refuted"], "note": "Order 5 for every data set; independence of the solver refuted by a witness."},
  {"property": "C71", "status": "proved", "theorems": ["C71_local", "C71_se3_local", "C71_one_point"], "note": "E3 on the closed segment, acceleration on the half open one; SE3 on the half open segment for any exponential and logarithm."},
  {"property": "C72", "status": "proved", "theorems": ["C72_reversed"], "note": "E3 over the reals; all times, also outside of the range; accelerations except at the knots."},
  {"property": "C73", "status": "proved", "theorems": ["C73_hull", "C73_monotone", "C73_overshoot", "C73_overshoot_equidistant", "C73_within_range_refuted"], "note": "E3 over the reals; staying within the range of the points refuted for every lo < hi."},
  {"property": "C74", "status": "proved", "theorems": ["C74_segment", "C74_angle_unique", "C74_constant_velocity"], "note": "Over the reals, with the mathematical exponential and logarithm of SE(2) for those of gtsam."},
  {"property": "C75", "status": "proved", "theorems": ["C75_fit", "C75_fit_discrete", "C75_set", "C75_set_discrete", "C75_edge"], "note": "Times are reals; the group with exponential and logarithm is arbitrary."},
  {"property": "C76", "status": "proved", "theorems": ["C76_refine", "C76_reversed", "C76_se2_refine", "C76_se2_reversed", "C76_se2_reversed_refuted"], "note": "Any group with a principal logarithm; instance SE(2). Reversal refuted for opposite headings."},
  {"property": "C77", "status": "proved", "theorems": ["C77_defined", "C77_value"], "note": "gtsam expressions as terms; their Jacobians are not modelled."},
  {"property": "C78", "status": "proved", "theorems": ["C78_prior", "C78_prior_unchecked", "C78_saved"], "note": "Undefined behaviour is an outcome of the model. Factors as pairs of key and value; the noise models are not modelled."},
  {"property": "C79", "status": "proved", "theorems": ["C79_ratio_changed", "C79_ratio_lowered", "C79_cleared", "C79_cleared_like_new_refuted", "C79_hermite_settings", "C79_hermite_cleared"], "note": "The case of a lowered ratio up to overflow of the counter. That a cleared Slerp curve is like a new one is refuted with a witness."},
  {"property": "C80", "status": "proved", "theorems": ["C80_extra_values", "C80_missing_values", "C80_missing_values_new"], "note": "About the policy; CubicHermiteSE3Curve::extend itself throws."},
  {"property": "C81", "status": "proved", "theorems": ["C81_transform", "C81_save", "C81_composition", "C81_composition_unusable", "C81_factory"], "note": "No hypothesis on the state of the curve or on the numbers."},
  {"property": "C82", "status": "proved", "theorems": ["C82_saved", "C82_saved_at_times"], "note": "toString and the vector of seven numbers are parameters."},
  {"property": "C83", "status": "proved", "theorems": ["C83_saved", "C83_save_curves", "C83_corrections"], "note": "toString and the vector of seven numbers are parameters. A file written before a later one aborts is not represented."},
  {"property": "C84", "status": "proved", "theorems": ["C84_set_base_part", "C84_modify_base"], "note": ""},
  {"property": "C85", "status": "proved", "theorems": ["C85_curve", "C85_feed", "C85_composition"], "note": "For any kind of numbers, including binary64."},
  {"property": "C86", "status": "proved", "theorems": ["C86_discrete", "C86_slerp"], "note": "The text is reduced to the numbers it shows."},
  {"property": "C87", "status": "proved", "theorems": ["C87_scalar", "C87_vector", "C87_e3", "C87_se3", "C87_composition"], "note": "Scalar and vector curves for any solver; E3 and SE3 over the reals."},
  {"property": "C88", "status": "proved", "theorems": ["C88_e3_ignored", "C88_e3_extend_refuted", "C88_unsupported"], "note": "Includes the refutation of the contract of extend."},
  {"property": "C89", "status": "proved", "theorems": ["C89_accepts", "C89_stepping", "C89_past_the_end", "C89_played_refuted", "C89_binary64_nan_coefficient", "C89_binary64_nan_duration_refuted"], "note": "Exact characterisation over the reals; the NaN facts in binary64."},
  {"property": "C90", "status": "proved", "theorems": ["C90_observers", "C90_base_window", "C90_first_extension", "C90_times_in_range_refuted"], "note": "For any two curves that return the left coefficient at the start of a segment."},
  {"property": "C91", "status": "proved", "theorems": ["C91_position", "C91_velocity", "C91_acceleration", "C91_relative_refuted"], "note": "Includes the refutation of a relative bound."},
  {"property": "C92", "status": "proved", "theorems": ["C92_fit_with_derivatives", "C92_fit"], "note": "fitPeriodicCurve is not covered: its end derivative divides by a negative time difference (C39)."},
  {"property": "C93", "status": "proved", "theorems": ["C93_log_jacobian", "C93_log_jacobian_near", "C93_exact_refuted", "C93_half_turn_refuted"], "note": "The exact statement is refuted for small angles and at a half turn."},
  {"property": "C94", "status": "proved", "theorems": ["C94_slerp", "C94_slerp_value", "C94_scaling", "C94_subtraction", "C94_pose_as_point", "C94_pose_as_point_refuted"], "note": "The Jacobian of pose2AsPoint2 is refuted for turned poses. The Jacobians of gtsam itself (inverse, compose, Expmap) are modelled as documented, with the formula for angle 0 at the angle 0 only."},
  {"property": "C95", "status": "proved", "theorems": ["C95_screw", "C95_screw_unique", "C95_velocity", "C95_refine", "C95_reversed", "C95_componentwise", "C95_reversed_refuted", "C95_componentwise_refuted", "C95_data"], "note": "minkindr is outside the repository: both readings of its exp and log of a transformation are proved, those of rigid motions and those of rotation and position apart. The reversed curve with a half turn and the uniform motion under the second reading are refuted."},
  {"property": "C96", "status": "proved", "theorems": ["C96_domain", "C96_other_orders", "C96_backwards", "C96_opposite", "C96_right_iff_at_rest", "C96_discrete", "C96_derivative_refuted", "C96_composition_refuted"], "note": "That the first derivative is the velocity of the curve is refuted, as is a velocity of a composition curve that is not zero. traits::Local(x, y) is taken to be the logarithm of the way from x to y."},
  {"property": "C97", "status": "proved", "theorems": ["C97_scalar", "C97_scalar_fitted", "C97_last_row_refuted", "C97_hermite_e3", "C97_hermite_se3", "C97_composition_discrete", "C97_composition_slerp"], "note": "The text around the numbers and the rounding of printed numbers are not modelled. That the last row of a scalar curve is at its end is refuted for double precision."},
  {"property": "C98", "status": "proved", "theorems": ["C98_position", "C98_velocity", "C98_acceleration", "C98_after", "C98_before", "C98_start", "C98_linear", "C98_quadratic", "C98_linear_end", "C98_exact_end_refuted"], "note": "An ending exactly at the given position is refuted. Multiplication and addition are rounded one by one (no fused multiply-add). Splines of order 3 to 5 made from options depend on the linear solver of Eigen, for which no rounding bound is assumed; the bounds for their evaluation hold for whatever coefficients it returns."},
  {"property": "C99", "status": "proved", "theorems": ["C99_superposition_four", "C99_superposition", "C99_offset_two", "C99_offset_four", "C99_offset", "C99_constant", "C99_scalar_offset", "C99_time_shift", "C99_time_stretch", "C99_offset_exact_refuted"], "note": "Real arithmetic. The hypothesis basic_solver holds for column pivoting QR (C100_solver) and for Gaussian elimination (gauss_basic); with an exact solver that is not basic the offset is refuted for order 5. Stretching time is proved for order 3; for order 5 it is refuted in C100."},
  {"property": "C100", "status": "proved", "theorems": ["C100_solver", "C100_linear_reproduced", "C100_cubic_reproduced", "C100_quintic_reproduced", "C100_uniform_refuted", "C100_stretch_refuted"], "note": "That the quintic fit with inner knots reproduces uniform motion, and that it does not depend on the unit of time, are refuted. The solver is modelled in exact arithmetic: the Householder reflections as orthogonal projections, the rank threshold as zero, and the updated column norms without the recomputation Eigen does against cancellation. In the two witnesses no two columns tie for the pivot."},
  {"property": "C101", "status": "proved", "theorems": ["C101_E3", "C101_SE3", "C101_container_nan", "C101_container_plus", "C101_container_minus", "C101_stuck", "C101_repaired", "C101_nan_knot", "C101_nan_knot_solved", "C101_scalar_nan"], "note": "Binary64 with Flocq. For the container the coefficients and durations are finite; the end is reached from plus infinity unless the sum of the durations overflows. A NaN time in the map of a Hermite curve is excluded (it breaks the order of std::map). That setData with a solver accepts NaN is a run with the pivoting solver; the answer does not depend on what the solver returns."},
  {"property": "C102", "status": "proved", "theorems": ["C102_position", "C102_velocity", "C102_acceleration", "C102_speed", "C102_curve", "C102_curve_derivatives", "C102_same_time_refuted"], "note": "Binary64 with Flocq, rounding to nearest even. The terms of the splines and the total length are neither extremely large nor extremely small (scales 2^-900 to 2^900, durations up to 2^150), fewer than 2^31 splines. The vector curve evaluates one container per component, so the container statement applies to each."},
  {"property": "C103", "status": "proved", "theorems": ["C103_kept", "C103_special", "C103_six_digit_numbers", "C103_integers", "C103_again", "C103_order", "C103_same_text", "C103_unix_times", "C103_file", "C103_distinct_refuted"], "note": "The digits are produced by a model of printf with \"%g\" (precision 6, the default of std::stringstream), the value read is the double nearest to the decimal read. Text that toString never produces (spaces, hexadecimal numbers, trailing characters) is outside of the model of atof. C103_distinct_refuted: that different times stay different is false."},
  {"property": "C104", "status": "proved", "theorems": ["C104_kept", "C104_decimals", "C104_integers", "C104_order", "C104_distinct", "C104_same_text", "C104_script", "C104_step_lost", "C104_distinct_refuted", "C104_spacing"], "note": "printf with \"%lf\" writes six places after the point. textscan is modelled for lines of at least 14 fields separated by spaces; fields are converted as by atof. C104_distinct_refuted: without the distance of 1/1000000 different times may become equal. The E3 export has 7 columns and is not a file for this script."},
  {"property": "C105", "status": "proved", "theorems": ["C105_position", "C105_velocity", "C105_unit", "C105_knots"], "note": "kindr is a parameter: C105_unit asks for exponentials of length one up to e and finite logarithms of length at most 8 (sound_kindr), C105_knots in addition for exp(0) = 1. C105_example: a correctly rounding kindr satisfies this. The last knot: C106_knots."},
  {"property": "C106", "status": "proved", "theorems": ["C106_half_turn_refuted", "C106_principal", "C106_orientation", "C106_knots"], "note": "The exact curve uses the exponential map and an exact logarithm of length at most pi. Distances are Euclidean distances of quaternions. C106_orientation is the general bound, C106_principal the one away from half turns, C106_half_turn_refuted the counterexample at a half turn. Angular velocities: C107."},
  {"property": "C107", "status": "proved", "theorems": ["C107_angular", "C107_knots", "C107_principal"], "note": "kindr is a parameter, as for C105 and C106. C107_angular is the general bound, C107_principal the one away from half turns, C107_knots the values at the knots."},
  {"property": "C108", "status": "proved", "theorems": ["C108_knots", "C108_fit", "C108_contained", "C108_se3", "C108_spline", "C108_finite_data_refuted"], "note": "Binary64. C108_fit says what a finite result implies (so a bad point is never masked), C108_contained that nothing else changes; both for fitCurveWithDerivatives, of which fitCurve is the case of zero derivatives. C108_knots and C108_se3 are about arbitrary curves, C108_spline about splines with given coefficients (not about the solver). C108_finite_data_refuted is the false converse."},
  {"property": "C109", "status": "proved", "theorems": ["C109_curve", "C109_se3_curve", "C109_fit", "C109_se3_fit", "C109_mean_speed_refuted"], "note": "Real arithmetic. C109_fit and C109_se3_fit are about fits (fitCurve is the case of zero end velocities), C109_curve and C109_se3_curve about arbitrary curves with unit quaternions. The factor 2 is sharp (C109_mean_speed_refuted); whether 3 is, is not claimed."},
  {"property": "C110", "status": "proved", "theorems": ["C110_positions", "C110_one_axis", "C110_fit", "C110_orientations_refuted"], "note": "Real arithmetic. Orientations are compared as rotations (a quaternion and its negative are the same). C110_orientations_refuted shows that C110_one_axis needs the axis."},
  {"property": "C111", "status": "proved", "theorems": ["C111_curve", "C111_fit", "C111_lever_refuted"], "note": "Real arithmetic. Equality is equality of quaternions, not only of rotations. C44 is the counterpart for the frame of the world."},
  {"property": "C112", "status": "proved", "theorems": ["C112_fit", "C112_fit_regular", "C112_se3_fit", "C112_irregular_refuted"], "note": "Real arithmetic; errors are Euclidean norms. C112_irregular_refuted shows that C112_fit_regular needs the regular times."},
  {"property": "C113", "status": "proved", "theorems": ["C113_second", "C113_fourth", "C113_curve"], "note": "Real arithmetic and an exact solver (C100_solver: the model of the one used is exact). Order 3 only: by C100_uniform_refuted a spline of order 5 does not even reproduce uniform motion, so that no such bound holds for it."},
  {"property": "C114", "status": "proved", "theorems": ["C114_fit_with_derivatives", "C114_fit"], "note": "IEEE double precision, round to nearest. The orientations themselves are C106, for given knots."},
  {"property": "C115", "status": "proved", "theorems": ["C115_fit", "C115_se3_fit", "C115_fit_at_rest", "C115_se3_fit_at_rest", "C115_turning", "C115_sharp"], "note": "Exact arithmetic. The bound 3/4 V h is sharp (C115_sharp); the angles are bounds only."},
  {"property": "C116", "status": "proved", "theorems": ["C116_container", "C116_curve"], "note": "Exact arithmetic and an exact solver. Positions and velocities are C113."},
  {"property": "C117", "status": "proved", "theorems": ["C117_initial_velocity", "C117_final_velocity", "C117_sample"], "note": "Exact arithmetic and an exact solver; order 3, where the fit is unique (C68)."},
  {"property": "C118", "status": "proved", "theorems": ["C118_exact", "C118_iterator", "C118_default", "C118_nan", "C118_tiny", "C118_negative"], "note": "For real numbers and for IEEE doubles. No caller passes a tolerance other than the default."},
  {"property": "C119", "status": "proved", "theorems": ["C119_fit", "C119_equidistant", "C119_se3_fit", "C119_measured", "C119_velocity", "C119_sharp", "C119_factors"], "note": "Exact arithmetic. Orientations of SE3 curves are left out."},
  {"property": "C120", "status": "proved", "theorems": ["C120_fit", "C120_measured", "C120_factor_refuted"], "note": "Exact arithmetic and an exact solver; order 3. The bound with a factor independent of the knots is refuted."},
  {"property": "C121", "status": "proved", "theorems": ["C121_speed", "C121_acceleration", "C121_se3"], "note": "IEEE double arithmetic for the program, real numbers for the motion. Orientations of SE3 curves are left out."},
  {"property": "C122", "status": "proved", "theorems": ["C122_curve", "C122_fit", "C122_steps", "C122_sharp"], "note": "Times are real numbers. Any distance with the triangle inequality."},
  {"property": "C123", "status": "proved", "theorems": ["C123_curve", "C123_fit", "C123_sharp", "C123_fast_refuted"], "note": "Exact arithmetic; SE(2) with its mathematical exponential and logarithm. The statement without the bound on W h is refuted."},
  {"property": "C124", "status": "proved", "theorems": ["C124_curve", "C124_fit", "C124_componentwise", "C124_any_turn", "C124_sharp", "C124_turn_refuted"], "note": "Exact arithmetic; both readings of exponential and logarithm as in C95. The bound without the term for the turning is refuted."},
  {"property": "C125", "status": "proved", "theorems": ["C125_curve", "C125_fit", "C125_sharp", "C125_fast_refuted"], "note": "Exact arithmetic; both readings of exponential and logarithm as in C95. The statement without the bound on W h is refuted."},
  {"property": "C126", "status": "proved", "theorems": ["C126_fit", "C126_fit_at_rest", "C126_error_refuted"], "note": "Exact arithmetic; exponential and logarithm of kindr as in C109 and C115. The bound with the error counted once is refuted."},
  {"property": "C127", "status": "proved", "theorems": ["C127_speed", "C127_position", "C127_curve", "C127_faster_refuted"], "note": "Exact arithmetic, exact solution of the linear system as in C113. The bound V for the speed is refuted."},
  {"property": "C128", "status": "proved", "theorems": ["C128_fit", "C128_fit_at_rest", "C128_se3_fit", "C128_factor_refuted", "C128_steps_refuted"], "note": "Exact arithmetic, coordinates of the frame the points are given in. Larger factors are refuted for both kinds of steps."},
  {"property": "C129", "status": "proved", "theorems": ["C129_positions", "C129_low_orders", "C129_sharp"], "note": "Exact arithmetic. Both bounds are shown to be reached."},
  {"property": "C130", "status": "proved", "theorems": ["C130_fit", "C130_se3_fit", "C130_motion", "C130_sharp"], "note": "Exact arithmetic. The bound is in terms of the data; it is reached for equal steps."}
]}
