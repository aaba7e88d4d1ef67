{
 "claims": [
  {
   "property": "C01",
   "status": "proved",
   "theorems": [
    "C01_evaluate_is_derivative",
    "C01_evaluate_undefined_iff",
    "C01_evaluate_vector",
    "C01_evaluate_vector_abort_iff",
    "C01_base_coefficient_values"
   ],
   "note": "Real-number instance; undefined calls characterised."
  },
  {
   "property": "C02",
   "status": "proved",
   "theorems": [
    "C02_getCoefficients_is_derivative",
    "C02_getCoefficients_outcomes"
   ],
   "note": "Real-number instance."
  },
  {
   "property": "C03",
   "status": "proved",
   "theorems": [
    "C03_convolve_is_product",
    "C03_convolve_coefficients",
    "C03_convolve_undefined_iff"
   ],
   "note": ""
  },
  {
   "property": "C04",
   "status": "proved",
   "theorems": [
    "C04_checked_constructor",
    "C04_add",
    "C04_scalar_mul",
    "C04_scale_in_time",
    "C04_offset",
    "C04_append_coefficients",
    "C04_equality",
    "C04_set_coefficients"
   ],
   "note": ""
  },
  {
   "property": "C05",
   "status": "proved",
   "theorems": [
    "C05_baseCoeffsWithTime_exact",
    "C05_baseCoeffsWithTime_small_t",
    "C05_exact_for_every_t_refuted",
    "C05_baseCoeffsWithTime_outcomes"
   ],
   "note": "Exact for t=0 and |t|>=2^-52 as stated; C05_exact_for_every_t_refuted shows exactness for all t would be false."
  },
  {
   "property": "C06",
   "status": "proved",
   "theorems": [
    "C06_computeMinMax_global",
    "C06_selectMinMaxFromRoots_global",
    "C06_computeMinMax_false_iff",
    "C06_low_degree_unconditional"
   ],
   "note": "Real arithmetic; complete real roots inside the interval and no overflow past DBL_MAX are hypotheses. C06_low_degree_unconditional discharges them with the modelled root finder for derivatives of degree at most three."
  },
  {
   "property": "C07",
   "status": "proved",
   "theorems": [
    "C07_selectMinMaxCandidatesFromRoots",
    "C07_selectMinMaxFromCandidates"
   ],
   "note": ""
  },
  {
   "property": "C08",
   "status": "proved",
   "theorems": [
    "C08_small_leading_ignored",
    "C08_constant",
    "C08_as_many_as_found",
    "C08_every_slot_written",
    "C08_zeros_at_origin",
    "C08_too_many_coefficients",
    "C08_only_bound_search_unbounded",
    "C08_low_degree_exact",
    "C08_low_degree_covers",
    "C08_quadratic_division_exact",
    "C08_reported_zeros",
    "C08_bound_search_ends",
    "C08_doubles_defined",
    "C08_first_of_pair_unchecked_finding",
    "C08_simple_zero_missed_finding",
    "C08_quad"
   ],
   "note": "Undefined behaviour: excluded for doubles if log is in range on positive doubles; the functions of cmath are otherwise arbitrary. Exactness for degree 1 and 2 and of the divisions is over the reals. For higher degrees the lists are characterised by the relation found (SpecRoots.v); that the listed values are close to the zeros is not claimed and is false (C08_first_of_pair_unchecked_finding, C08_simple_zero_missed_finding). More than 101 counting coefficients are undefined (C08_too_many_coefficients)."
  },
  {
   "property": "C09",
   "status": "proved",
   "theorems": [
    "C09_multi_dimension_extrema",
    "C09_multi_dimension_maximum",
    "C09_selection_in_window"
   ],
   "note": "Complete roots is a hypothesis; norms below DBL_MAX for the minimum only."
  },
  {
   "property": "C10",
   "status": "partial",
   "theorems": [
    "C10_single_dimension_maximum_partial",
    "C10_single_dimension_maximum",
    "C10_single_dimension_minimum_refuted"
   ],
   "note": "Maximum proved; the minimum claim is false (C10_single_dimension_minimum_refuted): zero crossings are not candidates."
  },
  {
   "property": "C11",
   "status": "partial",
   "theorems": [
    "C11_candidate_times_failure_iff_partial",
    "C11_candidates_never_false",
    "C11_failure_reported_refuted",
    "C11_single_dimension_unchecked",
    "C11_derivative_too_high_undefined",
    "C11_never_out_of_range_refuted"
   ],
   "note": "False of the code (C11_failure_reported_refuted, C11_never_out_of_range_refuted); the part that holds is C11_candidate_times_failure_iff_partial."
  },
  {
   "property": "C12",
   "status": "proved",
   "theorems": [
    "C12_segment_evaluate",
    "C12_single_dimension",
    "C12_offset"
   ],
   "note": ""
  },
  {
   "property": "C13",
   "status": "partial",
   "theorems": [
    "C13_append_dimension_partial",
    "C13_append_dimension_refuted",
    "C13_append_empty"
   ],
   "note": "Holds for equal N or equal times; refuted otherwise (time scaling dropped when N differs)."
  },
  {
   "property": "C14",
   "status": "proved",
   "theorems": [
    "C14_evaluate_inside",
    "C14_evaluate_elsewhere"
   ],
   "note": "Exact reals, N <= 22, non-negative segment times; empty trajectory gives undefined behaviour for t <= 0."
  },
  {
   "property": "C15",
   "status": "proved",
   "theorems": [
    "C15_max_time_in_range",
    "C15_max_time_in_range_double",
    "C15_max_time_last_segment",
    "C15_boundaries"
   ],
   "note": "Bit-exact for doubles; max time for every history incl. NaN times (some segment), last segment for non-negative times; partial sums for non-negative times."
  },
  {
   "property": "C16",
   "status": "partial",
   "theorems": [
    "C16_evaluateRange_partial",
    "C16_actual_labels",
    "C16_evaluateRange_refuted"
   ],
   "note": "Holds when t_start is a segment start. Finding: otherwise labels and stopping test start at the segment start (C16_evaluateRange_refuted, C16_actual_labels)."
  },
  {
   "property": "C17",
   "status": "partial",
   "theorems": [
    "C17_evaluateRange_total_partial",
    "C17_start_at_end_out_of_bounds",
    "C17_evaluateRange_refuted",
    "C17_many_samples_refuted",
    "C17_zero_step_refuted"
   ],
   "note": "Holds for t_start < max time and fewer than 2^59 samples. Findings: t_start = max time reads out of bounds, oversized reserve throws, dt = 0 is undefined (C17_*_refuted)."
  },
  {
   "property": "C18",
   "status": "proved",
   "theorems": [
    "C18_invariant",
    "C18_mismatch_aborts"
   ],
   "note": "Every arithmetic, every history; mismatches abort exactly when specified."
  },
  {
   "property": "C19",
   "status": "partial",
   "theorems": [
    "C19_single_dimension_partial",
    "C19_times_lost",
    "C19_single_dimension_refuted",
    "C19_bad_dimension_aborts"
   ],
   "note": "Polynomials are right, but segment times and duration of the result are zero (C19_single_dimension_refuted)."
  },
  {
   "property": "C20",
   "status": "proved",
   "theorems": [
    "C20_append",
    "C20_append_other"
   ],
   "note": "Exact reals, positive segment times, N <= 22."
  },
  {
   "property": "C21",
   "status": "partial",
   "theorems": [
    "C21_concatenates",
    "C21_evaluation",
    "C21_mismatch_false",
    "C21_output_is_this_loses_segments",
    "C21_aliasing_this_refuted",
    "C21_aliasing_element_refuted"
   ],
   "note": "Holds when the output is a distinct object. Findings: output aliasing this or an element gives wrong results (C21_aliasing_*_refuted)."
  },
  {
   "property": "C22",
   "status": "proved",
   "theorems": [
    "C22_scaleSegmentTimes",
    "C22_small_scaling"
   ],
   "note": "Exact reals for the evaluation; rejection for every arithmetic."
  },
  {
   "property": "C23",
   "status": "partial",
   "theorems": [
    "C23_limits_met",
    "C23_factor",
    "C23_max_values",
    "C23_max_success",
    "C23_low_degree_undefined",
    "C23_low_degree_refuted"
   ],
   "note": "Exact factor (C23_factor) and limits for 3 <= N <= 22 with a root finder that reports all real roots. Finding: N <= 2 is undefined behaviour (C23_low_degree_refuted)."
  },
  {
   "property": "C24",
   "status": "proved",
   "theorems": [
    "C24_global_extrema",
    "C24_maximum"
   ],
   "note": "Exact reals, root finder that reports all real roots, derivative < N, norms representable for the minimum only; maximum for every dimension (in one dimension the minimum is wrong, see C10)."
  },
  {
   "property": "C25",
   "status": "proved",
   "theorems": [
    "C25_getVertices",
    "C25_start_and_goal",
    "C25_position_yaw"
   ],
   "note": "Exact reals, N <= 22."
  },
  {
   "property": "C26",
   "status": "proved",
   "theorems": [
    "C26_start_or_end_for_order",
    "C26_vertex_is_finite_map",
    "C26_invariant"
   ],
   "note": "Refinement to a finite map over every call sequence."
  },
  {
   "property": "C27",
   "status": "partial",
   "theorems": [
    "C27_isEqualTol",
    "C27_isEqualTol_reflexive",
    "C27_isEqualTol_symmetric",
    "C27_different_dimension_refuted",
    "C27_getSubdimension"
   ],
   "note": "Holds for vertices of equal dimension; comparing vertices of different dimension is undefined (C27_different_dimension_refuted)."
  },
  {
   "property": "C28",
   "status": "partial",
   "theorems": [
    "C28_velocity_ramp_times",
    "C28_too_few_vertices_abort",
    "C28_time_factor_refuted"
   ],
   "note": "The returned time is the larger of 0.1 and the true minimum time; the time_factor argument is ignored (C28_time_factor_refuted)."
  },
  {
   "property": "C29",
   "status": "partial",
   "theorems": [
    "C29_positive_times_partial",
    "C29_repeated_waypoint",
    "C29_positive_times_refuted"
   ],
   "note": "Positive when consecutive waypoints differ; coincident waypoints get time zero (C29_positive_times_refuted)."
  },
  {
   "property": "C30",
   "status": "partial",
   "theorems": [
    "C30_random_rejection",
    "C30_square_vertices",
    "C30_random_vertices_partial",
    "C30_random_vertices_terminate_refuted",
    "C30_smallest_box_never_terminates"
   ],
   "note": "Square vertices in full; random vertices when the draw loop ends, which it need not (C30_random_vertices_terminate_refuted). The accepted positions are those of rejection sampling (C30_random_rejection)."
  },
  {
   "property": "C31",
   "status": "proved",
   "theorems": [
    "C31_constraints_met",
    "C31_setup_and_solve_succeed"
   ],
   "note": "After any history of calls, setup, and solveLinear or setFreeConstraints, for segment times >= 2^-52 and a correct inner block inverse; setup and solve succeed on every valid problem."
  },
  {
   "property": "C32",
   "status": "proved",
   "theorems": [
    "C32_continuous",
    "C32_any_free_values"
   ],
   "note": "As C31; every free vector of the right size is accepted."
  },
  {
   "property": "C33",
   "status": "proved",
   "theorems": [
    "C33_nonlinear_getters",
    "C33_cost_is_integral",
    "C33_cost_general",
    "C33_stale_times_refuted"
   ],
   "note": "Exact integral after the segments were computed; C33_cost_general gives the value for every reachable object; C33_stale_times_refuted: after updateSegmentTimes alone the reported cost is not that of the held segments."
  },
  {
   "property": "C34",
   "status": "proved",
   "theorems": [
    "C34_optimal",
    "C34_unique"
   ],
   "note": "Least integral cost among all piecewise polynomials with the same times meeting the constraints and continuity, and the only such one when the first vertex prescribes all derivatives below the minimised one (C34_unique); solver_ok and inverse_ok are hypotheses."
  },
  {
   "property": "C35",
   "status": "proved",
   "theorems": [
    "C35_mapping_matrix",
    "C35_inverse",
    "C35_injective",
    "C35_tiny_time_singular",
    "C35_inverse_for_all_positive_times_refuted"
   ],
   "note": "For T >= 2^-52; C35_tiny_time_singular shows that the matrix is singular for 0 < T < 2^-52 (finding)."
  },
  {
   "property": "C36",
   "status": "proved",
   "theorems": [
    "C36_reordering",
    "C36_rows_columns_pseudoinverse"
   ],
   "note": "Complete description of M, its columns, rows, order and pseudo-inverse."
  },
  {
   "property": "C37",
   "status": "partial",
   "theorems": [
    "C37_reuse",
    "C37_fully_constrained_refuted"
   ],
   "note": "Proved when the new problem has free constraints or no stale free values exist; C37_fully_constrained_refuted: a fully constrained problem after one with free constraints reads a vector of the wrong size."
  },
  {
   "property": "C38",
   "status": "proved",
   "theorems": [
    "C38_peak",
    "C38_after_solving",
    "C38_outside_domain",
    "C38_segment_candidates"
   ],
   "note": "Peak, index and candidate coverage for a complete root finder; undefined for an object without segments. When the candidate search of one segment succeeds: C38_segment_candidates."
  },
  {
   "property": "C39",
   "status": "proved",
   "theorems": [
    "C39_pack_unpack"
   ],
   "note": "For every number type: passing the packed vector to the unpacking of the objective gives back the times and free constraints."
  },
  {
   "property": "C40",
   "status": "proved",
   "theorems": [
    "C40_bounds",
    "C40_short_segment_not_optimized"
   ],
   "note": "Bounds contain the start in optimizeTimeAndFreeConstraints. Finding: optimizeTime keeps the bound 0.1, so a shorter segment makes nlopt refuse (C40_short_segment_not_optimized)."
  },
  {
   "property": "C41",
   "status": "partial",
   "theorems": [
    "C41_endpoint_bounds",
    "C41_free_pairs",
    "C41_lower_order_refuted"
   ],
   "note": "Holds when derivative_to_optimize is N/2-1 (C41_endpoint_bounds). False otherwise: C41_lower_order_refuted (bounds land on other variables)."
  },
  {
   "property": "C42",
   "status": "proved",
   "theorems": [
    "C42_soft_constraint_cost",
    "C42_cost_grows",
    "C42_compare"
   ],
   "note": "With positive limits, exp as the real exponential and a root finder that reports all real roots."
  },
  {
   "property": "C43",
   "status": "partial",
   "theorems": [
    "C43_stored_is_last_evaluated_partial",
    "C43_best_point_refuted"
   ],
   "note": "False: the object keeps the last point evaluated, not the best one (C43_best_point_refuted); C43_stored_is_last_evaluated_partial says exactly what is stored."
  },
  {
   "property": "C44",
   "status": "proved",
   "theorems": [
    "C44_state_and_gradient",
    "C44_perturbed_times",
    "C44_clamped_total_refuted",
    "C44_gradient_succeeds"
   ],
   "note": "State, entries and perturbed times. Finding: after clamping the total differs (C44_clamped_total_refuted)."
  },
  {
   "property": "C45",
   "status": "partial",
   "theorems": [
    "C45_times_scaled",
    "C45_limit_met_refuted",
    "C45_missing_limit_refuted",
    "C45_rest_to_rest"
   ],
   "note": "The common factor and the re-solve are proved. False: a missing velocity limit is taken as 0 and the times become infinite (C45_missing_limit_refuted); re-solving may violate the limits again (C45_limit_met_refuted). The limits are met within 0.1% if all prescribed derivatives are zero and the first vertex prescribes all derivatives below the minimised one (C45_rest_to_rest)."
  },
  {
   "property": "C46",
   "status": "proved",
   "theorems": [
    "C46_roundtrip",
    "C46_times",
    "C46_file_roundtrip",
    "C46_needs_dimension",
    "C46_needs_nonnegative_time"
   ],
   "note": "Nodes for every number type; the nanosecond bound and the rounding down over the reals. In doubles the bound is C49 and the rounding down fails (C49_rounded_down_refuted). The text codec of yaml-cpp is an argument assumed to read back what it writes."
  },
  {
   "property": "C47",
   "status": "partial",
   "theorems": [
    "C47_file_partial",
    "C47_missing_key",
    "C47_file_missing_key",
    "C47_unreadable_file_aborts",
    "C47_missing_file_refuted",
    "C47_scalar_segments_refuted",
    "C47_unparsable_refuted",
    "C47_nodes_refuted",
    "C47_rejected_node_keeps_trajectory",
    "C47_rejected_file_changes_trajectory_finding"
   ],
   "note": "False as stated: an absent file aborts in trajectoryFromFile (C47_missing_file_refuted), texts that are not YAML throw (C47_unparsable_refuted), malformed nodes throw, abort, are undefined or yield wrong coefficient counts (C47_nodes_refuted). Proved: files never yield wrong coefficient counts, missing keys return false. A rejected node leaves the trajectory as it was (C47_rejected_node_keeps_trajectory); a file rejected at a later segment replaces it by the segments before (C47_rejected_file_changes_trajectory_finding)."
  },
  {
   "property": "C48",
   "status": "partial",
   "theorems": [
    "C48_roundtrip_partial",
    "C48_near",
    "C48_refuted"
   ],
   "note": "Proved below 2^52 nanoseconds; false between 2^52 and 2^53 (C48_refuted), where the result is the value or one more (C48_near)."
  },
  {
   "property": "C49",
   "status": "partial",
   "theorems": [
    "C49_cycles_partial",
    "C49_yaml_partial",
    "C49_refuted",
    "C49_rounded_down_refuted"
   ],
   "note": "Proved for times of less than 2^52 nanoseconds; beyond, repeated cycles drift (C49_refuted)."
  },
  {
   "property": "C50",
   "status": "proved",
   "theorems": [
    "C50_failure_is_empty",
    "C50_roundtrip",
    "C50_roundtrip_4D",
    "C50_rejected",
    "C50_times",
    "C50_times_doubles",
    "C50_empty_message_aborts",
    "C50_malformed_message_aborts",
    "C50_needs_coefficients"
   ],
   "note": "The conversion between segment fields and messages (mav_planning_msgs) is an argument assumed to read back what it wrote. Times: exact arithmetic in C50_times, doubles below 2^52 ns in C50_times_doubles."
  },
  {
   "property": "C51",
   "status": "partial",
   "theorems": [
    "C51_at_time",
    "C51_segment",
    "C51_whole_trajectory",
    "C51_zero_duration_refuted",
    "C51_negative_interval_refuted"
   ],
   "note": "Proved for segment times >= 0, positive duration and dt > 0 (over the reals; the label is within int64). Zero-duration trajectories and negative intervals violate the claim (C51_zero_duration_refuted, C51_negative_interval_refuted)."
  },
  {
   "property": "C52",
   "status": "partial",
   "theorems": [
    "C52_no_samples",
    "C52_mean_of_none_finding",
    "C52_window",
    "C52_statistics_partial",
    "C52_max_refuted",
    "C52_variance_of_all_refuted",
    "C52_overflow_refuted",
    "C52_rolling_mean_refuted"
   ],
   "note": "Sum, Mean, Min, rolling mean proved over the reals; the maximum is wrong for samples below DBL_MIN (C52_max_refuted), the variance is of the window (C52_variance_of_all_refuted), counters overflow (C52_overflow_refuted), the rolling mean is wrong in doubles (C52_rolling_mean_refuted). Without samples: C52_no_samples; the means are then not numbers (C52_mean_of_none_finding)."
  },
  {
   "property": "C53",
   "status": "proved",
   "theorems": [
    "C53_handles",
    "C53_count",
    "C53_reset_fresh",
    "C53_pair",
    "C53_double_stop_finding",
    "C53_stop_without_start_finding",
    "C53_unknown_handle_finding",
    "C53_reset_tag_finding"
   ],
   "note": "For every sequence of registry and timer calls, clock readings as arguments. Calls that are not Start/Stop pairs: the _finding theorems."
  },
  {
   "property": "C54",
   "status": "proved",
   "theorems": [
    "C54_position_roundtrip",
    "C54_position_names",
    "C54_orientation_roundtrip",
    "C54_orientation_names",
    "C54_names_distinct"
   ],
   "note": "Every integer and every string."
  },
  {
   "property": "C55",
   "status": "partial",
   "theorems": [
    "C55_consistent",
    "C55_consistent_doubles",
    "C55_add",
    "C55_remove",
    "C55_roundtrip",
    "C55_nan_refuted",
    "C55_unknown_type_refuted",
    "C55_malformed_refuted"
   ],
   "note": "Proved over the reals and in doubles for values that are not NaN; false for NaN (C55_nan_refuted). Unknown constraint types do not survive YAML (C55_unknown_type_refuted), malformed nodes throw (C55_malformed_refuted)."
  },
  {
   "property": "C56",
   "status": "proved",
   "theorems": [
    "C56_segment",
    "C56_trajectory",
    "C56_other_dimensions",
    "C56_bounding_box",
    "C56_half_plane",
    "C56_three_points",
    "C56_points_on_a_line",
    "C56_negative_time_finding"
   ],
   "note": "For segments with 3 or 4 dimensions, at least one coefficient, non-negative duration (C56_segment, C56_trajectory), bounding boxes, point/normal and three-point planes. Over the reals; the root finder is an argument assumed to find the real zeros of the velocity towards each plane. Other dimensions are reported infeasible; negative durations always feasible; collinear points give a zero normal (findings)."
  },
  {
   "property": "C57",
   "status": "proved",
   "theorems": [
    "C57_new_checker",
    "C57_feasible_is_sound"
   ],
   "note": "Over the reals; the root finder is an argument assumed to find the real zeros of the derivatives of order 2 to 4; values and the roll/pitch limit below the largest double; gravity as set by the constructor. Includes yaw for four dimensions."
  },
  {
   "property": "C58",
   "status": "proved",
   "theorems": [
    "C58_default_settings",
    "C58_infeasible_is_justified",
    "C58_terminates",
    "C58_roll_pitch_never_reported",
    "C58_short_polynomials_abort",
    "C58_zero_section_finding"
   ],
   "note": "Same hypotheses as C57. Termination for every positive minimum section time (C58_terminates), the recursion may be endless for 0 (C58_zero_section_finding). The roll/pitch verdict is never returned."
  },
  {
   "property": "C59",
   "status": "partial",
   "theorems": [
    "C59_thrust_speed_yaw_partial",
    "C59_rates_partial",
    "C59_short_segments_partial",
    "C59_refuted",
    "C59_sections_refuted"
   ],
   "note": "A feasible verdict implies the thrust, speed and yaw limits at every time. It does not imply the roll and pitch limit: jerk over thrust is compared with the square of the limit (C59_refuted), and sections without a candidate time of the jerk are accepted (C59_sections_refuted). For segments shorter than two minimum sections and a limit of at most 1 the property holds."
  },
  {
   "property": "C60",
   "status": "proved",
   "theorems": [
    "C60_trajectory",
    "C60_base",
    "C60_names"
   ],
   "note": "For every check of a segment and every number type, doubles included."
  },
  {
   "property": "C61",
   "status": "partial",
   "theorems": [
    "C61_default_settings",
    "C61_verdict",
    "C61_other_dimensions",
    "C61_thrust_and_speed",
    "C61_zero_interval_finding",
    "C61_terminates_refuted"
   ],
   "note": "Proved over real numbers: samples at all multiples of the interval, verdicts justified and complete for the samples, terminates. In binary64 a positive interval may be too small to advance the time (C61_terminates_refuted)."
  },
  {
   "property": "C62",
   "status": "partial",
   "theorems": [
    "C62_ticks_after_trajectory",
    "C62_nothing_before_trajectory",
    "C62_nothing_after_stop",
    "C62_other_events",
    "C62_kinds_of_events",
    "C62_empty_message_ignored",
    "C62_whole_mode",
    "C62_malformed_message_finding",
    "C62_sample_times",
    "C62_needs_positive_interval_finding",
    "C62_whole_mode_states",
    "C62_doubles",
    "C62_end_in_doubles_refuted",
    "C62_whole_mode_end_refuted"
   ],
   "note": "Proved for every sequence of events: in real arithmetic samples at 0, dt, 2dt, ... up to the duration (C62_sample_times); for every arithmetic, doubles included, samples at the running sums of dt (C62_ticks_after_trajectory, C62_doubles); silence before a trajectory and after a stop; restart at 0; empty messages ignored. False in two cases: rounding of the running sum loses the sample at the end (C62_end_in_doubles_refuted), and with publish_whole_trajectory the end is never included (C62_whole_mode_end_refuted)."
  },
  {
   "property": "C63",
   "status": "partial",
   "theorems": [
    "C63_append_into_argument_partial",
    "C63_append_into_argument_refuted",
    "C63_append_into_this_aborts",
    "C63_append_into_this_refuted",
    "C63_single_dimension_into_this_refuted"
   ],
   "note": "False of the code; refutations with witnesses, and the aliasing case that works."
  },
  {
   "property": "C64",
   "status": "partial",
   "theorems": [
    "C64_setSegments_self_loses_segments",
    "C64_setSegments_self_refuted",
    "C64_addSegments_self_refuted"
   ],
   "note": "False: setSegments with the own vector loses all segments, addSegments is undefined behaviour (C64_*_refuted)."
  },
  {
   "property": "C65",
   "status": "partial",
   "theorems": [
    "C65_equality",
    "C65_different_N_refuted"
   ],
   "note": "Proved for equal N. Finding: different N compares Eigen vectors of different size (C65_different_N_refuted)."
  },
  {
   "property": "C66",
   "status": "proved",
   "theorems": [
    "C66_after_optimize",
    "C66_trajectory_valid",
    "C66_time_only_optimal",
    "C66_optimize_succeeds"
   ],
   "note": "For every history and every behaviour of nlopt."
  },
  {
   "property": "C67",
   "status": "partial",
   "theorems": [
    "C67_objective_time",
    "C67_objective_times_and_constraints",
    "C67_total_cost",
    "C67_total_cost_is_objective",
    "C67_total_cost_refuted"
   ],
   "note": "Objective values are the stated sums. False: getTotalCostWithSoftConstraints caps the soft cost at 1e9, the objective at 1e12 (C67_total_cost_refuted)."
  },
  {
   "property": "C68",
   "status": "partial",
   "theorems": [
    "C68_table_partial",
    "C68_more_segments_than_samples",
    "C68_refuted"
   ],
   "note": "Proved when the trajectory has no more segments than samples; otherwise the last column is written outside the matrix (C68_refuted)."
  },
  {
   "property": "C69",
   "status": "partial",
   "theorems": [
    "C69_start_duration_partial",
    "C69_range_partial",
    "C69_range_refuted"
   ],
   "note": "Every claimed sample is present and correct, but samples continue past max_time by the offset of min_time in its segment (C69_range_refuted)."
  },
  {
   "property": "C70",
   "status": "proved",
   "theorems": [
    "C70_new_checker",
    "C70_infeasible_is_justified",
    "C70_roll_pitch_never_reported",
    "C70_terminates",
    "C70_negative_time_undefined_finding"
   ],
   "note": "Every infeasible verdict is justified; the recursion ends with a verdict. Negative durations are undefined behaviour (C70_negative_time_undefined_finding)."
  },
  {
   "property": "C71",
   "status": "proved",
   "theorems": [
    "C71_refines",
    "C71_undefined",
    "C71_unknown_tag",
    "C71_print",
    "C71_statistics",
    "C71_max_of_zero_finding",
    "C71_mini_timer"
   ],
   "note": "Refinement of an abstract machine of watches and recorded durations, for doubles as well as reals; statistics as real numbers; the maximum of durations that are all zero is reported as DBL_MIN (C71_max_of_zero_finding)."
  },
  {
   "property": "C72",
   "status": "proved",
   "theorems": [
    "C72_inverse",
    "C72_matrices"
   ],
   "note": "Real arithmetic; C72_inverse and the getA part assume an inverse oracle that inverts its (Schur) argument and segment times of at least 2^-52."
  },
  {
   "property": "C73",
   "status": "proved",
   "theorems": [
    "C73_time_scaling"
   ],
   "note": "In exact arithmetic; solver_ok and inverse_ok are hypotheses."
  },
  {
   "property": "C74",
   "status": "partial",
   "theorems": [
    "C74_constraints_kept",
    "C74_one_addition",
    "C74_new_object",
    "C74_optimize_before_setup",
    "C74_hard_constraints_kept_refuted",
    "C74_failed_addition_refuted"
   ],
   "note": "The list of the object is exactly what was added, for every history (C74_constraints_kept). False for the rest: a second setupFromVertices takes the hard constraints away from nlopt (C74_hard_constraints_kept_refuted); a constraint whose addition returns false stays in the object (C74_failed_addition_refuted)."
  },
  {
   "property": "C75",
   "status": "proved",
   "theorems": [
    "C75_path"
   ],
   "note": "Positions must have three elements. Stamps are left out."
  },
  {
   "property": "C76",
   "status": "partial",
   "theorems": [
    "C76_poses",
    "C76_count",
    "C76_zero_distance_draws_every_pose",
    "C76_zero_distance_refuted",
    "C76_translation_refuted",
    "C76_appendMarkers"
   ],
   "note": "The selection rule and the content of every drawn pose are proved in real arithmetic (C76_poses, C76_count), with the first pose measured from the origin of the frame. False: distance 0 disables the poses (C76_zero_distance_refuted); independence of the place (C76_translation_refuted). EigenMavStateFromEigenTrajectoryPoint is assumed to copy the position."
  },
  {
   "property": "C77",
   "status": "partial",
   "theorems": [
    "C77_by_time_partial",
    "C77_last_point_refuted",
    "C77_late_start_refuted",
    "C77_wrap_refuted",
    "C77_empty_undefined",
    "C77_long_interval_undefined",
    "C77_single_point_twice"
   ],
   "note": "The selection rule is proved for stamps and dt below 2^32 ns, measured from time 0 (C77_by_time_partial). False: the last point (C77_last_point_refuted), the second one when the first stamp is not 0 (C77_late_start_refuted), gaps above 2^32 ns (C77_wrap_refuted); no points or dt of 2^32 ns and more is undefined behaviour."
  },
  {
   "property": "C78",
   "status": "partial",
   "theorems": [
    "C78_new_array_partial",
    "C78_reused_array",
    "C78_wrong_dimension",
    "C78_redraw_refuted"
   ],
   "note": "Proved for an empty array and three-dimensional vertices (C78_new_array_partial). False for a reused array, whose first marker keeps its points (C78_redraw_refuted); a vertex of another dimension stops the drawing without a frame (C78_wrong_dimension)."
  },
  {
   "property": "C79",
   "status": "partial",
   "theorems": [
    "C79_vertices_partial",
    "C79_other_dimension",
    "C79_empty",
    "C79_yaw_refuted"
   ],
   "note": "Proved for three dimensions, an empty array and non-negative segment times (C79_vertices_partial). False for trajectories with yaw, which are not drawn (C79_yaw_refuted)."
  },
  {
   "property": "C80",
   "status": "proved",
   "theorems": [
    "C80_transform",
    "C80_transform_keeps_distances",
    "C80_transform_twice",
    "C80_getMarkers",
    "C80_setters"
   ],
   "note": "Real arithmetic, unit quaternions."
  },
  {
   "property": "C81",
   "status": "partial",
   "theorems": [
    "C81_path",
    "C81_low_dimension",
    "C81_goal_refuted"
   ],
   "note": "The line is proved to go through the positions at k/10 before the end (C81_path). False: the goal is not drawn (C81_goal_refuted)."
  },
  {
   "property": "C82",
   "status": "partial",
   "theorems": [
    "C82_hexacopter_partial",
    "C82_leica_ids_refuted",
    "C82_mesh_orientation_refuted",
    "C82_leica_visible",
    "C82_hexacopter_visible",
    "C82_rotors",
    "C82_leica_legs"
   ],
   "note": "Ids of the hexacopter are different (C82_hexacopter_partial). False: the Leica uses the id 1 twice (C82_leica_ids_refuted); the meshes of the full hexacopter have the zero quaternion and do not turn with the vehicle (C82_mesh_orientation_refuted). Proved: every part of both vehicles is displayed, by its marker or a copy (C82_hexacopter_visible, C82_leica_visible); geometry of rotors and legs (C82_rotors, C82_leica_legs)."
  },
  {
   "property": "C83",
   "status": "partial",
   "theorems": [
    "C83_axes",
    "C83_axes_arrows",
    "C83_arrow_pose",
    "C83_arrow_pose_reused_refuted"
   ],
   "note": "drawAxes and drawAxesArrows proved in real arithmetic; drawArrowPositionOrientation sets the pose (C83_arrow_pose) but keeps points of an earlier use (C83_arrow_pose_reused_refuted)."
  },
  {
   "property": "C84",
   "status": "partial",
   "theorems": [
    "C84_states_joined",
    "C84_succeeds",
    "C84_same_position_aborts",
    "C84_succeeds_everywhere_refuted",
    "C84_wrong_size_aborts",
    "C84_always_true",
    "C84_failure_not_reported_finding"
   ],
   "note": "The states are joined whenever a trajectory of at least 2^-52 s is returned (C84_states_joined), and one is returned for every goal away from the current position (C84_succeeds). False: a goal at the current position aborts (C84_succeeds_everywhere_refuted); a failed optimisation is not reported (C84_always_true, C84_failure_not_reported_finding)."
  },
  {
   "property": "C85",
   "status": "partial",
   "theorems": [
    "C85_limits_met",
    "C85_rest_to_rest",
    "C85_fast_start_not_met",
    "C85_start_met_refuted",
    "C85_simple_planner_limit_refuted"
   ],
   "note": "The limits hold within 0.1% at all times; positions are met and velocities divided by one factor >= 1 (C85_limits_met); exact states from rest to rest. False: a start velocity above the limit is not met (C85_start_met_refuted); planTrajectory of example_planner.cc does not keep the limits (C85_simple_planner_limit_refuted)."
  },
  {
   "property": "C86",
   "status": "partial",
   "theorems": [
    "C86_other_sizes_refused",
    "C86_position",
    "C86_position_yaw",
    "C86_full_pose",
    "C86_goal_velocity_met_refuted",
    "C86_same_orientation_aborts",
    "C86_same_orientation_refuted"
   ],
   "note": "Sizes 3, 4 and 6 with limits within 0.1% and velocities divided by factors >= 1; other sizes refused. False: the velocity at the goal, within the limits, is not met when the other part takes longer (C86_goal_velocity_met_refuted); a goal with the current orientation aborts (C86_same_orientation_refuted)."
  },
  {
   "property": "C87",
   "status": "partial",
   "theorems": [
    "C87_result",
    "C87_new_time",
    "C87_speed_up_finding",
    "C87_violating_segment_slowed_refuted"
   ],
   "note": "Constraints, smoothness, cost and the exact new times are proved (C87_result, C87_new_time) unless a violation is exactly 100 % (division by zero). False: a segment that violates a limit by more than 100 % is given 0.1 s (C87_violating_segment_slowed_refuted)."
  },
  {
   "property": "C88",
   "status": "partial",
   "theorems": [
    "C88_path_length",
    "C88_line_distance",
    "C88_equal_points_nan",
    "C88_line_distance_refuted",
    "C88_nominal_length",
    "C88_missing_position",
    "C88_nominal_length_refuted"
   ],
   "note": "All three are proved (C88_path_length, C88_line_distance, C88_nominal_length). False: the distance is not a number for coinciding points of the line (C88_equal_points_nan, C88_line_distance_refuted); a vertex without a position is undefined behaviour (C88_missing_position, C88_nominal_length_refuted)."
  },
  {
   "property": "C89",
   "status": "partial",
   "theorems": [
    "C89_measures",
    "C89_overshoot_refuted",
    "C89_area_nan",
    "C89_area_refuted"
   ],
   "note": "All measures are proved over the reals for segments whose ends differ (C89_measures). False: an overshoot beyond the ends counts as distance 0 (C89_overshoot_refuted); a segment whose computed ends coincide makes the area not a number (C89_area_nan, C89_area_refuted)."
  },
  {
   "property": "C90",
   "status": "partial",
   "theorems": [
    "C90_results",
    "C90_marker",
    "C90_short_path_invisible",
    "C90_path_drawn_refuted",
    "C90_colors",
    "C90_linear_methods",
    "C90_nonlinear_methods",
    "C90_initial_objective",
    "C90_mellinger_start"
   ],
   "note": "Results, markers, namespaces and colours are proved (C90_results for every number type, C90_marker, C90_colors), and which optimiser, settings and start value each method uses (C90_linear_methods, C90_nonlinear_methods, C90_initial_objective, C90_mellinger_start). False: of a path of at most 0.9 s nothing is drawn, of others one point per second from 0.9 s on (C90_short_path_invisible, C90_path_drawn_refuted)."
  },
  {
   "property": "C91",
   "status": "partial",
   "theorems": [
    "C91_candidates",
    "C91_maximum_missed",
    "C91_maximum_refuted",
    "C91_positive_interval_needed"
   ],
   "note": "The candidates are proved exactly (C91_candidates). False: the last clause; for every sampling interval and every M a parabola reaches M while all its candidates have magnitude 0 (C91_maximum_missed, C91_maximum_refuted), because the norm of the derivative at the sample need not be below 0.01."
  },
  {
   "property": "C92",
   "status": "partial",
   "theorems": [
    "C92_path",
    "C92_stays_near_origin",
    "C92_terminates",
    "C92_dimension_zero",
    "C92_steps_refuted",
    "C92_timing_run",
    "C92_timing_run_aborts"
   ],
   "note": "Everything but the distances is proved (C92_path, C92_timing_run, C92_terminates). False: consecutive vertices may be more than twice the average distance apart, 15 for an average of 5 (C92_steps_refuted); the step is added to the previous step instead of the previous position, so the path stays near the origin (C92_stays_near_origin)."
  },
  {
   "property": "C93",
   "status": "proved",
   "theorems": [
    "C93_maximum",
    "C93_maximum_accuracy",
    "C93_cost_accuracy",
    "C93_no_duration",
    "C93_positive_interval_needed",
    "C93_random_double",
    "C93_check_matrices",
    "C93_check_matrices_nan",
    "C93_end_not_sampled_finding"
   ],
   "note": "Over the reals (C93_maximum, C93_maximum_accuracy, C93_cost_accuracy, C93_random_double, C93_check_matrices). The end of the trajectory is not sampled, so the exact maximum is not attained in general (C93_end_not_sampled_finding); a zero duration gives -1e9 (C93_no_duration); in doubles a NaN after the first coefficient is not noticed (C93_check_matrices_nan)."
  },
  {
   "property": "C94",
   "status": "proved",
   "theorems": [
    "C94_evaluate_error",
    "C94_no_overflow",
    "C94_evaluate_zero",
    "C94_segment_error"
   ],
   "note": "Round to nearest even without fused multiply-add. C94_evaluate_error, C94_evaluate_zero, C94_segment_error, C94_no_overflow."
  },
  {
   "property": "C95",
   "status": "proved",
   "theorems": [
    "C95_local_time",
    "C95_evaluate_error",
    "C95_before_segment_start_finding",
    "C95_max_time"
   ],
   "note": "C95_local_time, C95_evaluate_error, C95_max_time. The local time may be slightly negative (C95_before_segment_start_finding)."
  },
  {
   "property": "C96",
   "status": "proved",
   "theorems": [
    "C96_marker",
    "C96_ellipsoid",
    "C96_negative_eigenvalue_nan"
   ],
   "note": "C96_ellipsoid, C96_marker over the reals; the eigenvalue solver is an argument with the hypothesis solves. C96_negative_eigenvalue_nan: in doubles a computed eigenvalue below zero makes the scale NaN."
  },
  {
   "property": "C97",
   "status": "proved",
   "theorems": [
    "C97_table",
    "C97_file",
    "C97_main"
   ],
   "note": "C97_table, C97_file, C97_main, for every number type. The texts of numbers are arguments (the stream keeps six significant digits)."
  },
  {
   "property": "C98",
   "status": "proved",
   "theorems": [
    "C98_scaled_path",
    "C98_no_overflow",
    "C98_max_time",
    "C98_nan_accepted_finding",
    "C98_huge_scaling_finding"
   ],
   "note": "C98_scaled_path, C98_no_overflow, C98_max_time in binary64. Findings outside the statement: a NaN is accepted (C98_nan_accepted_finding), and without the bound of 2^40 the powers of the inverse underflow and the path is lost (C98_huge_scaling_finding)."
  },
  {
   "property": "C99",
   "status": "proved",
   "theorems": [
    "C99_product",
    "C99_product_finite",
    "C99_sum",
    "C99_scalar",
    "C99_derivative",
    "C99_offset"
   ],
   "note": "C99_product, C99_product_finite, C99_sum, C99_scalar, C99_derivative, C99_offset in binary64, for the summation order of the loops of the code."
  },
  {
   "property": "C100",
   "status": "proved",
   "theorems": [
    "C100_samples",
    "C100_terminates",
    "C100_stalls_finding"
   ],
   "note": "C100_samples and C100_terminates in binary64. Finding: with a smaller dt the loop never ends (C100_stalls_finding: two segments of 2^53 s sampled from 2^53 with dt = 1)."
  },
  {
   "property": "C101",
   "status": "proved",
   "theorems": [
    "C101_offset",
    "C101_success",
    "C101_evaluate"
   ],
   "note": "C101_offset on the segments, C101_evaluate through Trajectory::evaluate. The flag for any trajectory object and any numbers: C101_success."
  },
  {
   "property": "C102",
   "status": "partial",
   "theorems": [
    "C102_nfabian_time",
    "C102_estimate",
    "C102_distinct_positions_zero_time_refuted",
    "C102_ramp",
    "C102_nan_limit_finding",
    "C102_infinite_time_finding"
   ],
   "note": "Ramp: C102_ramp, for all inputs. Nfabian: C102_estimate and C102_nfabian_time under the stated ranges; for positions that differ by less the claim is false, the distance underflows and the time is 0 (C102_distinct_positions_zero_time_refuted)."
  }
 ]
}