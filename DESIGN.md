# Verification of mav_trajectory_generation: design

The C++ in `/repo` is read as text only. The model is a set of Gallina functions that follow the
code function by function (`rocq/theories/Model*.v`); every definition names file and lines.
Specifications are in `Spec*.v`, lemmas in `Proof*.v`, and the property theorems in `Prop*.v`
(statement, proof, `Print Assumptions`, and an `Example` showing that a non-trivial case meets the hypotheses).

## Modelling choices

* **Numbers.** Numeric code is written once over a record of operations `NumOps T`
  (`Num.v`: add, mul, div, sqrt, comparisons, constants). It is instantiated at
  * `R_ops` - Coq real numbers: "double arithmetic without rounding, overflow, NaN". All calculus/algebra
    theorems are at this instance.
  * `B64_ops` - IEEE binary64 of Flocq (round to nearest even, infinities, NaN): used for bit-exact
    theorems and for counterexamples that depend on rounding or NaN.
  * theorems that need no arithmetic law are stated for *every* `NumOps` (with the few comparison
    laws written as hypotheses), so they hold for doubles as well.
* **Outcomes.** `outcome A = Ok a | Abort | UB | Throw`. `Abort` = glog `CHECK*` failure; `UB` = out-of-range
  `std::vector`/Eigen access, size-mismatched Eigen expression, negative size, conversion of a negative or
  too large double to an unsigned integer (Eigen asserts in debug builds, undefined in release builds);
  `Throw` = C++ exception.
* **Loops** are structural recursion or folds. Loops whose termination is part of the claim use fuel; the
  theorems either show that enough fuel exists or say what happens when it does not.
* **External code** enters as function arguments ("oracles"): polynomial root finder result, dense inverse,
  sparse QR solve, nlopt, random source, YAML text layer, ROS message copy helpers, transcendental functions.
  Whatever a theorem assumes about an oracle is an explicit hypothesis of that theorem. Examples instantiate the
  hypotheses with oracles that provably satisfy them (`perfect_rf`, `perfect_inv`, `perfect_solve`).
* **Specifications** (`Spec*.v`) are separate from the model: derivatives are Coquelicot `Derive_n`/`is_derive_n`,
  integrals `RInt`, maps are functions, and so on.
* **Status words.** A property that is false of the code keeps status "partial"; its note names the
  `_refuted` theorem (existential witness) and the theorem for the part that holds.

## Trusted base

* Coq 8.16.1 kernel and the standard library's axioms listed per theorem at the end of this file. No axioms of our own.
* Libraries Coquelicot and Flocq (both without own axioms).
* The reading of the C++ by the author of the model: nothing is extracted or executed against the code.
* The comments of the definitions state each simplification; the main ones: real arithmetic for calculus claims,
  Eigen matrices as lists of rows, `std::map`/`std::set` as sorted lists, object identity only where aliasing matters
  (C21, C63, C64), logging and timing side effects dropped.

## What is modelled

| file in /repo | model | not modelled |
|---|---|---|
| polynomial.h/.cpp | ModelPolynomial.v | `operator<<` |
| segment.h/.cpp, extremum.h | ModelSegment.v | printing (`printSegment...`) |
| vertex.h/.cpp | ModelVertex.v | `operator<<`; `srand`/generator seeding (random stream is an argument) |
| trajectory.h/.cpp | ModelTrajectory.v | - |
| polynomial_optimization_linear.h, impl | ModelLinear.v (candidates by sampling: ModelExtra.v) | `printReorderingMatrix` |
| polynomial_optimization_nonlinear.h, impl | ModelNonlinear.v | choice of nlopt algorithm, tolerances and seeds (part of the nlopt argument); timers; `operator<<` |
| timing.h, timing.cpp | ModelTiming.v (Print as the list of its rows) | mutex, text layout of Print, SecondsToTimeString, the clock |
| motion_defines.cpp | ModelMotion.v | logging |
| mav_trajectory_generation_ros/src/input_constraints.cpp | ModelInput.v | logging |
| io.cpp, io.h (and yaml-cpp nodes, ModelYaml.v) | ModelIO.v | text syntax of YAML (argument), file system (a map from names to contents), memory exhaustion |
| trajectory_sampling.cpp, .h | ModelSampling.v | the mav_msgs functions for attitudes (arguments) |
| mav_trajectory_generation_ros/src/ros_conversions.cpp | ModelMsgs.v | the mav_planning_msgs conversion of one segment (arguments); CHECK_NOTNULL |
| mav_trajectory_generation_ros/src/feasibility_base.cpp, feasibility_recursive.cpp, feasibility_analytic.cpp, feasibility_sampling.cpp and headers | ModelFeasibility.v | mav_msgs conversion of a flat state into a full state (argument); logging |
| mav_trajectory_generation_ros/src/trajectory_sampler_node.cpp, .h | ModelNode.v | conversion of states to ROS messages, ros::Duration, parameter server, real time of the ticks; callbacks are run one at a time (ros::spin) |
| rpoly/rpoly_ak1.cpp, rpoly_ak1.h | ModelRpoly.v | log, exp, cos, sin, pow (arguments); reads of doubles not yet assigned give an arbitrary fixed value instead of undefined behaviour |
| mav_trajectory_generation_ros/src/ros_visualization.cpp, mav_visualization/src/marker_group.cpp, hexacopter_marker.cpp, leica_marker.cpp, mav_visualization/include/mav_visualization/helpers.h | ModelVis.v, ModelCov.v (drawCovariance3D) | MarkerGroup::publish; stamp and seq of the header; float32 rounding of colours; ros::Duration; CHECK_NOTNULL; logging |
| mav_trajectory_generation_example/src/example_planner.cc, example_planner_6dof.cc | ModelPlanner.v | odometry callback, parameter server, publishers (example_planner.cc advertises PolynomialTrajectory4D but publishes PolynomialTrajectory, read only); mav_msgs rotation vector and yaw (arguments) |
| mav_trajectory_generation_ros/src/time_evaluation_node.cpp | ModelBench.v, ModelReport.v (table and main) | text of numbers (argument), parameter server, publishers, measured times (arguments) |
| mav_trajectory_generation/src/polynomial_timing_evaluation.cpp, test_utils.h, computeSegmentMaximumMagnitudeCandidatesBySampling | ModelExtra.v | main and the timer of the timing evaluation; the engine of the random generator (any sequence within the bounds); the sign of a NaN in std::signbit |

Never modelled: ROS transport, wall-clock measurements, memory allocation, printing.

## Findings (claims refuted for the faithful model)

| finding | theorem |
|---|---|
| `baseCoeffsWithTime` replaces a non-zero time below epsilon by 0 | `C05_exact_for_every_t_refuted` |
| one-dimensional magnitude minimum ignores zero crossings | `C10_single_dimension_minimum_refuted` |
| failure of the candidate computation is reported as success; too high derivative reads out of range | `C11_failure_reported_refuted`, `C11_never_out_of_range_refuted` |
| appending dimensions drops the time scaling when N differs | `C13_append_dimension_refuted` |
| `evaluateRange`: labels, reads past the last segment, throws or does not end for dt = 0 | `C16_evaluateRange_refuted`, `C17_evaluateRange_refuted`, `C17_many_samples_refuted`, `C17_zero_step_refuted` |
| single-dimension trajectory loses its segment times | `C19_single_dimension_refuted` |
| `addTrajectories` into one of its arguments; segment composition into an operand | `C21_aliasing_element_refuted`, `C21_aliasing_this_refuted`, `C63_append_into_argument_refuted`, `C63_append_into_this_refuted`, `C63_single_dimension_into_this_refuted` |
| `computeMaxVelocityAndAcceleration` / `scaleSegmentTimesToMeetConstraints` read out of range for N <= 2 | C23 |
| `isEqualTol` on vertices of different dimension reads out of range | `C27_different_dimension_refuted` |
| `estimateSegmentTimesVelocityRamp` ignores `time_factor` | `C28_time_factor_refuted` |
| coincident waypoints get segment time 0, which the optimiser rejects | `C29_positive_times_refuted` |
| `createRandomVertices` need not terminate | `C30_random_vertices_terminate_refuted` |
| `computeCost` after `updateSegmentTimes` alone mixes new times with old polynomials | `C33_stale_times_refuted` |
| the mapping matrix is singular for 0 < T < 2^-52, a time that `setupFromVertices` accepts | `C35_inverse_for_all_positive_times_refuted` |
| a fully constrained problem after one with free constraints reads stale free constraints of the wrong size | `C37_fully_constrained_refuted` |
| `setSegments(segments())` loses all segments, `addSegments(segments())` is undefined | `C64_setSegments_self_refuted`, `C64_addSegments_self_refuted` |
| `operator==` of trajectories reads out of range for different N | `C65_different_N_refuted` |
| endpoint-derivative bounds are set on the wrong variables when derivative_to_optimize < N/2-1 | `C41_lower_order_refuted` |
| `optimize()` keeps the last evaluated point instead of the best one | `C43_best_point_refuted` |
| clamping to 0.1 s changes the total time of the perturbed problems of the Mellinger gradient | `C44_clamped_total_refuted` |
| without a velocity (or acceleration) limit the time scaling divides by 0 | `C45_missing_limit_refuted` |
| after time scaling the re-solved trajectory can violate the limits again | `C45_limit_met_refuted` |
| a segment shorter than 0.1 s makes `optimizeTime` fail without optimising | `C40_short_segment_not_optimized` |
| `getTotalCostWithSoftConstraints` uses another cap than the objective | `C67_total_cost_refuted` |
| absent or unreadable trajectory file aborts the process instead of returning false | `C47_missing_file_refuted`, `C47_unreadable_file_aborts` |
| a file with "segments: 5" counts as read successfully | `C47_scalar_segments_refuted` |
| YAML nodes without "segments", with too few coefficient lists, with sizes that differ, with negative N: throw, abort, undefined behaviour; wrong coefficient counts accepted | `C47_nodes_refuted` |
| trajectories with D = 0 or without segments cannot be read back; negative times are undefined behaviour on writing | `C46_needs_dimension`, `C46_needs_nonnegative_time` |
| nanoseconds from 2^52 on are not reproduced, and drift by one per save and load | `C48_refuted`, `C49_refuted` |
| a restored time can be later than the stored one (3e-9 s) | `C49_rounded_down_refuted` |
| timing: maximum of samples below DBL_MIN is DBL_MIN | `C52_max_refuted` |
| timing: rolling mean keeps rounding residue of samples long gone | `C52_rolling_mean_refuted` |
| timing: counters overflow after 2^31 samples | `C52_overflow_refuted` |
| timing: Stop without Start or twice records bogus samples; unknown handles are undefined behaviour; a tag is lost after Reset | `C53_stop_without_start_finding`, `C53_double_stop_finding`, `C53_unknown_handle_finding`, `C53_reset_tag_finding` |
| input constraints: NaN is stored and breaks the order of the thrusts | `C55_nan_refuted` |
| input constraints: unknown types are written as "Unknown!" and lost; malformed nodes throw | `C55_unknown_type_refuted`, `C55_malformed_refuted` |
| sampling: sampling a whole zero-duration trajectory reads a segment outside the vector; a negative interval converts a negative number to an unsigned size | `C51_zero_duration_refuted`, `C51_negative_interval_refuted` |
| sampling: a range starting inside a segment is sampled past its end | `C69_range_refuted` |
| state table: more segments than samples writes outside the matrix | `C68_refuted` |
| messages: an empty or malformed message aborts; without coefficients the yaw dimension is lost | `C50_empty_message_aborts`, `C50_malformed_message_aborts`, `C50_needs_coefficients` |
| half planes: three collinear points are accepted and give a zero normal, no position is feasible | `C56_points_on_a_line` |
| half planes: a negative duration is always feasible | `C56_negative_time_finding` |
| recursive check: a minimum section time of 0 recurses for ever | `C58_zero_section_finding` |
| recursive check: never reports roll/pitch rates; aborts for fewer than four coefficients | `C58_roll_pitch_never_reported`, `C58_short_polynomials_abort` |
| analytic check: the roll/pitch bound is sqrt(jerk/thrust) instead of jerk/thrust; too fast a turn is called feasible | `C59_refuted` |
| analytic check: a section without a jerk candidate has j_max = DBL_LOWEST and is called feasible | `C59_sections_refuted` |
| analytic check: a negative duration dereferences the end of an empty vector | `C70_negative_time_undefined_finding` |
| analytic check: never reports roll/pitch rates | `C70_roll_pitch_never_reported` |
| sampling check: interval 0 loops for ever; so does an interval below half an ulp of the duration in binary64 | `C61_zero_interval_finding`, `C61_terminates_refuted` |
| sampler node: with the default dt = 0.01 the running sum of 100 steps exceeds 1 s, so the end of a trajectory of 1 s is not published | `C62_end_in_doubles_refuted` |
| sampler node: publish_whole_trajectory never publishes the end of the trajectory | `C62_whole_mode_end_refuted` |
| sampler node: dt = 0 publishes the start for ever, a negative dt publishes a default state (origin) because the result of sampling is published even on failure | `C62_needs_positive_interval_finding` |
| sampler node: a message with components of different sizes aborts the process | `C62_malformed_message_finding` |
| root finder: more than 101 coefficients are written past the end of a buffer before the degree is checked | `C08_too_many_coefficients` |
| root finder: of a pair of zeros only the second one is checked; a pair with a value of 4 at the first one is accepted | `C08_first_of_pair_unchecked_finding` |
| root finder: (z+3)(z+2)^5(z-2) in doubles: success, but the simple zero -3 is reported as -3.1056 and 2 as 2.0006 (log and exp by series instead of libm) | `C08_simple_zero_missed_finding` |
| root finder: after twenty failed shifts the zeros found so far are returned as success (constructor found_given_up) | `C08_reported_zeros` |
| timing: the maximum of durations that are all zero is reported as DBL_MIN (numeric_limits<double>::min is the smallest positive double) | `C71_max_of_zero_finding` |
| A second setupFromVertices creates a new nlopt object without the hard magnitude constraints added before; the optimiser object still lists them. | C74_hard_constraints_kept_refuted |
| addMaximumMagnitudeConstraint that fails (returns false) has already stored the constraint. | C74_failed_addition_refuted |
| With hard constraints, addMaximumMagnitudeConstraint before setupFromVertices dereferences a null pointer; so does optimize() of the time-only methods. | C74_one_addition, C74_optimize_before_setup |
| drawing: distance 0 does not disable the pose markers as documented; every moving point is drawn | `C76_zero_distance_refuted` |
| drawing: the distance to the first pose is measured from the origin of the frame, so a translated trajectory shows other poses | `C76_translation_refuted` |
| drawMavSampledTrajectorybyTime: last point, and second point of a part of a trajectory, closer than dt; 32-bit wrap drops points; empty input and dt >= 4.29 s undefined | `C77_last_point_refuted`, `C77_late_start_refuted`, `C77_wrap_refuted`, `C77_empty_undefined`, `C77_long_interval_undefined` |
| drawVertices appends to the points already in the first marker of the array | `C78_redraw_refuted` |
| drawVertices returns without setting the frame at the first vertex that is not three-dimensional; trajectories with yaw are not drawn | `C78_wrong_dimension`, `C79_yaw_refuted` |
| drawMavTrajectory: the line stops before the goal | `C81_goal_refuted` |
| LeicaMarker: two different markers with id 1 | `C82_leica_ids_refuted` |
| HexacopterMarker: the body meshes have the zero quaternion, also after transform | `C82_mesh_orientation_refuted` |
| drawArrowPositionOrientation keeps the points of an earlier use of the marker | `C83_arrow_pose_reused_refuted` |
| trajectoryFromFile returning false may still have replaced the trajectory by the segments read before the bad one | `C47_rejected_file_changes_trajectory_finding` |
| Mean and RollingMean of an accumulator without samples are NaN | `C52_mean_of_none_finding` |
| example planner: planning to the current position aborts (estimated time 0) | `C84_same_position_aborts`, `C84_succeeds_everywhere_refuted` |
| example planner: true is returned although the optimisation failed; the limits are soft and not enforced | `C84_always_true`, `C84_failure_not_reported_finding`, `C85_simple_planner_limit_refuted` |
| 6-DoF example: a current velocity above the limit is replaced by a smaller one at the start of the plan | `C85_fast_start_not_met`, `C85_start_met_refuted` |
| 6-DoF example: goal velocities are scaled down when translation and rotation take different times | `C86_goal_velocity_met_refuted` |
| 6-DoF example: a full pose goal that keeps the orientation aborts | `C86_same_orientation_aborts`, `C86_same_orientation_refuted` |
| segment_violation_scaling: a segment that exceeds a limit by more than 100 % gets the minimum time of 0.1 s instead of more time (1 - violation is negative) | `C87_new_time`, `C87_violating_segment_slowed_refuted` |
| segment_violation_scaling: a segment within its limits is sped up such that the same motion exceeds the acceleration limit by 18 % | `C87_speed_up_finding` |
| benchmark: two or more vertices of which one has no position are undefined behaviour, although the code means to skip them | `C88_missing_position`, `C88_nominal_length_refuted` |
| benchmark: a segment that returns to its start makes the reported area NaN | `C88_equal_points_nan`, `C89_area_nan`, `C89_area_refuted` |
| benchmark: an overshoot along the straight line has distance 0 and area 0 | `C89_overshoot_refuted` |
| benchmark: paths of at most 0.9 s are not drawn | `C90_short_path_invisible`, `C90_path_drawn_refuted` |
| computeSegmentMaximumMagnitudeCandidatesBySampling: a turn is dropped unless the derivative at the sample has a norm below 0.01, so arbitrarily large maxima are missed for every sampling interval | `C91_maximum_missed`, `C91_maximum_refuted` |
| createRandomVerticesPath: last_position is set to the step instead of the position, and the last vertex is moved to the bare step; distances are not those asked for and the path stays near the origin | `C92_path`, `C92_stays_near_origin`, `C92_steps_refuted` |
| createRandomVerticesPath: dimension 0 never ends; two equal consecutive positions make timeEval abort | `C92_dimension_zero`, `C92_timing_run_aborts` |
| getMaximumMagnitude (tests): the end of the trajectory is not sampled; without duration the result is -1e9 | `C93_end_not_sampled_finding`, `C93_no_duration` |
| checkMatrices (tests): NaN coefficients after the first are not noticed | `C93_check_matrices_nan` |
| Trajectory::evaluate recovers the start of the segment as (acc + T) - T; in doubles this may lie after t, and the segment is evaluated before its start (segments of 0.1 s and 0.2 s, t = 0.1) | `C95_before_segment_start_finding` |
| drawCovariance3D: a computed eigenvalue below zero (possible by rounding for a covariance of rank below three) gives a marker with NaN scale | `C96_negative_eigenvalue_nan` |
| outputResultsToFile: the comment announces appending, but the former contents of the file are replaced | `C97_file` |
| scaleSegmentTimes(NaN) returns true and leaves NaN segment times (the check `scaling < 1e-6` is false for NaN) | `C98_nan_accepted_finding` |
| scaleSegmentTimes with a huge factor (2^600) returns true although the path is lost to underflow | `C98_huge_scaling_finding` |
- C100: evaluateRange (and sampleTrajectoryInRange, sampleWholeTrajectory) never ends in doubles when dt is at most half the spacing of the doubles near the sample time: for two segments of 2^53 s sampled from 2^53 with dt = 1 accumulated_time stays at 2^53 and samples are appended for ever (C100_stalls_finding). For dt >= 2^-52 (t_end + dt) it ends (C100_terminates).
- C102: estimateSegmentTimes returns a time of exactly 0 for distinct positions whose distance is below about 2^-538 (the squares underflow), and the optimiser then aborts (C102_distinct_positions_zero_time_refuted). estimateSegmentTimesVelocityRamp does not notice a NaN limit: all times are 0.1 s (C102_nan_limit_finding); a zero acceleration limit gives an infinite time, which passes the test t > 0 (C102_infinite_time_finding).

## Properties

### C01 Polynomial::evaluate is the mathematical derivative (proved)

Polynomial::evaluate (both overloads), the coefficient table. The value is Coquelicot's Derive_n of the power sum, by induction on the coefficients; inputs outside the table are shown undefined.

Theorems: `C01_evaluate_is_derivative`, `C01_evaluate_undefined_iff`, `C01_evaluate_vector`, `C01_evaluate_vector_abort_iff`, `C01_base_coefficient_values`.

### C02 getCoefficients(d) returns the coefficients of the d-th derivative (proved)

getCoefficients; derivative coefficients as a polynomial function, length, abort for d > N.

Theorems: `C02_getCoefficients_is_derivative`, `C02_getCoefficients_outcomes`.

### C03 Convolution / operator* multiplies polynomials (proved)

convolve, operator*, the fixed-size template; double-sum algebra over R.

Theorems: `C03_convolve_is_product`, `C03_convolve_coefficients`, `C03_convolve_undefined_iff`.

### C04 Polynomial arithmetic, padding, time scaling and offset are function-level operations (proved)

operator+, scalar *, scalePolynomialInTime, offsetPolynomial, getPolynomialWithAppendedCoefficients.

Theorems: `C04_checked_constructor`, `C04_add`, `C04_scalar_mul`, `C04_scale_in_time`, `C04_offset`, `C04_append_coefficients`, `C04_equality`, `C04_set_coefficients`.

### C05 baseCoeffsWithTime gives the row whose dot product with the coefficients is the derivative (proved)

baseCoeffsWithTime with its epsilon special case; abort outside 0 <= d < N.

Theorems: `C05_baseCoeffsWithTime_exact`, `C05_baseCoeffsWithTime_small_t`, `C05_exact_for_every_t_refuted`, `C05_baseCoeffsWithTime_outcomes`.

### C06 computeMinMax returns the global extrema on the interval (proved)

computeMinMax with the root finder as oracle (complete real roots as hypothesis); extreme value theorem and Fermat. C06_low_degree_unconditional plugs in the modelled findRootsJenkinsTraub instead of an oracle: derivative of degree at most three, coefficients zero or at least 2^-1022.

Theorems: `C06_computeMinMax_global`, `C06_selectMinMaxFromRoots_global`, `C06_computeMinMax_false_iff`, `C06_low_degree_unconditional`.

### C07 Candidate selection is exact (proved)

selectMinMaxCandidatesFromRoots, selectMinMaxFromCandidates; list induction.

Theorems: `C07_selectMinMaxCandidatesFromRoots`, `C07_selectMinMaxFromCandidates`.

### C08 Root-finder wrapper and its closed-form pieces (proved)

All of rpoly_ak1.cpp and findRootsJenkinsTraub, function by function; log, exp, cos, sin and pow are arguments. Law-free theorems cover the bookkeeping (slots, zeros at the origin, bounded iterations), so they hold for doubles; the arithmetic claims are over the reals against complex polynomials (SpecRoots.v). The integer conversion in the scaling is shown to be in range for all doubles. C08_reported_zeros says what is known about every reported list; two findings show that more is false.

Theorems: `C08_small_leading_ignored`, `C08_constant`, `C08_as_many_as_found`, `C08_every_slot_written`, `C08_zeros_at_origin`, `C08_too_many_coefficients`, `C08_only_bound_search_unbounded`, `C08_low_degree_exact`, `C08_low_degree_covers`, `C08_quadratic_division_exact`, `C08_reported_zeros`, `C08_bound_search_ends`, `C08_doubles_defined`, `C08_first_of_pair_unchecked_finding`, `C08_simple_zero_missed_finding`, `C08_quad`.

### C09 Magnitude extrema of a segment over several dimensions are the true extrema (proved)

Segment::computeMinMaxMagnitudeCandidate(s/Times), selectMinMaxMagnitudeFromCandidates for two or more dimensions.

Theorems: `C09_multi_dimension_extrema`, `C09_multi_dimension_maximum`, `C09_selection_in_window`.

### C10 Magnitude extrema of a segment in a single dimension are the true extrema (partial)

Same code, one dimension. The maximum is right; the minimum is refuted.

Theorems: `C10_single_dimension_maximum_partial`, `C10_single_dimension_maximum`, `C10_single_dimension_minimum_refuted`.

### C11 Invalid requests for magnitude extrema are reported as failure (partial)

Failure paths of the same functions; refuted, with an exact description of when failure is reported.

Theorems: `C11_candidate_times_failure_iff_partial`, `C11_candidates_never_false`, `C11_failure_reported_refuted`, `C11_single_dimension_unchecked`, `C11_derivative_too_high_undefined`, `C11_never_out_of_range_refuted`.

### C12 Segment evaluation, single-dimension extraction and offset (proved)

Segment::evaluate, getSegmentWithSingleDimension, offsetSegment.

Theorems: `C12_segment_evaluate`, `C12_single_dimension`, `C12_offset`.

### C13 Appending dimensions to a segment keeps both motions (partial)

getSegmentWithAppendedDimension; holds for equal N or equal times, refuted otherwise.

Theorems: `C13_append_dimension_partial`, `C13_append_dimension_refuted`, `C13_append_empty`.

### C14 Trajectory::evaluate selects the right segment (proved)

Trajectory::evaluate; induction over the segments.

Theorems: `C14_evaluate_inside`, `C14_evaluate_elsewhere`.

### C15 evaluate at getMaxTime() is never treated as out of range (proved)

Trajectory::evaluate at max time and at partial sums, for every arithmetic with an irreflexive comparison, and for doubles (Flocq), over every history of operations.

Theorems: `C15_max_time_in_range`, `C15_max_time_in_range_double`, `C15_max_time_last_segment`, `C15_boundaries`.

### C16 evaluateRange samples the requested window (partial)

evaluateRange; exact description of samples and labels; refuted as stated.

Theorems: `C16_evaluateRange_partial`, `C16_actual_labels`, `C16_evaluateRange_refuted`.

### C17 evaluateRange never reads outside the trajectory (partial)

evaluateRange; the windows for which it is undefined, throws or does not end are exhibited.

Theorems: `C17_evaluateRange_total_partial`, `C17_start_at_end_out_of_bounds`, `C17_evaluateRange_refuted`, `C17_many_samples_refuted`, `C17_zero_step_refuted`.

### C18 Trajectory bookkeeping invariant (proved)

All mutators as a call sequence; invariant by induction over the history.

Theorems: `C18_invariant`, `C18_mismatch_aborts`.

### C19 Extracting a single dimension from a trajectory (partial)

getTrajectoryWithSingleDimension; refuted (times are lost).

Theorems: `C19_single_dimension_partial`, `C19_times_lost`, `C19_single_dimension_refuted`, `C19_bad_dimension_aborts`.

### C20 Appending dimensions to a trajectory (proved)

getTrajectoryWithAppendedDimension.

Theorems: `C20_append`, `C20_append_other`.

### C21 addTrajectories concatenates (partial)

addTrajectories, including the aliased output object.

Theorems: `C21_concatenates`, `C21_evaluation`, `C21_mismatch_false`, `C21_output_is_this_loses_segments`, `C21_aliasing_this_refuted`, `C21_aliasing_element_refuted`.

### C22 scaleSegmentTimes preserves the path (proved)

scaleSegmentTimes.

Theorems: `C22_scaleSegmentTimes`, `C22_small_scaling`.

### C23 scaleSegmentTimesToMeetConstraints meets the limits (partial)

computeMaxVelocityAndAcceleration, scaleSegmentTimesToMeetConstraints; loop invariant for the scaling loop.

Theorems: `C23_limits_met`, `C23_factor`, `C23_max_values`, `C23_max_success`, `C23_low_degree_undefined`, `C23_low_degree_refuted`.

### C24 Trajectory::computeMinMaxMagnitude is global (proved)

Trajectory::computeMinMaxMagnitude on top of C09.

Theorems: `C24_global_extrema`, `C24_maximum`.

### C25 Vertices read back from a trajectory (proved)

getVertices (both), getStartVertex, getGoalVertex, getVertexAtTime.

Theorems: `C25_getVertices`, `C25_start_and_goal`, `C25_position_yaw`.

### C26 Vertex is a map from derivative order to value (proved)

Vertex mutators and queries as a call sequence; refinement to a finite map.

Theorems: `C26_start_or_end_for_order`, `C26_vertex_is_finite_map`, `C26_invariant`.

### C27 isEqualTol and getSubdimension (partial)

isEqualTol, getSubdimension.

Theorems: `C27_isEqualTol`, `C27_isEqualTol_reflexive`, `C27_isEqualTol_symmetric`, `C27_different_dimension_refuted`, `C27_getSubdimension`.

### C28 estimateSegmentTimesVelocityRamp allocates feasible rest-to-rest times (partial)

estimateSegmentTimesVelocityRamp, computeTimeVelocityRamp; the optimal rest-to-rest time of a double integrator is specified independently (every admissible motion takes at least that long).

Theorems: `C28_velocity_ramp_times`, `C28_too_few_vertices_abort`, `C28_time_factor_refuted`.

### C29 Estimated segment times are accepted by the optimiser (partial)

estimateSegmentTimes/NfabianSegmentTimes with exp as oracle.

Theorems: `C29_positive_times_partial`, `C29_repeated_waypoint`, `C29_positive_times_refuted`.

### C30 Generated vertices (partial)

createSquareVertices, createRandomVertices with the random stream as argument.

Theorems: `C30_random_rejection`, `C30_square_vertices`, `C30_random_vertices_partial`, `C30_random_vertices_terminate_refuted`, `C30_smallest_box_never_terminates`.

### C31 Optimised trajectory meets every vertex constraint (proved)

PolynomialOptimization: setupFromVertices, updateSegmentTimes, setupConstraintReorderingMatrix, solveLinear, setFreeConstraints, updateSegmentsFromCompactConstraints. Invariant `prepared` over every history of calls; block inverse as oracle (`inverse_ok`); linear algebra over finite sums.

Theorems: `C31_constraints_met`, `C31_setup_and_solve_succeed`.

### C32 Optimised trajectory is continuous up to derivative N/2-1 (proved)

As C31: neighbouring segments read the same column of the compact vector.

Theorems: `C32_continuous`, `C32_any_free_values`.

### C33 computeCost is the integral of the squared derivative (proved)

computeQuadraticCostJacobian, computeCost; each entry is an integral of a product of derivatives (RInt).

Theorems: `C33_nonlinear_getters`, `C33_cost_is_integral`, `C33_cost_general`, `C33_stale_times_refuted`.

### C34 solveLinear is optimal (proved)

constructR, solveLinear. R is the quadratic form of the integral cost; the normal equations are always solvable (Fredholm), so a solver that solves solvable systems returns a stationary point; convexity gives optimality; every competitor is the trajectory of some free vector (Hermite interpolation). Uniqueness by the parallelogram law and C^(r-1) joins.

Theorems: `C34_optimal`, `C34_unique`.

### C35 Mapping matrix and its inverse (proved)

setupMappingMatrix, invertMappingMatrix. Injectivity of the block by counting roots of polynomials.

Theorems: `C35_mapping_matrix`, `C35_inverse`, `C35_injective`, `C35_tiny_time_singular`, `C35_inverse_for_all_positive_times_refuted`.

### C36 Constraint reordering bookkeeping (proved)

setupConstraintReorderingMatrix, getM, getMpinv; sorted duplicate-free key lists.

Theorems: `C36_reordering`, `C36_rows_columns_pseudoinverse`.

### C37 Optimiser object can be reused (partial)

Two runs of the same calls, on a used and on a fresh object, for every number type. Refuted for fully constrained problems.

Theorems: `C37_reuse`, `C37_fully_constrained_refuted`.

### C38 computeMaximumOfMagnitude finds the peak (proved)

computeMaximumOfMagnitude on top of C09.

Theorems: `C38_peak`, `C38_after_solving`, `C38_outside_domain`, `C38_segment_candidates`.

### C39 Optimisation variables are packed and unpacked consistently (proved)

PolynomialOptimizationNonLinear: packing in optimizeTimeAndFreeConstraints, unpacking in objectiveFunctionTimeAndConstraints; for every number type.

Theorems: `C39_pack_unpack`.

### C40 Bounds contain the initial solution (proved)

The problem handed to nlopt (initial step, bounds, start). The bounds of optimizeTime are not widened.

Theorems: `C40_bounds`, `C40_short_segment_not_optimized`.

### C41 Endpoint-derivative bounds act on the right variable (partial)

setFreeEndpointDerivativeHardConstraints as a nested fold over vertices and derivatives; the index of each written entry is compared with the column order of C36. Refuted when derivative_to_optimize is below N/2-1.

Theorems: `C41_endpoint_bounds`, `C41_free_pairs`, `C41_lower_order_refuted`.

### C42 Soft-constraint cost formula (proved)

addMaximumMagnitudeConstraint, evaluateMaximumMagnitudeConstraint, evaluateMaximumMagnitudeAsSoftConstraint; peak by C38.

Theorems: `C42_soft_constraint_cost`, `C42_cost_grows`, `C42_compare`.

### C43 Result of optimize() is the best point found (partial)

nlopt is a tree of requests (evaluate objective / constraint at a point, then return or throw); theorems are by induction over the tree. Refuted with a two-point run in binary64.

Theorems: `C43_stored_is_last_evaluated_partial`, `C43_best_point_refuted`.

### C44 Mellinger gradient evaluation keeps state and total time (proved)

getCostAndGradientMellinger, objectiveFunctionTimeMellingerOuterLoop; restoring the times and solving again gives the identical state.

Theorems: `C44_state_and_gradient`, `C44_perturbed_times`, `C44_clamped_total_refuted`, `C44_gradient_succeeds`.

### C45 scaleSegmentTimesWithViolation reaches feasibility (partial)

scaleSegmentTimesWithViolation on top of C23 and the linear optimiser; for rest-to-rest problems C73 shows that the limits are met.

Theorems: `C45_times_scaled`, `C45_limit_met_refuted`, `C45_missing_limit_refuted`, `C45_rest_to_rest`.

### C46 YAML round trip of trajectories (proved)

io.cpp coefficientsToYaml ... trajectoryFromYaml, segmentsToFile ... trajectoryFromFile. YAML nodes as a tree type, number texts and the emitter/parser as arguments with a read-back hypothesis.

Theorems: `C46_roundtrip`, `C46_times`, `C46_file_roundtrip`, `C46_needs_dimension`, `C46_needs_nonnegative_time`.

### C47 Malformed files and nodes are reported, not fatal (partial)

As C46, for every node and file content; outcomes Throw (yaml-cpp exceptions), Abort (CHECK) and UB are distinct.

Theorems: `C47_file_partial`, `C47_missing_key`, `C47_file_missing_key`, `C47_unreadable_file_aborts`, `C47_missing_file_refuted`, `C47_scalar_segments_refuted`, `C47_unparsable_refuted`, `C47_nodes_refuted`, `C47_rejected_node_keeps_trajectory`, `C47_rejected_file_changes_trajectory_finding`.

### C48 Nanosecond time conversion is stable in double precision (partial)

Segment::getTimeNSec, setTimeNSec in binary64 (Flocq). Error analysis with the exact value of the double 1e-9.

Theorems: `C48_roundtrip_partial`, `C48_near`, `C48_refuted`.

### C49 Saving and loading repeatedly does not drift (partial)

As C48, iterated, and through the YAML nodes.

Theorems: `C49_cycles_partial`, `C49_yaml_partial`, `C49_refuted`, `C49_rounded_down_refuted`.

### C50 ROS message round trip (proved)

ros_conversions.cpp, both message types; a message segment is an abstract type with an encoder and decoder. Induction over the segments.

Theorems: `C50_failure_is_empty`, `C50_roundtrip`, `C50_roundtrip_4D`, `C50_rejected`, `C50_times`, `C50_times_doubles`, `C50_empty_message_aborts`, `C50_malformed_message_aborts`, `C50_needs_coefficients`.

### C51 Sampling functions fill consistent states (partial)

trajectory_sampling.cpp, all functions; mav_msgs attitude functions are arguments. The samples of evaluateRange (C25) are read off with the window lemma.

Theorems: `C51_at_time`, `C51_segment`, `C51_whole_trajectory`, `C51_zero_duration_refuted`, `C51_negative_interval_refuted`.

### C52 Timing accumulator statistics (partial)

timing.h Accumulator (ring buffer with invariant over every list of samples).

Theorems: `C52_no_samples`, `C52_mean_of_none_finding`, `C52_window`, `C52_statistics_partial`, `C52_max_refuted`, `C52_variance_of_all_refuted`, `C52_overflow_refuted`, `C52_rolling_mean_refuted`.

### C53 Timing registry handles are unique and stable (proved)

timing.cpp Timing and Timer as a state machine over lists of calls; the clock is an argument of each call. No threads.

Theorems: `C53_handles`, `C53_count`, `C53_reset_fresh`, `C53_pair`, `C53_double_stop_finding`, `C53_stop_without_start_finding`, `C53_unknown_handle_finding`, `C53_reset_tag_finding`.

### C54 Derivative names round-trip (proved)

motion_defines.cpp, all ten functions.

Theorems: `C54_position_roundtrip`, `C54_position_names`, `C54_orientation_roundtrip`, `C54_orientation_names`, `C54_names_distinct`.

### C55 Input constraints stay consistent (partial)

input_constraints.cpp; the map as a sorted association list, YAML as in C46.

Theorems: `C55_consistent`, `C55_consistent_doubles`, `C55_add`, `C55_remove`, `C55_roundtrip`, `C55_nan_refuted`, `C55_unknown_type_refuted`, `C55_malformed_refuted`.

### C56 Half-plane feasibility is exact (proved)

feasibility_base.cpp, half planes. The projection onto the normal is a polynomial whose minimum over the segment is at an end or a real root of its derivative.

Theorems: `C56_segment`, `C56_trajectory`, `C56_other_dimensions`, `C56_bounding_box`, `C56_half_plane`, `C56_three_points`, `C56_points_on_a_line`, `C56_negative_time_finding`.

### C57 Recursive check: a feasible verdict is sound (proved)

feasibility_recursive.cpp. Induction over the halvings; interval bounds of each axis; the roll/pitch rate is the speed of the unit thrust vector, bounded by jerk/thrust (Cauchy-Schwarz).

Theorems: `C57_new_checker`, `C57_feasible_is_sound`.

### C58 Recursive check: an infeasible verdict is justified, and the recursion terminates (proved)

As C57; every infeasible verdict is traced to the sample or axis extremum that caused it; depth bound duration < min section * 2^depth.

Theorems: `C58_default_settings`, `C58_infeasible_is_justified`, `C58_terminates`, `C58_roll_pitch_never_reported`, `C58_short_polynomials_abort`, `C58_zero_section_finding`.

### C59 Analytic check: a feasible verdict is sound (no false positives, README) (partial)

feasibility_analytic.cpp with the root finder as an oracle that covers the stationary points of thrust, speed and jerk. Candidates contain an extremum (as C12); the two refutations evaluate the check on concrete segments.

Theorems: `C59_thrust_speed_yaw_partial`, `C59_rates_partial`, `C59_short_segments_partial`, `C59_refuted`, `C59_sections_refuted`.

### C60 Trajectory-level feasibility combines segments (proved)

feasibility_base.cpp checkInputFeasibilityTrajectory for an arbitrary segment check.

Theorems: `C60_trajectory`, `C60_base`, `C60_names`.

### C61 Sampling check verdicts (partial)

feasibility_sampling.cpp loop; conversion to the full state (mav_msgs) is an argument. Induction on the samples; the binary64 refutation uses an invariant on the rounded time.

Theorems: `C61_default_settings`, `C61_verdict`, `C61_other_dimensions`, `C61_thrust_and_speed`, `C61_zero_interval_finding`, `C61_terminates_refuted`.

### C62 Sampler node publishes each trajectory once, in order, and only within its duration (partial)

trajectory_sampler_node.cpp as a state machine over events (two message types, stop request, timer tick); outputs of every event are recorded. Runs are split at the event in question; induction over the ticks in between. A tick of a stopped timer does not call back.

Theorems: `C62_ticks_after_trajectory`, `C62_nothing_before_trajectory`, `C62_nothing_after_stop`, `C62_other_events`, `C62_kinds_of_events`, `C62_empty_message_ignored`, `C62_whole_mode`, `C62_malformed_message_finding`, `C62_sample_times`, `C62_needs_positive_interval_finding`, `C62_whole_mode_states`, `C62_doubles`, `C62_end_in_doubles_refuted`, `C62_whole_mode_end_refuted`.

### C63 Segment composition does not depend on output aliasing (partial)

Segment composition with the output object being an operand.

Theorems: `C63_append_into_argument_partial`, `C63_append_into_argument_refuted`, `C63_append_into_this_aborts`, `C63_append_into_this_refuted`, `C63_single_dimension_into_this_refuted`.

### C64 A trajectory can be rebuilt from its own segments (partial)

setSegments/addSegments with the object's own vector.

Theorems: `C64_setSegments_self_loses_segments`, `C64_setSegments_self_refuted`, `C64_addSegments_self_refuted`.

### C65 Trajectory equality (partial)

operator== of segments and trajectories.

Theorems: `C65_equality`, `C65_different_N_refuted`.

### C66 optimize() always leaves a trajectory that solves the posed problem (proved)

optimize() for all six methods. Every run is a sequence of calls of the linear optimiser, so C31, C32 and C34 apply.

Theorems: `C66_after_optimize`, `C66_trajectory_valid`, `C66_time_only_optimal`, `C66_optimize_succeeds`.

### C67 Objective value and reported total cost (partial)

objectiveFunctionTime, objectiveFunctionTimeAndConstraints, getTotalCostWithSoftConstraints.

Theorems: `C67_objective_time`, `C67_objective_times_and_constraints`, `C67_total_cost`, `C67_total_cost_is_objective`, `C67_total_cost_refuted`.

### C68 Table of sampled states (partial)

io.cpp sampledTrajectoryStatesToFile; text of a matrix is an argument.

Theorems: `C68_table_partial`, `C68_more_segments_than_samples`, `C68_refuted`.

### C69 Sampling a time range (partial)

As C51, for ranges that start inside a segment.

Theorems: `C69_start_duration_partial`, `C69_range_partial`, `C69_range_refuted`.

### C70 Analytic check: an infeasible verdict is justified, and the recursion terminates (proved)

As C59; verdicts traced to the minimising or maximising candidate; depth bound duration < min section * 2^depth.

Theorems: `C70_new_checker`, `C70_infeasible_is_justified`, `C70_roll_pitch_never_reported`, `C70_terminates`, `C70_negative_time_undefined_finding`.

### C71 Timing registry reports the statistics of the measured durations (proved)

timing.cpp and timing.h: registry, timers, by-tag queries, the rows of Print, MiniTimer. Forward simulation of the abstract machine in SpecRegistry.v (watches plus a log of recorded durations); the invariant covers map order, windows and destroyed timers. The clock readings are arguments.

Theorems: `C71_refines`, `C71_undefined`, `C71_unknown_tag`, `C71_print`, `C71_statistics`, `C71_max_of_zero_finding`, `C71_mini_timer`.

### C72 Matrices handed out by the linear optimiser describe its trajectory (proved)

getA, getAInverse, getM, getR of polynomial_optimization_linear. Block products reduced to the per-segment blocks of C31/C33; the cost form of ProofLinear4 gives the statement on getR.

Theorems: `C72_inverse`, `C72_matrices`.

### C73 Rest-to-rest solutions scale with time (proved)

solveLinear for two sets of times. The stretched solution is feasible for the longer times and the compressed second solution for the shorter ones, so the costs agree up to the factor c^(1-2r); uniqueness (C34) gives equality.

Theorems: `C73_time_scaling`.

### C74 Magnitude constraints of the optimiser object (partial)

addMaximumMagnitudeConstraint and every other call, by induction over the list of calls; the specification is a fold over the calls alone.

Theorems: `C74_constraints_kept`, `C74_one_addition`, `C74_new_object`, `C74_optimize_before_setup`, `C74_hard_constraints_kept_refuted`, `C74_failed_addition_refuted`.

### C75 Drawn path (proved)

ros_visualization.cpp drawMavSampledTrajectory*, appendMarkers, setMarkerProperties on a record with the marker members used. The loop is a fold; an invariant gives the array and the strip. Law-free.

Theorems: `C75_path`.

### C76 Spacing of drawn poses (partial)

As C75 in real arithmetic. SpecVis.v defines path length, the selection of indices (shown to be unique) and what a pose shows by rotation matrices.

Theorems: `C76_poses`, `C76_count`, `C76_zero_distance_draws_every_pose`, `C76_zero_distance_refuted`, `C76_translation_refuted`, `C76_appendMarkers`.

### C77 Thinning by time (partial)

drawMavSampledTrajectorybyTime with uint32_t wrap-around and the double to uint32_t conversion (UB out of range). Induction over the points.

Theorems: `C77_by_time_partial`, `C77_last_point_refuted`, `C77_late_start_refuted`, `C77_wrap_refuted`, `C77_empty_undefined`, `C77_long_interval_undefined`, `C77_single_point_twice`.

### C78 Drawing vertices (partial)

drawVertices; markers.resize(1) keeps the first marker. Induction over the vertices, law-free.

Theorems: `C78_new_array_partial`, `C78_reused_array`, `C78_wrong_dimension`, `C78_redraw_refuted`.

### C79 Vertices of a trajectory (partial)

drawVerticesFromTrajectory on the model of C25; positions by value_at of SpecTrajectory.v.

Theorems: `C79_vertices_partial`, `C79_other_dimension`, `C79_empty`, `C79_yaw_refuted`.

### C80 Marker groups (proved)

marker_group.cpp, all functions but publish. Eigen quaternion product and rotation written out; compared with rotation matrices.

Theorems: `C80_transform`, `C80_transform_keeps_distances`, `C80_transform_twice`, `C80_getMarkers`, `C80_setters`.

### C81 Drawing a trajectory (partial)

drawMavTrajectory, drawMavTrajectoryWithMavMarker on the sampler of C51.

Theorems: `C81_path`, `C81_low_dimension`, `C81_goal_refuted`.

### C82 Vehicle markers (partial)

hexacopter_marker.cpp, leica_marker.cpp; cos(15 deg) is an argument.

Theorems: `C82_hexacopter_partial`, `C82_leica_ids_refuted`, `C82_mesh_orientation_refuted`, `C82_leica_visible`, `C82_hexacopter_visible`, `C82_rotors`, `C82_leica_legs`.

### C83 Axes and arrows (partial)

helpers.h drawAxes, drawArrowPositionOrientation, drawArrowPoints, drawAxesArrows.

Theorems: `C83_axes`, `C83_axes_arrows`, `C83_arrow_pose`, `C83_arrow_pose_reused_refuted`.

### C84 Example planner joins the states (partial)

example_planner.cc planTrajectory as a composition of the models of vertex, time estimation and nonlinear optimiser. nlopt is an arbitrary strategy that evaluates within its bounds (SpecPlanner.v bounded_algorithm); induction over its run shows that optimize never aborts, and the states follow from C31.

Theorems: `C84_states_joined`, `C84_succeeds`, `C84_same_position_aborts`, `C84_succeeds_everywhere_refuted`, `C84_wrong_size_aborts`, `C84_always_true`, `C84_failure_not_reported_finding`.

### C85 Planner with limits (partial)

example_planner_6dof.cc planTrajectory with explicit start: C84 followed by scaleSegmentTimesToMeetConstraints (C23).

Theorems: `C85_limits_met`, `C85_rest_to_rest`, `C85_fast_start_not_met`, `C85_start_met_refuted`, `C85_simple_planner_limit_refuted`.

### C86 6-DoF planner (partial)

example_planner_6dof.cc planTrajectory: case distinction over the size; the full pose case adds getTrajectoryWithAppendedDimension (C20). Rotation vector and yaw of the current pose are arguments.

Theorems: `C86_other_sizes_refused`, `C86_position`, `C86_position_yaw`, `C86_full_pose`, `C86_goal_velocity_met_refuted`, `C86_same_orientation_aborts`, `C86_same_orientation_refuted`.

### C87 Segment violation scaling (partial)

runSegmentViolationScalingTime as a composition of time estimation, linear optimiser, root based maxima and updateSegmentTimes. The maxima per segment are those of SpecBench.v segment_maximum (unique and attained); constraints, smoothness and cost follow from C31, C32 and C67.

Theorems: `C87_result`, `C87_new_time`, `C87_speed_up_finding`, `C87_violating_segment_slowed_refuted`.

### C88 Benchmark lengths and distances (partial)

The three computations on lists of coordinates. Path length by induction and the triangle inequality; the distance by minimising the quadratic in the parameter of the line; the binary64 result for coinciding points by cases over all doubles (x - x is a zero or not a number).

Theorems: `C88_path_length`, `C88_line_distance`, `C88_equal_points_nan`, `C88_line_distance_refuted`, `C88_nominal_length`, `C88_missing_position`, `C88_nominal_length_refuted`.

### C89 Evaluation of a trajectory in the benchmark (partial)

evaluateTrajectory with the sampling model (C51), the maxima (C24) and the loop over the samples of each segment, with fuel. The area is the trapezoidal rule of SpecBench.v. The binary64 theorem is an invariant of the loop: once not a number, always not a number.

Theorems: `C89_measures`, `C89_overshoot_refuted`, `C89_area_nan`, `C89_area_refuted`.

### C90 Benchmark run (partial)

runBenchmark over an arbitrary optimiser and clock per method. Induction over the list of methods with the reused result as state; the marker points by induction over the samples. PropBench5.v fixes what each method runs: the linear ones equal solveLinear after their time allocation, the nonlinear ones call the optimiser with the settings of the method, on the objective evaluated at the initial times.

Theorems: `C90_results`, `C90_marker`, `C90_short_path_invisible`, `C90_path_drawn_refuted`, `C90_colors`, `C90_linear_methods`, `C90_nonlinear_methods`, `C90_initial_objective`, `C90_mellinger_start`.

### C91 Sampled maximum candidates (partial)

The sampling loop with fuel; the norms of the samples come from seg_evaluate and are related to SpecSegment.v's derivatives (C04). The loop invariant lists the accepted sample times; the last, clipped sample is handled separately.

Theorems: `C91_candidates`, `C91_maximum_missed`, `C91_maximum_refuted`, `C91_positive_interval_needed`.

### C92 Random path of the timing evaluation (partial)

The generator is any function of a counter and the bounds that returns values within them. Induction over the segments; the positions are given in terms of the drawn steps u i. timeEval is composed with C29 and C31. Repeated positions give a zero time and an abort (C92_timing_run_aborts); dimension 0 never ends (C92_dimension_zero).

Theorems: `C92_path`, `C92_stays_near_origin`, `C92_terminates`, `C92_dimension_zero`, `C92_steps_refuted`, `C92_timing_run`, `C92_timing_run_aborts`.

### C93 Reference values of the tests (proved)

The loops with fuel over traj_evaluate (C14). Samples 0, dt, 2 dt, ... below the duration; the maximum by induction, the cost as a Riemann sum whose error is bounded per interval with Coquelicot's RInt. The random number std::rand() is an argument.

Theorems: `C93_maximum`, `C93_maximum_accuracy`, `C93_cost_accuracy`, `C93_no_duration`, `C93_positive_interval_needed`, `C93_random_double`, `C93_check_matrices`, `C93_check_matrices_nan`, `C93_end_not_sampled_finding`.

### C94 Rounding error of evaluate (proved)

The same model at binary64 (Flocq). The table of base coefficients is exact in doubles (all 22 x 22 entries computed in the kernel). Each operation has a relative error of 2^-53 and products an absolute one of 2^-1075; the Horner loop by induction on an invariant that carries the value, the exact value, the value over absolute values and the underflow term (ProofRound.v). A finite result implies that all intermediate results are finite. Fused multiply-add and extended precision are not modelled.

Theorems: `C94_evaluate_error`, `C94_no_overflow`, `C94_evaluate_zero`, `C94_segment_error`.

### C95 Local time of a trajectory in doubles (proved)

find_segment at binary64: the accumulated times are monotone and each is the exact sum up to (1 + 2^-53)^i; the subtractions of the code, including accumulated_time - T_i, add three more roundings.

Theorems: `C95_local_time`, `C95_evaluate_error`, `C95_before_segment_start_finding`, `C95_max_time`.

### C96 Covariance ellipsoid (proved)

ModelCov.v: the function and the conversion of a matrix to a quaternion of Eigen, all four branches. The columns v0, v1, v0 x v1 satisfy all 21 equations of a rotation matrix (record rotation); in each branch the ten products of the components of the quaternion follow from them linearly, so the quaternion is a unit quaternion and rotates like the matrix (q_of_matrix_R). The replaced third column is plus or minus the third eigenvector, hence still an eigenvector; the variance is the sum of the eigenvalues times squared coordinates (diagonal); the two sets agree by Cauchy-Schwarz and a test direction (axes_test). Hypothesis solves: the solver returns orthonormal eigenvectors for the symmetric matrix with the variances of cov.

Theorems: `C96_marker`, `C96_ellipsoid`, `C96_negative_eigenvalue_nan`.

### C97 Result table of the benchmark (proved)

ModelReport.v: the strings of the code, the loops of main with an early end, the file system as a map. SpecReport.v reads a table (split at line feeds and commas, look a name up in the first line) and lists the meaning of the 14 columns. Splitting undoes joining by induction on the text; the trials by induction on the two loops with C90_results for each trial. The comment of outputResultsToFile says that lines are appended; C97_file shows that the former contents are lost.

Theorems: `C97_table`, `C97_file`, `C97_main`.

### C98 Rounding of scaleSegmentTimes (proved)

The model of C22 at binary64. The inverse of the scaling and its computed powers are within (1 + 2^-53)^(2n) of scaling^-n and stay in the normal range (induction on n, Flocq relative error); each coefficient adds one product; the sum over the coefficients is compared with the derivative of the polynomial with absolute coefficients. The total time uses the summation error of C95.

Theorems: `C98_scaled_path`, `C98_no_overflow`, `C98_max_time`, `C98_nan_accepted_finding`, `C98_huge_scaling_finding`.

### C99 Rounding of polynomial arithmetic (proved)

The models of C02-C04 at binary64. A sum of n products is within (1 + 2^-53)^(n+1) relative to the sum of absolute products (induction over the loop of convolve); the exact sums are the entries of the real convolution, whose meaning C03 gives; summing over the coefficients yields the statement about functions.

Theorems: `C99_product`, `C99_product_finite`, `C99_sum`, `C99_scalar`, `C99_derivative`, `C99_offset`.

### C100 Sampling a window in doubles (proved)

evaluateRange of C16 at binary64. Invariant of the loop: both clocks (accumulated_time, time_in_segment) differ from their exact values by one rounding per step; time_in_segment stays below twice max time + dt, because it is rounded from a sum of at most that size or reduced by a segment time. The loop ends because accumulated_time grows by at least dt/2 per sample; the conversion of the expected number of samples to size_t is shown to be in range. The unending loop is an invariant proof for every number of iterations: 2^53 + 1 rounds to 2^53.

Theorems: `C100_samples`, `C100_terminates`, `C100_stalls_finding`.

### C101 Translating a trajectory (proved)

offsetTrajectory with the loop that stops at the first segment that fails. Induction over the segments with the specification of offsetSegment (C12); evaluate chooses the segment from the times alone, which do not change.

Theorems: `C101_offset`, `C101_success`, `C101_evaluate`.

### C102 Estimated segment times in doubles (partial)

The estimators of ModelVertex instantiated with binary64 numbers. Ramp: case distinction on the comparison in std::max, so NaN and infinities are covered. Nfabian: each intermediate result is kept between two powers of two, which rounding to nearest respects; the quotient d/v carries one rounding error and the factor of the exponential is at least 1. exp is an arbitrary function with values in [0, 1] on arguments that are not positive. The witness of the refutation are positions 2^-600 apart.

Theorems: `C102_nfabian_time`, `C102_estimate`, `C102_distinct_positions_zero_time_refuted`, `C102_ramp`, `C102_nan_limit_finding`, `C102_infinite_time_finding`.

## Assumptions of each theorem (`Print Assumptions`)

* none (closed under the global context): `C04_checked_constructor`, `C04_set_coefficients`, `C08_small_leading_ignored`, `C08_constant`, `C08_as_many_as_found`, `C08_every_slot_written`, `C08_zeros_at_origin`, `C08_too_many_coefficients`, `C08_only_bound_search_unbounded`, `C11_candidates_never_false`, `C13_append_empty`, `C15_max_time_in_range`, `C18_invariant`, `C18_mismatch_aborts`, `C20_append_other`, `C21_concatenates`, `C21_mismatch_false`, `C21_output_is_this_loses_segments`, `C22_small_scaling`, `C23_max_success`, `C26_start_or_end_for_order`, `C26_vertex_is_finite_map`, `C26_invariant`, `C27_getSubdimension`, `C28_too_few_vertices_abort`, `C37_reuse`, `C38_outside_domain`, `C39_pack_unpack`, `C40_short_segment_not_optimized`, `C41_free_pairs`, `C43_stored_is_last_evaluated_partial`, `C44_state_and_gradient`, `C46_roundtrip`, `C46_file_roundtrip`, `C47_file_partial`, `C47_missing_key`, `C47_file_missing_key`, `C47_unreadable_file_aborts`, `C47_rejected_node_keeps_trajectory`, `C50_failure_is_empty`, `C50_roundtrip`, `C50_roundtrip_4D`, `C50_rejected`, `C50_empty_message_aborts`, `C50_malformed_message_aborts`, `C52_no_samples`, `C52_window`, `C53_handles`, `C53_count`, `C53_reset_fresh`, `C53_pair`, `C54_position_roundtrip`, `C54_position_names`, `C54_orientation_roundtrip`, `C54_orientation_names`, `C54_names_distinct`, `C55_remove`, `C55_roundtrip`, `C56_other_dimensions`, `C60_trajectory`, `C60_base`, `C60_names`, `C61_other_dimensions`, `C62_ticks_after_trajectory`, `C62_nothing_before_trajectory`, `C62_nothing_after_stop`, `C62_other_events`, `C62_kinds_of_events`, `C62_empty_message_ignored`, `C62_whole_mode`, `C62_malformed_message_finding`, `C64_setSegments_self_loses_segments`, `C66_after_optimize`, `C71_refines`, `C71_undefined`, `C71_unknown_tag`, `C71_print`, `C74_constraints_kept`, `C74_one_addition`, `C74_new_object`, `C74_optimize_before_setup`, `C75_path`, `C76_appendMarkers`, `C77_empty_undefined`, `C78_new_array_partial`, `C78_reused_array`, `C78_wrong_dimension`, `C79_empty`, `C80_setters`, `C82_hexacopter_partial`, `C82_leica_visible`, `C82_hexacopter_visible`, `C83_arrow_pose`, `C84_wrong_size_aborts`, `C84_always_true`, `C86_other_sizes_refused`, `C88_missing_position`, `C90_results`, `C97_table`, `C97_file`, `C97_main`, `C101_success`.
* `ClassicalDedekindReals.sig_forall_dec`, `FunctionalExtensionality.functional_extensionality_dep`: `C87_new_time`, `C87_speed_up_finding`.
* `ClassicalDedekindReals.sig_forall_dec`, `ClassicalDedekindReals.sig_not_dec`, `FunctionalExtensionality.functional_extensionality_dep`: `C01_evaluate_undefined_iff`, `C01_evaluate_vector_abort_iff`, `C01_base_coefficient_values`, `C02_getCoefficients_outcomes`, `C03_convolve_is_product`, `C03_convolve_coefficients`, `C03_convolve_undefined_iff`, `C04_add`, `C04_scalar_mul`, `C04_append_coefficients`, `C04_equality`, `C05_baseCoeffsWithTime_outcomes`, `C07_selectMinMaxCandidatesFromRoots`, `C08_low_degree_exact`, `C08_low_degree_covers`, `C08_quadratic_division_exact`, `C08_reported_zeros`, `C08_first_of_pair_unchecked_finding`, `C08_quad`, `C09_selection_in_window`, `C11_single_dimension_unchecked`, `C11_derivative_too_high_undefined`, `C11_never_out_of_range_refuted`, `C12_single_dimension`, `C13_append_dimension_partial`, `C13_append_dimension_refuted`, `C17_start_at_end_out_of_bounds`, `C17_evaluateRange_refuted`, `C17_many_samples_refuted`, `C19_single_dimension_partial`, `C19_times_lost`, `C19_single_dimension_refuted`, `C19_bad_dimension_aborts`, `C21_evaluation`, `C21_aliasing_this_refuted`, `C21_aliasing_element_refuted`, `C27_isEqualTol`, `C27_isEqualTol_reflexive`, `C27_isEqualTol_symmetric`, `C27_different_dimension_refuted`, `C28_time_factor_refuted`, `C29_positive_times_partial`, `C29_repeated_waypoint`, `C29_positive_times_refuted`, `C30_random_rejection`, `C30_square_vertices`, `C30_random_vertices_partial`, `C30_random_vertices_terminate_refuted`, `C30_smallest_box_never_terminates`, `C31_setup_and_solve_succeed`, `C32_any_free_values`, `C35_tiny_time_singular`, `C35_inverse_for_all_positive_times_refuted`, `C36_reordering`, `C36_rows_columns_pseudoinverse`, `C40_bounds`, `C44_perturbed_times`, `C44_clamped_total_refuted`, `C46_times`, `C46_needs_dimension`, `C46_needs_nonnegative_time`, `C47_missing_file_refuted`, `C47_scalar_segments_refuted`, `C47_unparsable_refuted`, `C47_nodes_refuted`, `C47_rejected_file_changes_trajectory_finding`, `C50_times`, `C50_needs_coefficients`, `C51_zero_duration_refuted`, `C51_negative_interval_refuted`, `C52_statistics_partial`, `C52_max_refuted`, `C52_variance_of_all_refuted`, `C52_overflow_refuted`, `C53_double_stop_finding`, `C53_stop_without_start_finding`, `C53_unknown_handle_finding`, `C53_reset_tag_finding`, `C55_consistent`, `C55_add`, `C55_unknown_type_refuted`, `C55_malformed_refuted`, `C56_bounding_box`, `C56_half_plane`, `C56_three_points`, `C56_points_on_a_line`, `C61_thrust_and_speed`, `C63_append_into_argument_partial`, `C63_append_into_argument_refuted`, `C63_append_into_this_aborts`, `C63_append_into_this_refuted`, `C63_single_dimension_into_this_refuted`, `C64_setSegments_self_refuted`, `C64_addSegments_self_refuted`, `C65_equality`, `C65_different_N_refuted`, `C71_statistics`, `C71_max_of_zero_finding`, `C71_mini_timer`, `C76_poses`, `C76_count`, `C76_zero_distance_draws_every_pose`, `C76_zero_distance_refuted`, `C76_translation_refuted`, `C77_by_time_partial`, `C77_last_point_refuted`, `C77_late_start_refuted`, `C77_wrap_refuted`, `C77_long_interval_undefined`, `C77_single_point_twice`, `C78_redraw_refuted`, `C80_transform`, `C80_transform_keeps_distances`, `C80_transform_twice`, `C80_getMarkers`, `C81_low_dimension`, `C82_leica_ids_refuted`, `C82_mesh_orientation_refuted`, `C82_rotors`, `C82_leica_legs`, `C83_axes`, `C83_axes_arrows`, `C83_arrow_pose_reused_refuted`, `C84_same_position_aborts`, `C88_path_length`, `C88_line_distance`, `C88_nominal_length`, `C88_nominal_length_refuted`, `C90_colors`, `C92_path`, `C92_stays_near_origin`, `C92_terminates`, `C92_dimension_zero`, `C92_steps_refuted`, `C92_timing_run_aborts`, `C93_no_duration`, `C93_random_double`, `C93_check_matrices`, `C96_marker`, `C96_ellipsoid`.
* `ClassicalDedekindReals.sig_forall_dec`, `ClassicalDedekindReals.sig_not_dec`, `Classical_Prop.classic`, `FunctionalExtensionality.functional_extensionality_dep`: `C01_evaluate_is_derivative`, `C01_evaluate_vector`, `C02_getCoefficients_is_derivative`, `C04_scale_in_time`, `C04_offset`, `C05_baseCoeffsWithTime_exact`, `C05_baseCoeffsWithTime_small_t`, `C05_exact_for_every_t_refuted`, `C06_computeMinMax_global`, `C06_selectMinMaxFromRoots_global`, `C06_computeMinMax_false_iff`, `C06_low_degree_unconditional`, `C07_selectMinMaxFromCandidates`, `C08_bound_search_ends`, `C08_doubles_defined`, `C08_simple_zero_missed_finding`, `C09_multi_dimension_extrema`, `C09_multi_dimension_maximum`, `C10_single_dimension_maximum_partial`, `C10_single_dimension_maximum`, `C10_single_dimension_minimum_refuted`, `C11_candidate_times_failure_iff_partial`, `C11_failure_reported_refuted`, `C12_segment_evaluate`, `C12_offset`, `C14_evaluate_inside`, `C14_evaluate_elsewhere`, `C15_max_time_in_range_double`, `C15_max_time_last_segment`, `C15_boundaries`, `C16_evaluateRange_partial`, `C16_actual_labels`, `C16_evaluateRange_refuted`, `C17_evaluateRange_total_partial`, `C17_zero_step_refuted`, `C20_append`, `C22_scaleSegmentTimes`, `C23_limits_met`, `C23_factor`, `C23_max_values`, `C23_low_degree_undefined`, `C23_low_degree_refuted`, `C24_global_extrema`, `C24_maximum`, `C25_getVertices`, `C25_start_and_goal`, `C25_position_yaw`, `C28_velocity_ramp_times`, `C31_constraints_met`, `C32_continuous`, `C33_nonlinear_getters`, `C33_cost_is_integral`, `C33_cost_general`, `C33_stale_times_refuted`, `C34_optimal`, `C34_unique`, `C35_mapping_matrix`, `C35_inverse`, `C35_injective`, `C37_fully_constrained_refuted`, `C38_peak`, `C38_after_solving`, `C38_segment_candidates`, `C41_endpoint_bounds`, `C41_lower_order_refuted`, `C42_soft_constraint_cost`, `C42_cost_grows`, `C42_compare`, `C43_best_point_refuted`, `C44_gradient_succeeds`, `C45_times_scaled`, `C45_limit_met_refuted`, `C45_missing_limit_refuted`, `C45_rest_to_rest`, `C48_roundtrip_partial`, `C48_near`, `C48_refuted`, `C49_cycles_partial`, `C49_yaml_partial`, `C49_refuted`, `C49_rounded_down_refuted`, `C50_times_doubles`, `C51_at_time`, `C51_segment`, `C51_whole_trajectory`, `C52_mean_of_none_finding`, `C52_rolling_mean_refuted`, `C55_consistent_doubles`, `C55_nan_refuted`, `C56_segment`, `C56_trajectory`, `C56_negative_time_finding`, `C57_new_checker`, `C57_feasible_is_sound`, `C58_default_settings`, `C58_infeasible_is_justified`, `C58_terminates`, `C58_roll_pitch_never_reported`, `C58_short_polynomials_abort`, `C58_zero_section_finding`, `C59_thrust_speed_yaw_partial`, `C59_rates_partial`, `C59_short_segments_partial`, `C59_refuted`, `C59_sections_refuted`, `C61_default_settings`, `C61_verdict`, `C61_zero_interval_finding`, `C61_terminates_refuted`, `C62_sample_times`, `C62_needs_positive_interval_finding`, `C62_whole_mode_states`, `C62_doubles`, `C62_end_in_doubles_refuted`, `C62_whole_mode_end_refuted`, `C66_trajectory_valid`, `C66_time_only_optimal`, `C66_optimize_succeeds`, `C67_objective_time`, `C67_objective_times_and_constraints`, `C67_total_cost`, `C67_total_cost_is_objective`, `C67_total_cost_refuted`, `C68_table_partial`, `C68_more_segments_than_samples`, `C68_refuted`, `C69_start_duration_partial`, `C69_range_partial`, `C69_range_refuted`, `C70_new_checker`, `C70_infeasible_is_justified`, `C70_roll_pitch_never_reported`, `C70_terminates`, `C70_negative_time_undefined_finding`, `C72_inverse`, `C72_matrices`, `C73_time_scaling`, `C74_hard_constraints_kept_refuted`, `C74_failed_addition_refuted`, `C79_vertices_partial`, `C79_other_dimension`, `C79_yaw_refuted`, `C81_path`, `C81_goal_refuted`, `C84_states_joined`, `C84_succeeds`, `C84_succeeds_everywhere_refuted`, `C84_failure_not_reported_finding`, `C85_limits_met`, `C85_rest_to_rest`, `C85_fast_start_not_met`, `C85_start_met_refuted`, `C85_simple_planner_limit_refuted`, `C86_position`, `C86_position_yaw`, `C86_full_pose`, `C86_goal_velocity_met_refuted`, `C86_same_orientation_aborts`, `C86_same_orientation_refuted`, `C87_result`, `C87_violating_segment_slowed_refuted`, `C88_equal_points_nan`, `C88_line_distance_refuted`, `C89_measures`, `C89_overshoot_refuted`, `C89_area_nan`, `C89_area_refuted`, `C90_marker`, `C90_short_path_invisible`, `C90_path_drawn_refuted`, `C90_linear_methods`, `C90_nonlinear_methods`, `C90_initial_objective`, `C90_mellinger_start`, `C91_candidates`, `C91_maximum_missed`, `C91_maximum_refuted`, `C91_positive_interval_needed`, `C92_timing_run`, `C93_maximum`, `C93_maximum_accuracy`, `C93_cost_accuracy`, `C93_positive_interval_needed`, `C93_check_matrices_nan`, `C93_end_not_sampled_finding`, `C94_evaluate_error`, `C94_no_overflow`, `C94_evaluate_zero`, `C94_segment_error`, `C95_local_time`, `C95_evaluate_error`, `C95_before_segment_start_finding`, `C95_max_time`, `C96_negative_eigenvalue_nan`, `C98_scaled_path`, `C98_no_overflow`, `C98_max_time`, `C98_nan_accepted_finding`, `C98_huge_scaling_finding`, `C99_product`, `C99_product_finite`, `C99_sum`, `C99_scalar`, `C99_derivative`, `C99_offset`, `C100_samples`, `C100_terminates`, `C100_stalls_finding`, `C101_offset`, `C101_evaluate`, `C102_nfabian_time`, `C102_estimate`, `C102_distinct_positions_zero_time_refuted`, `C102_ramp`, `C102_nan_limit_finding`, `C102_infinite_time_finding`.
