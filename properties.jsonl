{"id": "C01", "title": "Polynomial::evaluate is the mathematical derivative", "statement": "For a polynomial built from coefficients c0..c(N-1), evaluate(t, d) returns the d-th derivative of the function c0 + c1*t + ... + c(N-1)*t^(N-1) at t (zero for d >= N), and evaluate(t, &v) fills v[i] with the i-th derivative; inputs for which the code reads outside its coefficient table (N > 22 or d < 0) are exactly the ones that have no defined result.", "quantifier": "every N, every coefficient vector, every derivative order, every real time t (real arithmetic, rounding idealised)", "why_tests_cant": "Tests compare a handful of random polynomials with finite differences at tolerance; agreement with the derivative of the function for all N, d, t is an algebraic identity over the whole coefficient space.", "anchors": ["mav_trajectory_generation/include/mav_trajectory_generation/polynomial.h: Polynomial::evaluate (118-149), base_coefficients_", "mav_trajectory_generation/src/polynomial.cpp: computeBaseCoefficients (145-160)"]}
{"id": "C02", "title": "getCoefficients(d) returns the coefficients of the d-th derivative", "statement": "For 0 <= d <= N the returned vector has length N, and as a polynomial it equals the d-th derivative of the original; d > N aborts (CHECK). evaluate(t, d) and evaluating getCoefficients(d) at t agree.", "quantifier": "every N <= 22, coefficient vector, d, t", "why_tests_cant": "Needs equality of two polynomials for every coefficient vector and every order at once.", "anchors": ["mav_trajectory_generation/include/mav_trajectory_generation/polynomial.h: Polynomial::getCoefficients (98-113)"]}
{"id": "C03", "title": "Convolution / operator* multiplies polynomials", "statement": "convolve(a, b) (and p1 * p2) evaluated at any t equals the product of the two polynomials at t, has length |a|+|b|-1, is commutative, and the fixed-size template convolve returns the same coefficients.", "quantifier": "all coefficient vectors of any lengths (at least one), all t", "why_tests_cant": "Index arithmetic with two clipped bounds; tests only cover specific sizes.", "anchors": ["mav_trajectory_generation/src/polynomial.cpp: Polynomial::convolve (162-180)", "mav_trajectory_generation/include/mav_trajectory_generation/convolution.h: convolve (31-55)", "mav_trajectory_generation/include/mav_trajectory_generation/polynomial.h: operator* (76-86)"]}
{"id": "C04", "title": "Polynomial arithmetic, padding, time scaling and offset are function-level operations", "statement": "(p+q)(t)=p(t)+q(t), (s*p)(t)=s*p(t); after scalePolynomialInTime(s) every derivative d satisfies new(t,d)=s^d*old(s*t,d); offsetPolynomial(o) shifts the value by o and leaves all derivatives unchanged; getPolynomialWithAppendedCoefficients(n) returns true exactly when n >= N and then represents the same function (all derivatives), otherwise returns false and hands back the unchanged polynomial.", "quantifier": "every polynomial (any N incl. 0), scale, offset, new size, time, derivative", "why_tests_cant": "Requires identities for all coefficient vectors and all times; boundary sizes (N=0, n=N, n<N) must hold together.", "anchors": ["mav_trajectory_generation/include/mav_trajectory_generation/polynomial.h: operator+,+=,* (65-86)", "mav_trajectory_generation/src/polynomial.cpp: getPolynomialWithAppendedCoefficients (182-197), scalePolynomialInTime (199-205), offsetPolynomial (207-211)"]}
{"id": "C05", "title": "baseCoeffsWithTime gives the row whose dot product with the coefficients is the derivative", "statement": "For 0 <= d < N, the dot product of baseCoeffsWithTime(N, d, t) with the coefficients equals evaluate(t, d). The code replaces |t| < machine epsilon by 0, so the exact identity is required for t = 0 or |t| >= epsilon; d < 0 or d >= N aborts.", "quantifier": "every N <= 22, coefficient vector, 0 <= d < N, t", "why_tests_cant": "Special-cased small-|t| branch is hit by measure-zero inputs only; tests never hit it.", "anchors": ["mav_trajectory_generation/include/mav_trajectory_generation/polynomial.h: baseCoeffsWithTime (201-229)"]}
{"id": "C06", "title": "computeMinMax returns the global extrema on the interval", "statement": "If the root finder returns all real roots of the (d+1)-th derivative, then for t_start <= t_end the returned minimum and maximum are the true minimum and maximum of the d-th derivative over the closed interval [t_start, t_end], and the returned times lie in the interval and attain them. t_start > t_end returns false.", "quantifier": "every polynomial, derivative order, interval; every complete root list in any order with any extra (complex or outside) entries", "why_tests_cant": "A sampled comparison can only show approximate equality for particular polynomials; globality over a continuum needs a calculus argument.", "anchors": ["mav_trajectory_generation/src/polynomial.cpp: computeMinMax (102-114), computeMinMaxCandidates (65-83), selectMinMaxCandidatesFromRoots (32-63), selectMinMaxFromCandidates (116-143), selectMinMaxFromRoots (85-100)"]}
{"id": "C07", "title": "Candidate selection is exact", "statement": "selectMinMaxCandidatesFromRoots returns exactly t_start, t_end and the real parts of those roots that are real up to machine epsilon and lie inside the interval; selectMinMaxFromCandidates returns a candidate with the least and one with the greatest value of the chosen derivative, ties resolved to the first one, and returns false exactly on an empty candidate list.", "quantifier": "every candidate list and root list, every interval", "why_tests_cant": "Order-dependence, ties, empty lists and boundary roots have to hold jointly for all lists.", "anchors": ["mav_trajectory_generation/src/polynomial.cpp: selectMinMaxCandidatesFromRoots (32-63), selectMinMaxFromCandidates (116-143)"]}
{"id": "C08", "title": "Root-finder wrapper and its closed-form pieces", "statement": "findRootsJenkinsTraub ignores leading (highest order) coefficients that are smaller than the smallest normal double, returns an empty root list with success for constant/zero input, and otherwise returns as many roots as the driver found; for polynomials of degree 1 and 2 the returned values are exactly the complex roots; roots at zero are split off exactly; the quadratic synthetic division is exact polynomial division; every reported root slot is written.", "quantifier": "every coefficient vector within the documented size (<= 101 coefficients), real arithmetic", "why_tests_cant": "Correctness of division/deflation and slot bookkeeping is for every degree and every coefficient pattern (zero coefficients, complex pairs).", "anchors": ["mav_trajectory_generation/src/rpoly/rpoly_ak1.cpp: findLastNonZeroCoeff (57-68), findRootsJenkinsTraub (70-117), rpoly_ak1 (153-389), QuadSD_ak1 (547-564), Quad_ak1 (885-937)"]}
{"id": "C09", "title": "Magnitude extrema of a segment over several dimensions are the true extrema", "statement": "For two or more dimensions, with complete real roots, the candidates of computeMinMaxMagnitudeCandidates include points attaining the minimum and the maximum over [t_start, t_end] of the Euclidean norm of the chosen derivative over the chosen dimensions, and selectMinMaxMagnitudeFromCandidates returns them.", "quantifier": "every segment, set of dimensions, derivative, interval", "why_tests_cant": "Needs the calculus argument plus the convolution identity for all coefficient vectors.", "anchors": ["mav_trajectory_generation/src/segment.cpp: computeMinMaxMagnitudeCandidateTimes (83-134), computeMinMaxMagnitudeCandidates (136-159), selectMinMaxMagnitudeFromCandidates (161-185)"]}
{"id": "C10", "title": "Magnitude extrema of a segment in a single dimension are the true extrema", "statement": "With a single dimension the reported minimum and maximum of |derivative| over the interval are the true ones.", "quantifier": "every segment with one selected dimension, every interval", "why_tests_cant": "The minimum of |x(t)| can lie at a sign change, which random tests at tolerance on 3D data never exercise.", "anchors": ["mav_trajectory_generation/src/segment.cpp: computeMinMaxMagnitudeCandidateTimes single-dimension branch (89-97)"]}
{"id": "C11", "title": "Invalid requests for magnitude extrema are reported as failure", "statement": "computeMinMaxMagnitudeCandidates (and Trajectory::computeMinMaxMagnitude) returns false when the candidate computation fails (no dimensions, dimension index out of range, reversed interval, derivative order too high) instead of returning true with placeholder values, and never reads outside the segment.", "quantifier": "every segment, dimension list, derivative, interval", "why_tests_cant": "All combinations of invalid arguments; some lead to undefined behaviour that a test run need not reveal.", "anchors": ["mav_trajectory_generation/src/segment.cpp: computeMinMaxMagnitudeCandidateTimes (83-134), computeMinMaxMagnitudeCandidates (136-159)", "mav_trajectory_generation/src/trajectory.cpp: computeMinMaxMagnitude (191-227)"]}
{"id": "C12", "title": "Segment evaluation, single-dimension extraction and offset", "statement": "Segment::evaluate(t,d) is, in each dimension, the d-th derivative of that dimension's polynomial; getSegmentWithSingleDimension(k) succeeds exactly for valid k and yields the k-th component with the same duration; offsetSegment(o) adds o to the first three dimensions' positions only, leaves derivatives, further dimensions and time unchanged, and fails (unchanged) if the offset is too short.", "quantifier": "every segment, dimension, offset vector, t, derivative", "why_tests_cant": "Identities over all segments; failure must leave the object unchanged.", "anchors": ["mav_trajectory_generation/src/segment.cpp: evaluate (51-58), getSegmentWithSingleDimension (187-199), offsetSegment (264-276)"]}
{"id": "C13", "title": "Appending dimensions to a segment keeps both motions", "statement": "getSegmentWithAppendedDimension yields a segment whose duration is the longer one, whose first dimensions trace this segment's path and whose remaining dimensions trace the appended segment's path, each uniformly stretched to the new duration; for zero-dimensional operands it returns the other operand.", "quantifier": "every pair of segments, in particular with different numbers of coefficients and different durations", "why_tests_cant": "The failing combination needs both N and the duration to differ at once; the repository's test only varies one.", "anchors": ["mav_trajectory_generation/src/segment.cpp: getSegmentWithAppendedDimension (201-262)"]}
{"id": "C14", "title": "Trajectory::evaluate selects the right segment", "statement": "For 0 <= t < total duration, evaluate(t,d) is the value of the unique segment i with T_i <= t < T_(i+1), at local time t - T_i; at t = total duration it is the end of the last segment; beyond the end it is zero; negative t extrapolates the first segment; an empty trajectory has no defined value.", "quantifier": "every trajectory with positive segment times, every t and d", "why_tests_cant": "Boundary times are measure-zero inputs; the claim is for every segment layout.", "anchors": ["mav_trajectory_generation/src/trajectory.cpp: Trajectory::evaluate (48-79)"]}
{"id": "C15", "title": "evaluate at getMaxTime() is never treated as out of range", "statement": "For every trajectory produced by any sequence of API operations, evaluating at exactly getMaxTime() (and at every partial sum of the segment times, as getVertices/getGoalVertex do) hits the intended segment instead of the out-of-range branch, bit-exactly in floating-point arithmetic.", "quantifier": "every non-empty trajectory and history of operations, for every arithmetic whose comparison is irreflexive (in particular IEEE doubles without NaN times)", "why_tests_cant": "Rounding makes sums order-dependent; only a proof over all float values shows that the two accumulations can never differ.", "anchors": ["mav_trajectory_generation/src/trajectory.cpp: evaluate (48-79), getGoalVertex (288-290), getVertices (292-341), scaleSegmentTimes (363-380)", "mav_trajectory_generation/include/mav_trajectory_generation/trajectory.h: setSegments, addSegments, getMaxTime (47-85)"]}
{"id": "C16", "title": "evaluateRange samples the requested window", "statement": "evaluateRange(t_start, t_end, dt, ...) returns the trajectory's derivative at t_start, t_start+dt, ... for all such times before t_end, with sampling_times holding exactly those times.", "quantifier": "every trajectory, window inside [0, max time], dt > 0", "why_tests_cant": "The deviation depends on where t_start lies relative to segment boundaries; existing use always starts at 0.", "anchors": ["mav_trajectory_generation/src/trajectory.cpp: Trajectory::evaluateRange (81-141)"]}
{"id": "C17", "title": "evaluateRange never reads outside the trajectory", "statement": "For every window inside [0, getMaxTime()] accepted by the documented API, evaluateRange completes without undefined behaviour and terminates.", "quantifier": "every trajectory, 0 <= t_start <= t_end <= max time, dt", "why_tests_cant": "Out-of-bounds vector reads are silent in a test run; termination cannot be tested.", "anchors": ["mav_trajectory_generation/src/trajectory.cpp: Trajectory::evaluateRange (81-141)"]}
{"id": "C18", "title": "Trajectory bookkeeping invariant", "statement": "After any sequence of setSegments, addSegments, clear, scaleSegmentTimes, offsetTrajectory, scaleSegmentTimesToMeetConstraints (those that do not abort), D(), N() equal those of every segment, K() is the number of segments and getMaxTime() is the sum of the segment times; operations that must reject mismatched segments abort.", "quantifier": "every sequence of operations", "why_tests_cant": "Histories are unbounded.", "anchors": ["mav_trajectory_generation/include/mav_trajectory_generation/trajectory.h: setSegments, addSegments, clear (40-85)", "mav_trajectory_generation/src/trajectory.cpp"]}
{"id": "C19", "title": "Extracting a single dimension from a trajectory", "statement": "getTrajectoryWithSingleDimension(k) evaluates at every t and derivative to the k-th component of the original trajectory and has the same duration.", "quantifier": "every trajectory, dimension k, t, derivative", "why_tests_cant": "Equality for all t; the existing test only checks coefficients.", "anchors": ["mav_trajectory_generation/src/trajectory.cpp: getTrajectoryWithSingleDimension (143-159)"]}
{"id": "C20", "title": "Appending dimensions to a trajectory", "statement": "getTrajectoryWithAppendedDimension of two trajectories with the same segment times and number of segments yields a trajectory with the sum of dimensions whose evaluation at every t is the concatenation of the two evaluations; differing numbers of segments abort.", "quantifier": "every pair of trajectories with equal segment times, all t, d", "why_tests_cant": "For all t and both coefficient counts.", "anchors": ["mav_trajectory_generation/src/trajectory.cpp: getTrajectoryWithAppendedDimension (161-189)"]}
{"id": "C21", "title": "addTrajectories concatenates", "statement": "On success the merged trajectory consists of this trajectory's segments followed by those of the arguments in order; its duration is the sum; for t within the first it evaluates like the first, later like the appended ones shifted; it fails on mismatched D or N. The result does not depend on whether the output object is one of the inputs.", "quantifier": "every list of trajectories, t, derivative, including output aliasing an input", "why_tests_cant": "Aliasing and arbitrary list lengths.", "anchors": ["mav_trajectory_generation/src/trajectory.cpp: addTrajectories (237-260)"]}
{"id": "C22", "title": "scaleSegmentTimes preserves the path", "statement": "scaleSegmentTimes(s) with s >= 1e-6 multiplies every segment time and the total by s, and new.evaluate(s*t, d) = old.evaluate(t, d) / s^d for all t and d; for smaller s it returns false and leaves the trajectory unchanged.", "quantifier": "every trajectory, scaling, t, derivative", "why_tests_cant": "For all t, including segment boundaries.", "anchors": ["mav_trajectory_generation/src/trajectory.cpp: scaleSegmentTimes (363-380)"]}
{"id": "C23", "title": "scaleSegmentTimesToMeetConstraints meets the limits", "statement": "With v_max, a_max > 0 and exact extrema it returns true, afterwards velocity and acceleration magnitudes over the whole trajectory are at most (1+1e-3) times the limits, the geometric path is unchanged and the duration never shrinks.", "quantifier": "every trajectory with at least two dimensions, all positive limits", "why_tests_cant": "Universally quantified over trajectories and over time within the trajectory.", "anchors": ["mav_trajectory_generation/src/trajectory.cpp: scaleSegmentTimesToMeetConstraints (385-429), computeMaxVelocityAndAcceleration (344-361)"]}
{"id": "C24", "title": "Trajectory::computeMinMaxMagnitude is global", "statement": "With complete roots the returned extrema are the minimum and maximum of the magnitude of the derivative over the whole trajectory, attained at the reported time of the reported segment.", "quantifier": "every non-empty trajectory, at least two dimensions, derivative", "why_tests_cant": "Global over a continuum and all segments.", "anchors": ["mav_trajectory_generation/src/trajectory.cpp: computeMinMaxMagnitude (191-227)", "mav_trajectory_generation/include/mav_trajectory_generation/extremum.h"]}
{"id": "C25", "title": "Vertices read back from a trajectory", "statement": "getVertices(k) returns K+1 vertices; vertex i carries for every derivative order 0..k the value of the trajectory at the i-th segment boundary; the position/yaw variant splits dimensions 0-2 and 3 and returns false for fewer than four dimensions.", "quantifier": "every non-empty trajectory, k >= 0", "why_tests_cant": "All segment counts and orders.", "anchors": ["mav_trajectory_generation/src/trajectory.cpp: getVertexAtTime (276-282), getStartVertex, getGoalVertex (284-290), getVertices (292-341)"]}
{"id": "C26", "title": "Vertex is a map from derivative order to value", "statement": "After any sequence of addConstraint/removeConstraint/makeStartOrEnd, getConstraint/hasConstraint/getNumberOfConstraints behave like a finite map (last write wins, removal removes exactly that order, removal returns whether it was present); wrong-sized values abort.", "quantifier": "every operation sequence", "why_tests_cant": "Unbounded histories.", "anchors": ["mav_trajectory_generation/src/vertex.cpp: addConstraint (130-134), removeConstraint (136-145), makeStartOrEnd (147-153), getConstraint (155-163), hasConstraint (165-168)", "mav_trajectory_generation/include/mav_trajectory_generation/vertex.h: 58-90"]}
{"id": "C27", "title": "isEqualTol and getSubdimension", "statement": "isEqualTol(rhs, tol) holds iff both vertices constrain the same derivative orders with component-wise differences at most tol (hence reflexive for tol >= 0 and symmetric); getSubdimension succeeds exactly for valid dimensions and then holds the selected components of all constraints up to the requested order.", "quantifier": "every pair of vertices, tolerance, dimension list, order", "why_tests_cant": "All combinations of keys and sizes.", "anchors": ["mav_trajectory_generation/src/vertex.cpp: isEqualTol (170-182), getSubdimension (184-207)"]}
{"id": "C28", "title": "estimateSegmentTimesVelocityRamp allocates feasible rest-to-rest times", "statement": "One time per segment; each is at least 0.1 s and at least the minimum time a double-integrator with speed limit v_max and acceleration limit a_max needs to cover the distance from rest to rest; the time_factor argument scales the allocation.", "quantifier": "every vertex list, positive limits, time factor", "why_tests_cant": "Optimality of the ramp time is a universally quantified statement.", "anchors": ["mav_trajectory_generation/src/vertex.cpp: estimateSegmentTimesVelocityRamp (233-253), computeTimeVelocityRamp (274-290)"]}
{"id": "C29", "title": "Estimated segment times are accepted by the optimiser", "statement": "estimateSegmentTimes returns one strictly positive time per segment for positive limits, so that setupFromVertices (which requires positive times) accepts it.", "quantifier": "every vertex list with positions, including repeated waypoints", "why_tests_cant": "Needs all waypoint configurations; coincident way points are not in the tests.", "anchors": ["mav_trajectory_generation/src/vertex.cpp: estimateSegmentTimes (228-231), estimateSegmentTimesNfabian (255-272)", "mav_trajectory_generation/include/mav_trajectory_generation/impl/polynomial_optimization_linear_impl.h: updateSegmentTimes (286-305)"]}
{"id": "C30", "title": "Generated vertices", "statement": "createSquareVertices(k, center, side, rounds) yields 4*rounds+1 vertices, consecutive ones one side length apart, with start and end fully constrained at the same point; createRandomVertices yields n+1 vertices within the bounds, consecutive ones more than 0.2 apart, first and last with all derivatives up to k constrained, for any random source.", "quantifier": "every round count, side length, random stream", "why_tests_cant": "All random streams and sizes.", "anchors": ["mav_trajectory_generation/src/vertex.cpp: createRandomVertices (27-82), createSquareVertices (84-120), createRandomVertices1D (122-128)"]}
{"id": "C31", "title": "Optimised trajectory meets every vertex constraint", "statement": "After setupFromVertices and solveLinear (or setFreeConstraints with any values), for every vertex and every constrained derivative order up to N/2-1, the segments adjacent to the vertex have exactly that value at their end/start, in every dimension.", "quantifier": "every even N, vertex list with >= 2 vertices, positive segment times, any constraint pattern, any values chosen by the solver; segment times >= 2^-52 s (below that the mapping matrix is singular, see C35)", "why_tests_cant": "Holds for all constraint patterns and sizes; tests use a few random instances and tolerances.", "anchors": ["mav_trajectory_generation/include/mav_trajectory_generation/impl/polynomial_optimization_linear_impl.h: setupFromVertices (57-109), setupConstraintReorderingMatrix (182-260), updateSegmentsFromCompactConstraints (263-283), solveLinear (339-379)"]}
{"id": "C32", "title": "Optimised trajectory is continuous up to derivative N/2-1", "statement": "At every interior vertex the end derivatives of the left segment and the start derivatives of the right segment agree for all orders 0..N/2-1 in every dimension, whatever free constraint values are used.", "quantifier": "every even N, vertex list, positive times, free values; segment times >= 2^-52 s (below that the mapping matrix is singular, see C35)", "why_tests_cant": "Structural property of the reordering matrix for all sizes.", "anchors": ["mav_trajectory_generation/include/mav_trajectory_generation/impl/polynomial_optimization_linear_impl.h: setupConstraintReorderingMatrix (182-260), updateSegmentsFromCompactConstraints (263-283)"]}
{"id": "C33", "title": "computeCost is the integral of the squared derivative", "statement": "Once the segments have been computed, computeCost() equals the sum over segments and dimensions of the integral over the segment of the square of the optimised derivative; it is never negative. After updateSegmentTimes alone it integrates the stored polynomials over the new times.", "quantifier": "every history of calls, every problem, derivative order <= N/2-1, positive segment times", "why_tests_cant": "Test compares with numeric integration at 10% tolerance.", "anchors": ["mav_trajectory_generation/include/mav_trajectory_generation/impl/polynomial_optimization_linear_impl.h: computeCost (124-140), computeQuadraticCostJacobian (568-583)"]}
{"id": "C34", "title": "solveLinear is optimal", "statement": "If the sparse solver solves its linear system, the trajectory after solveLinear has the least integral cost among all choices of free constraints, i.e. among all piecewise polynomials with the given segment times that meet the vertex constraints and continuity.", "quantifier": "every problem instance and every competing set of free constraints; segment times >= 2^-52 s (below that the mapping matrix is singular, see C35)", "why_tests_cant": "Optimality is a statement over all competitors.", "anchors": ["mav_trajectory_generation/include/mav_trajectory_generation/impl/polynomial_optimization_linear_impl.h: solveLinear (339-379), constructR (308-336)"]}
{"id": "C35", "title": "Mapping matrix and its inverse", "statement": "The matrix returned by setupMappingMatrix(T) maps coefficients to the N/2 derivatives at 0 followed by those at T; invertMappingMatrix returns its two-sided inverse whenever the inner block inverse is correct; the mapping is injective for T >= 2^-52. For 0 < T < 2^-52 the matrix is singular.", "quantifier": "every even N <= 22, every T > 0", "why_tests_cant": "Invertibility for all T.", "anchors": ["mav_trajectory_generation/include/mav_trajectory_generation/impl/polynomial_optimization_linear_impl.h: setupMappingMatrix (112-121), invertMappingMatrix (143-179)"]}
{"id": "C36", "title": "Constraint reordering bookkeeping", "statement": "The number of fixed plus free constraints is (number of vertices)*N/2; every row of the reordering matrix M has exactly one entry, equal to 1; every column is used; getMpinv()*getM() is the identity; fixed constraints occupy the first columns in (vertex, derivative) order.", "quantifier": "every even N, every vertex list (>= 2), any constraint pattern", "why_tests_cant": "Combinatorial statement over all patterns.", "anchors": ["mav_trajectory_generation/include/mav_trajectory_generation/impl/polynomial_optimization_linear_impl.h: setupConstraintReorderingMatrix (182-260), getM (523), getMpinv (557-565)"]}
{"id": "C37", "title": "Optimiser object can be reused", "statement": "The result of setupFromVertices followed by solveLinear depends only on that setup, not on earlier setups/solves on the same object.", "quantifier": "every history of earlier setups and solves", "why_tests_cant": "Histories are unbounded; the failing order (free, then fully constrained problem) is not tested.", "anchors": ["mav_trajectory_generation/include/mav_trajectory_generation/impl/polynomial_optimization_linear_impl.h: solveLinear (339-379), setupFromVertices (57-109)"]}
{"id": "C38", "title": "computeMaximumOfMagnitude finds the peak", "statement": "With complete roots, the returned extremum is the maximum over all segments and times of the norm of the derivative, with the right segment index; the candidate list covers every segment.", "quantifier": "every segment list, derivative", "why_tests_cant": "Global maximum over a continuum.", "anchors": ["mav_trajectory_generation/include/mav_trajectory_generation/impl/polynomial_optimization_linear_impl.h: computeMaximumOfMagnitude (466-497), computeSegmentMaximumMagnitudeCandidates (389-409)"]}
{"id": "C39", "title": "Optimisation variables are packed and unpacked consistently", "statement": "The variable vector handed to the optimiser by optimizeTimeAndFreeConstraints, when passed unchanged to the objective, sets exactly the current segment times and free constraints (order: times, then free constraints per dimension).", "quantifier": "every number of segments, dimensions and free constraints", "why_tests_cant": "All sizes.", "anchors": ["mav_trajectory_generation/include/mav_trajectory_generation/impl/polynomial_optimization_nonlinear_impl.h: optimizeTimeAndFreeConstraints (409-523), objectiveFunctionTimeAndConstraints (660-742)"]}
{"id": "C40", "title": "Bounds contain the initial solution", "statement": "In optimizeTimeAndFreeConstraints the lower and upper bounds given to the optimiser satisfy lower <= initial <= upper component-wise and segment times are bounded below by 0.1 (or the initial time, if smaller).", "quantifier": "every initial solution and set of magnitude constraints", "why_tests_cant": "All initial values.", "anchors": ["mav_trajectory_generation/include/mav_trajectory_generation/impl/polynomial_optimization_nonlinear_impl.h: optimizeTimeAndFreeConstraints (409-523)"]}
{"id": "C41", "title": "Endpoint-derivative bounds act on the right variable", "statement": "A magnitude constraint on derivative k bounds exactly those optimisation variables that are the free derivative-k values of the vertices, in every dimension, and no others.", "quantifier": "every N, vertex list, constraint pattern, derivative_to_optimize", "why_tests_cant": "Index arithmetic over all patterns; misplacement is silent.", "anchors": ["mav_trajectory_generation/include/mav_trajectory_generation/impl/polynomial_optimization_nonlinear_impl.h: setFreeEndpointDerivativeHardConstraints (798-844)"]}
{"id": "C42", "title": "Soft-constraint cost formula", "statement": "The soft-constraint cost is the sum over constraints of min(max_cost, exp(weight * (max_traj - limit)/limit)); it lies in (0, max_cost * number of constraints], grows with the violation, and is zero for no constraints.", "quantifier": "every constraint list with positive limits, every trajectory", "why_tests_cant": "Monotonicity and bounds for all values.", "anchors": ["mav_trajectory_generation/include/mav_trajectory_generation/impl/polynomial_optimization_nonlinear_impl.h: evaluateMaximumMagnitudeAsSoftConstraint (767-795), evaluateMaximumMagnitudeConstraint (745-763)"]}
{"id": "C43", "title": "Result of optimize() is the best point found", "statement": "After optimize() with an nlopt-driven method the stored trajectory corresponds to the best point the optimiser reports.", "quantifier": "every optimiser behaviour (sequence of evaluated points and reported optimum)", "why_tests_cant": "Depends on the optimiser's internal evaluation order.", "anchors": ["mav_trajectory_generation/include/mav_trajectory_generation/impl/polynomial_optimization_nonlinear_impl.h: optimizeTime (133-168), optimizeTimeAndFreeConstraints (409-523), objectiveFunctionTime (556-615)"]}
{"id": "C44", "title": "Mellinger gradient evaluation keeps state and total time", "statement": "getCostAndGradientMellinger evaluates each perturbed problem with segment times whose sum is the original total (before clamping to 0.1), returns one gradient entry per segment, and leaves the optimiser with the original segment times and solution.", "quantifier": "every number of segments and times", "why_tests_cant": "All sizes; state restoration.", "anchors": ["mav_trajectory_generation/include/mav_trajectory_generation/impl/polynomial_optimization_nonlinear_impl.h: getCostAndGradientMellinger (287-364)"]}
{"id": "C45", "title": "scaleSegmentTimesWithViolation reaches feasibility", "statement": "With both a velocity and an acceleration constraint of positive limits, each step scales all segment times by max(1, v/vmax, sqrt(a/amax))-style factor; missing constraints must not corrupt the times.", "quantifier": "every set of magnitude constraints", "why_tests_cant": "Absent constraints give division by zero.", "anchors": ["mav_trajectory_generation/include/mav_trajectory_generation/impl/polynomial_optimization_nonlinear_impl.h: scaleSegmentTimesWithViolation (367-406)"]}
{"id": "C46", "title": "YAML round trip of trajectories", "statement": "trajectoryFromYaml(trajectoryToYaml(T)) succeeds and reproduces every coefficient, N, D and segment count, with each segment time reproduced to within one nanosecond (rounded down).", "quantifier": "every trajectory with D >= 1, non-negative times, at least one segment", "why_tests_cant": "All shapes and sizes.", "anchors": ["mav_trajectory_generation/src/io.cpp: coefficientsToYaml..segmentsFromYaml (35-124)", "mav_trajectory_generation/include/mav_trajectory_generation/io.h"]}
{"id": "C47", "title": "Malformed files and nodes are reported, not fatal", "statement": "trajectoryFromFile/segmentsFromFile/trajectoryFromYaml return false for missing or malformed input, and never yield a segment whose coefficient counts disagree with N.", "quantifier": "every input node", "why_tests_cant": "All malformed inputs.", "anchors": ["mav_trajectory_generation/src/io.cpp: segmentFromYaml (72-100), segmentsFromFile (169-219)", "mav_trajectory_generation/include/mav_trajectory_generation/io.h: trajectoryFromFile (56-63)"]}
{"id": "C48", "title": "Nanosecond time conversion is stable in double precision", "statement": "setTimeNSec(n) followed by getTimeNSec() returns n.", "quantifier": "every n below 2^53, IEEE binary64 arithmetic", "why_tests_cant": "Rounding behaviour over 2^53 values.", "anchors": ["mav_trajectory_generation/include/mav_trajectory_generation/segment.h: getTimeNSec, setTimeNSec (57-64)"]}
{"id": "C49", "title": "Saving and loading repeatedly does not drift", "statement": "Storing a segment time with getTimeNSec and restoring it changes it by at most one nanosecond per cycle in double precision, and a stored value is reproduced by a second cycle.", "quantifier": "every double time in the valid range", "why_tests_cant": "Rounding over the full double range.", "anchors": ["mav_trajectory_generation/include/mav_trajectory_generation/segment.h: getTimeNSec, setTimeNSec (57-64)", "mav_trajectory_generation/src/io.cpp: segmentToYaml (54-70)"]}
{"id": "C50", "title": "ROS message round trip", "statement": "For D in {3,4,6} (4D message: {3,4}) converting a trajectory to a message and back yields the same coefficients and dimension with times truncated to whole nanoseconds; other dimensions are rejected with an empty message.", "quantifier": "every trajectory with N >= 1", "why_tests_cant": "All sizes, both message types.", "anchors": ["mav_trajectory_generation_ros/src/ros_conversions.cpp: trajectoryToPolynomialTrajectoryMsg, polynomialTrajectoryMsgToTrajectory (25-180)"]}
{"id": "C51", "title": "Sampling functions fill consistent states", "statement": "sampleTrajectoryAtTime succeeds iff 0 <= t <= max time and D >= 3 and then position..snap are the derivatives of the trajectory at t; sampleWholeTrajectory labels sample i with i*dt and its contents are the trajectory at that time.", "quantifier": "every trajectory, t, dt", "why_tests_cant": "All t and dt.", "anchors": ["mav_trajectory_generation/src/trajectory_sampling.cpp: 27-182"]}
{"id": "C52", "title": "Timing accumulator statistics", "statement": "After any sequence of added values, Sum, Mean, Min, Max, LazyVariance refer to all samples and RollingMean/rolling sum to the last min(n, window) samples.", "quantifier": "every sequence of samples and window size >= 1", "why_tests_cant": "Unbounded histories.", "anchors": ["mav_trajectory_generation/include/mav_trajectory_generation/timing.h: Accumulator (36-101)"]}
{"id": "C53", "title": "Timing registry handles are unique and stable", "statement": "GetHandle returns the same handle for the same tag and different handles for different tags until Reset, and GetTag inverts it; Start/Stop pairs add exactly one sample to the right tag.", "quantifier": "every sequence of registry operations", "why_tests_cant": "Unbounded histories.", "anchors": ["mav_trajectory_generation/src/timing.cpp: GetHandle (45-61), GetTag (63-75), AddTime (127), Reset (200-203)"]}
{"id": "C54", "title": "Derivative names round-trip", "statement": "positionDerivativeToInt(positionDerivativeToString(d)) = d for 0 <= d <= 4 and INVALID otherwise; likewise for orientation (0..2); distinct orders have distinct names; unknown strings map to INVALID.", "quantifier": "every int and every string", "why_tests_cant": "All strings/integers.", "anchors": ["mav_trajectory_generation/src/motion_defines.cpp: 25-75"]}
{"id": "C55", "title": "Input constraints stay consistent", "statement": "After any sequence of addConstraint/removeConstraint/setDefaultValues/fromYaml, stored values are non-negative and minimum thrust never exceeds maximum thrust; toYaml/fromYaml round-trips the known constraint types.", "quantifier": "every operation sequence", "why_tests_cant": "Unbounded histories.", "anchors": ["mav_trajectory_generation_ros/src/input_constraints.cpp: 33-143"]}
{"id": "C56", "title": "Half-plane feasibility is exact", "statement": "With complete roots checkHalfPlaneFeasibility(segment) returns true iff at every time of the segment the position is strictly on the positive side of every half plane; createBoundingBox describes exactly the open box; a trajectory is feasible iff all its segments are.", "quantifier": "every segment, half-plane set", "why_tests_cant": "Continuum of times.", "anchors": ["mav_trajectory_generation_ros/src/feasibility_base.cpp: HalfPlane (54-86), checkHalfPlaneFeasibility (109-154)"]}
{"id": "C57", "title": "Recursive check: a feasible verdict is sound", "statement": "If FeasibilityRecursive::checkInputFeasibility returns kInputFeasible (with complete roots) then at every time of the segment thrust is within [f_min, f_max], speed at most v_max, the roll/pitch rate at most omega_xy_max and yaw rate/acceleration within limits.", "quantifier": "every segment with at least 3 (4) dimensions, every constraint set", "why_tests_cant": "Safety claim over a continuum of times and recursion depths.", "anchors": ["mav_trajectory_generation_ros/src/feasibility_recursive.cpp: 42-304"]}
{"id": "C58", "title": "Recursive check: an infeasible verdict is justified, and the recursion terminates", "statement": "If it returns an infeasible verdict there is a time at which the named limit is violated; the recursion terminates for a positive minimum section time.", "quantifier": "every segment and constraint set", "why_tests_cant": "Existence over a continuum; termination.", "anchors": ["mav_trajectory_generation_ros/src/feasibility_recursive.cpp: 104-304"]}
{"id": "C59", "title": "Analytic check: a feasible verdict is sound (no false positives, README)", "statement": "If FeasibilityAnalytic::checkInputFeasibility returns kInputFeasible then at every time all limits hold, in particular roll and pitch rates.", "quantifier": "every segment and constraint set", "why_tests_cant": "Needs a worst-case segment; random benchmarks rarely hit it.", "anchors": ["mav_trajectory_generation_ros/src/feasibility_analytic.cpp: 42-233", "README.md: Checking Input Feasibility"]}
{"id": "C60", "title": "Trajectory-level feasibility combines segments", "statement": "checkInputFeasibilityTrajectory returns feasible iff the trajectory is non-empty and every segment is feasible; otherwise it returns the verdict of the first segment that is not feasible; an empty trajectory is indeterminable.", "quantifier": "every trajectory, every segment check", "why_tests_cant": "All lengths.", "anchors": ["mav_trajectory_generation_ros/src/feasibility_base.cpp: checkInputFeasibilityTrajectory (97-107)"]}
{"id": "C61", "title": "Sampling check verdicts", "statement": "FeasibilitySampling reports infeasible only if some sampled instant violates the limit, checks every multiple of the sampling interval up to the segment end, and terminates for a positive interval.", "quantifier": "every segment, interval", "why_tests_cant": "Unbounded number of samples.", "anchors": ["mav_trajectory_generation_ros/src/feasibility_sampling.cpp: 40-132"]}
{"id": "C62", "title": "Sampler node publishes each trajectory once, in order, and only within its duration", "statement": "For every sequence of messages, timer ticks and stop requests: published sample times for a trajectory are 0, dt, 2dt, ... <= duration in order without gaps, nothing is published after stop or after the end until a new trajectory arrives, a new trajectory restarts at 0, empty messages are ignored.", "quantifier": "every interleaving of events", "why_tests_cant": "Unbounded interleavings.", "anchors": ["mav_trajectory_generation_ros/src/trajectory_sampler_node.cpp: 23-134"]}
{"id": "C63", "title": "Segment composition does not depend on output aliasing", "statement": "getSegmentWithAppendedDimension and getSegmentWithSingleDimension give the same result when the output segment object is one of the operands (this or the argument) as when it is a separate object.", "quantifier": "every pair of segments and every choice of output object", "why_tests_cant": "aliasing combinations with different coefficient counts are not enumerable by tests; the result silently mixes up dimensions", "anchors": ["mav_trajectory_generation/src/segment.cpp: getSegmentWithSingleDimension (187-199), getSegmentWithAppendedDimension (201-262)"]}
{"id": "C64", "title": "A trajectory can be rebuilt from its own segments", "statement": "tr.setSegments(tr.segments()) leaves the trajectory unchanged and tr.addSegments(tr.segments()) doubles it, i.e. the result is the same as with a copy of the segment vector.", "quantifier": "every non-empty trajectory", "why_tests_cant": "Aliasing of an argument with a member; the result of the second call is undefined and may look right in a test.", "anchors": ["mav_trajectory_generation/include/mav_trajectory_generation/trajectory.h: setSegments, addSegments, segments (54-79)"]}
{"id": "C65", "title": "Trajectory equality", "statement": "operator== of two trajectories returns true exactly when they consist of the same segments (dimension, time and coefficients), and never reads out of range.", "quantifier": "every pair of trajectories", "why_tests_cant": "All lengths, coefficient counts and positions of the first difference.", "anchors": ["mav_trajectory_generation/src/trajectory.cpp: Trajectory::operator== (34-46)", "mav_trajectory_generation/src/segment.cpp: Segment::operator== (28-39)"]}
{"id": "C66", "title": "optimize() always leaves a trajectory that solves the posed problem", "statement": "Whatever points the optimiser evaluates and whatever it returns or throws, after optimize() returns the trajectory meets all vertex constraints, is continuous up to derivative N/2-1 and has the stored segment times; with the time-only methods it also is the cheapest one for those times.", "quantifier": "every problem, every sequence of earlier calls, every optimiser behaviour", "why_tests_cant": "All optimiser behaviours, including failures half-way.", "anchors": ["mav_trajectory_generation/include/mav_trajectory_generation/impl/polynomial_optimization_nonlinear_impl.h: optimizeTime (133-168), optimizeTimeMellingerOuterLoop (170-259), optimizeTimeAndFreeConstraints (409-523)"]}
{"id": "C67", "title": "Objective value and reported total cost", "statement": "The objective evaluated by the optimiser is trajectory cost + time penalty (penalty * T^2, or penalty * T for the Richter methods) + soft-constraint cost of the trajectory it stores, and getTotalCostWithSoftConstraints returns that objective for the stored trajectory.", "quantifier": "every problem, variable vector, method and constraint list", "why_tests_cant": "All variable vectors; a different cap shows only for large violations.", "anchors": ["mav_trajectory_generation/include/mav_trajectory_generation/impl/polynomial_optimization_nonlinear_impl.h: objectiveFunctionTime (556-615), objectiveFunctionTimeAndConstraints (660-742), getTotalCostWithSoftConstraints (266-284)"]}
{"id": "C68", "title": "Table of sampled states", "statement": "sampledTrajectoryStatesToFile writes one row per sampling instant k*0.01 s before the end of the trajectory, holding the time label, position..snap, orientation, angular velocity and angular acceleration of the trajectory at that instant, with the running sum of segment times in the last column; no other file changes.", "quantifier": "every trajectory of positive duration", "why_tests_cant": "Depends on the ratio of segment count to duration; short segments write outside the matrix.", "anchors": ["mav_trajectory_generation/src/io.cpp: sampledTrajectoryStatesToFile (221-279)"]}
{"id": "C69", "title": "Sampling a time range", "statement": "sampleTrajectoryInRange(min,max,dt) yields exactly the samples at min + k*dt that lie in [min,max], each holding the derivatives of the trajectory at its time label.", "quantifier": "every trajectory, 0 <= min <= max <= duration, dt > 0", "why_tests_cant": "Depends on where min falls inside its segment.", "anchors": ["mav_trajectory_generation/src/trajectory_sampling.cpp: sampleTrajectoryInRange (45-110)", "mav_trajectory_generation/src/trajectory.cpp: evaluateRange"]}
{"id": "C70", "title": "Analytic check: an infeasible verdict is justified, and the recursion terminates", "statement": "If FeasibilityAnalytic::checkInputFeasibility returns an infeasible verdict then the limit it names is violated at some time of the segment; for a positive minimum section time the check ends after a number of halvings bounded by the duration, with a verdict.", "quantifier": "every segment with a non-negative duration and every constraint set", "why_tests_cant": "Unbounded recursion depth and every shape of segment.", "anchors": ["mav_trajectory_generation_ros/src/feasibility_analytic.cpp: 42-233"]}
{"id": "C71", "title": "Timing registry reports the statistics of the measured durations", "statement": "After any sequence of timer constructions (by tag or handle), starts, stops, destructions and resets, each handle's sample count, total and mean are those of the durations recorded for it, the variance and the rate are those of the last 50, and minimum and maximum are the extreme durations; a lookup by tag gives the same as by handle, an unknown tag is registered with no samples, and Print has one row per known tag in tag order. Use of an unknown handle or a destroyed timer is undefined.", "quantifier": "every call sequence with fewer than 2^31 samples per handle, every tag and every clock reading", "why_tests_cant": "Call sequences are unbounded; window wrap-around, destruction of running timers and resets interleave arbitrarily.", "anchors": ["mav_trajectory_generation/src/timing.cpp: 32-191", "mav_trajectory_generation/include/mav_trajectory_generation/timing.h: Accumulator, Timing, MiniTimer"]}
{"id": "C72", "title": "Matrices handed out by the linear optimiser describe its trajectory", "statement": "getA and getAInverse are block diagonal inverses of each other; the stacked coefficients of the stored segments are getAInverse*getM*(fixed;free), i.e. getA maps them to getM*(fixed;free); getR is symmetric and positive semidefinite and half its quadratic form at (fixed;free), summed over the dimensions, is computeCost.", "quantifier": "every valid set-up, every number of segments and dimensions, every choice of free constraints", "why_tests_cant": "The sizes and block structure depend on the number of segments and on which derivatives are constrained.", "anchors": ["mav_trajectory_generation/include/mav_trajectory_generation/impl/polynomial_optimization_linear_impl.h: computeCost, getAInverse, getM, getR, getA (510-555)"]}
{"id": "C73", "title": "Rest-to-rest solutions scale with time", "statement": "If all prescribed derivatives of the vertices are zero, and the first vertex prescribes position and all derivatives below derivative_to_optimize, then solveLinear with all segment times multiplied by a factor c gives the same path run slower by c: every derivative of order k at time c*t is that of the first solution at t divided by c^k.", "quantifier": "every number of segments and dimensions, every N = 2h, every derivative to optimise, every c > 0; segment times >= 2^-52 s before and after", "why_tests_cant": "Relates the solutions of two optimisation problems for all inputs; it rests on the optimum being unique.", "anchors": ["mav_trajectory_generation/include/mav_trajectory_generation/impl/polynomial_optimization_linear_impl.h: solveLinear (339-379), updateSegmentTimes (285-305)"]}
{"id": "C74", "title": "Magnitude constraints of the optimiser object", "statement": "The constraints an object of the nonlinear optimiser uses (soft cost, total cost, endpoint bounds, time scaling) are exactly those added with addMaximumMagnitudeConstraint, in order, whatever calls were made in between; with hard constraints nlopt is given the same ones; an addition that returns false leaves the object unchanged.", "quantifier": "every sequence of calls on a new object, every optimiser behaviour, soft and hard constraints", "why_tests_cant": "All orders of calls, in particular adding constraints between two setups.", "anchors": ["mav_trajectory_generation/include/mav_trajectory_generation/impl/polynomial_optimization_nonlinear_impl.h: addMaximumMagnitudeConstraint (525-553), setupFromVertices (55-89), optimize (96-130)"]}
{"id": "C75", "title": "Drawn path", "statement": "Drawing a sampled trajectory yields an array whose last marker is a line strip through the positions of all points in order; all markers carry the given frame, action ADD, no expiry and pairwise different ids 0, 1, ...; earlier content of the array plays no role.", "quantifier": "every list of points, distance, additional marker group and earlier array, every number type (doubles included)", "why_tests_cant": "Array contents depend on the number of drawn poses for every trajectory and distance.", "anchors": ["mav_trajectory_generation_ros/src/ros_visualization.cpp: drawMavSampledTrajectoryWithMavMarker (128-194), appendMarkers (33-44), setMarkerProperties (47-59)"]}
{"id": "C76", "title": "Spacing of drawn poses", "statement": "A point is drawn as a pose exactly when the path length from the previously drawn pose exceeds the distance; each drawn pose is shown by its body axes, acceleration and velocity arrows and the additional markers moved rigidly to the pose; distance 0 disables the poses; the selection does not depend on where the trajectory lies.", "quantifier": "every list of points with unit orientations, every distance and marker group", "why_tests_cant": "The rule is about accumulated path lengths of arbitrary point sequences.", "anchors": ["mav_trajectory_generation_ros/src/ros_visualization.cpp: drawMavSampledTrajectoryWithMavMarker (142-181)", "mav_trajectory_generation_ros/include/mav_trajectory_generation_ros/ros_visualization.h: documentation of drawMavTrajectory"]}
{"id": "C77", "title": "Thinning by time", "statement": "drawMavSampledTrajectorybyTime draws a line through the first and last point and those points between them that are at least dt apart in time, and no two drawn points are closer than dt.", "quantifier": "every list of points and every dt", "why_tests_cant": "All sequences of time stamps, including those beyond 32 bits and intervals that do not fit.", "anchors": ["mav_trajectory_generation_ros/src/ros_visualization.cpp: drawMavSampledTrajectorybyTime (74-98)"]}
{"id": "C78", "title": "Drawing vertices", "statement": "drawVertices makes the array a single green line strip through the position constraints of the vertices in order, vertices without position skipped, labelled with the frame.", "quantifier": "every list of vertices and every earlier array", "why_tests_cant": "Every earlier content of the array and every mix of vertices.", "anchors": ["mav_trajectory_generation_ros/src/ros_visualization.cpp: drawVertices (196-229)"]}
{"id": "C79", "title": "Vertices of a trajectory", "statement": "drawVerticesFromTrajectory draws the line through the positions of the trajectory at 0, at the end of every segment and at the end.", "quantifier": "every well-formed trajectory with at least three dimensions", "why_tests_cant": "All numbers of segments and segment times.", "anchors": ["mav_trajectory_generation_ros/src/ros_visualization.cpp: drawVerticesFromTrajectory (231-254)"]}
{"id": "C80", "title": "Marker groups", "statement": "transform moves all markers of a group by one rigid motion (distances kept, two transforms compose to one); getMarkers hands out the markers with position and size multiplied by the scale, after the existing ones when appending; each setter changes its field in every marker and nothing else.", "quantifier": "every group, every translation and unit quaternion, every scale", "why_tests_cant": "Rigidity and composition are statements over all rotations.", "anchors": ["mav_visualization/src/marker_group.cpp: getMarkers (25-55), setters (57-99), transformMarker, transform (108-134)"]}
{"id": "C81", "title": "Drawing a trajectory", "statement": "drawMavTrajectory(WithMavMarker) draws a line through the positions at the times 0, 0.1, 0.2, ... before the end of the trajectory and up to its goal; a trajectory with fewer than three dimensions leaves the array as it is.", "quantifier": "every well-formed trajectory of positive duration, at least three dimensions, every distance and marker group", "why_tests_cant": "All durations and segmentations.", "anchors": ["mav_trajectory_generation_ros/src/ros_visualization.cpp: drawMavTrajectory (65-72), drawMavTrajectoryWithMavMarker (111-126)"]}
{"id": "C82", "title": "Vehicle markers", "statement": "The markers of each vehicle group have pairwise different ids within their namespace and a valid orientation, so that they all stay visible and turn with the vehicle.", "quantifier": "both vehicle classes, simple and full hexacopter, every pose", "why_tests_cant": "Visual defect; a test would have to render the markers.", "anchors": ["mav_visualization/src/hexacopter_marker.cpp: createHexacopter (25-151)", "mav_visualization/src/leica_marker.cpp: createLeica (23-96)"]}
{"id": "C83", "title": "Axes and arrows", "statement": "drawAxes and drawAxesArrows show the same three axes of a pose, red, green and blue, of the given length; drawArrowPositionOrientation shows an arrow at the given pose; whatever the marker held before.", "quantifier": "every position, unit quaternion, length and earlier marker", "why_tests_cant": "Holds for all rotations; relates two drawing functions.", "anchors": ["mav_visualization/include/mav_visualization/helpers.h: drawAxes (90-116), drawArrowPositionOrientation (118-133), drawArrowPoints (135-150), drawAxesArrows (152-166)"]}
{"id": "C84", "title": "Example planner joins the states", "statement": "planTrajectory of the example planner returns a trajectory from the current position and velocity to the goal position and velocity, with zero acceleration, jerk and snap at both ends, and reports whether it found one.", "quantifier": "every current state, goal of size 3, positive limits, every behaviour of nlopt within its bounds", "why_tests_cant": "All states, goals and optimiser behaviours.", "anchors": ["mav_trajectory_generation_example/src/example_planner.cc: planTrajectory (48-117)"]}
{"id": "C85", "title": "Planner with limits", "statement": "planTrajectory with explicit start and limits returns a trajectory whose velocity and acceleration stay within the limits at all times and which joins the start state to the goal state.", "quantifier": "every dimension, start, goal, positive limits, every behaviour of nlopt within its bounds", "why_tests_cant": "A norm of polynomials bounded at every instant, for all problems.", "anchors": ["mav_trajectory_generation_example/src/example_planner_6dof.cc: planTrajectory (122-179)"]}
{"id": "C86", "title": "6-DoF planner", "statement": "planTrajectory of the 6-DoF planner accepts goals of size 3 (position), 4 (position, yaw) and 6 (position, rotation vector); the plan joins the current to the goal state, the linear part keeps the linear limits and the angular part the angular limits; other sizes are refused.", "quantifier": "every current pose and velocities, every goal, positive limits, every behaviour of nlopt within its bounds", "why_tests_cant": "All poses, goals and combinations of the two durations.", "anchors": ["mav_trajectory_generation_example/src/example_planner_6dof.cc: planTrajectory (57-119)", "mav_trajectory_generation/src/trajectory.cpp: getTrajectoryWithAppendedDimension"]}
{"id": "C87", "title": "Segment violation scaling", "statement": "runSegmentViolationScalingTime returns a smooth trajectory that meets all constraints of the vertices; a segment that violates a limit gets more time and one within both limits no more than before; every segment gets at least 0.1 s; the reported cost is that of the returned trajectory.", "quantifier": "every list of vertices, every positive limits", "why_tests_cant": "All problems and all maxima of their solutions.", "anchors": ["mav_trajectory_generation_ros/src/time_evaluation_node.cpp: runSegmentViolationScalingTime (483-593), computeMinMaxMagnitudeAllSegments (717-741)"]}
{"id": "C88", "title": "Benchmark lengths and distances", "statement": "computePathLength is the length of the polygon through the points, at least the distance of any two; computePointLineDistance is the smallest distance of a point from the line through two others; the nominal length is the length of the polygon through the positions of the vertices, skipping vertices without a position.", "quantifier": "every list of points and vertices, every three points, also in binary64", "why_tests_cant": "All lists and positions, including coinciding points.", "anchors": ["mav_trajectory_generation_ros/src/time_evaluation_node.cpp: computePathLength (793-807), computePointLineDistance (782-791), runBenchmark (161-177)"]}
{"id": "C89", "title": "Evaluation of a trajectory in the benchmark", "statement": "evaluateTrajectory reports the duration, the exact maxima of speed and acceleration, whether they exceed the limits by more than 0.0001, the length of the path sampled every 0.01 s, and the largest distance of the samples of each segment from its straight line with the area in between; the other fields are kept.", "quantifier": "every trajectory of dimension 3, every limits and earlier result, also in binary64", "why_tests_cant": "Maxima over a continuum, for all trajectories.", "anchors": ["mav_trajectory_generation_ros/src/time_evaluation_node.cpp: evaluateTrajectory (632-715)"]}
{"id": "C90", "title": "Benchmark run", "statement": "runBenchmark appends exactly one result per method, in order and under its name, each with the trial, segment count, nominal length, success flag, cost and measures of its own trajectory; earlier results are kept; when visualising, one marker per method follows that of the vertices, in its own namespace and colour, showing its path.", "quantifier": "every vertices, limits, optimiser behaviour and earlier results, every number type", "why_tests_cant": "All behaviours of the optimiser and every earlier state of the result that is reused for all methods.", "anchors": ["mav_trajectory_generation_ros/src/time_evaluation_node.cpp: runBenchmark (143-340), visualizeTrajectory (595-630), createMarkerForPath (743-780)"]}
{"id": "C91", "title": "Sampled maximum candidates", "statement": "computeSegmentMaximumMagnitudeCandidatesBySampling appends a strictly increasing list that starts with t_start, ends with t_stop, and in between holds exactly the sample times at which the magnitude turns while its derivative has a norm below 0.01; the magnitude over the interval is largest at one of the candidates up to the sampling interval.", "quantifier": "every segment, derivative, interval and positive sampling interval", "why_tests_cant": "All segments and sampling intervals; the maximum is over a continuum.", "anchors": ["mav_trajectory_generation/include/mav_trajectory_generation/impl/polynomial_optimization_linear_impl.h: computeSegmentMaximumMagnitudeCandidatesBySampling (411-457)"]}
{"id": "C92", "title": "Random path of the timing evaluation", "statement": "createRandomVerticesPath returns n+1 vertices with positions, first and last at rest, the inner ones otherwise free, consecutive ones at most twice the average distance apart; timeEval then sets up and solves the problem and the solution meets all constraints.", "quantifier": "every behaviour of the random generator, every segment count, dimension and average distance", "why_tests_cant": "All sequences of random numbers.", "anchors": ["mav_trajectory_generation/src/polynomial_timing_evaluation.cpp: createRandomVerticesPath (34-89), timeEval (91-115)"]}
{"id": "C93", "title": "Reference values of the tests", "statement": "getMaximumMagnitude is attained by the trajectory and exceeded by at most the Lipschitz constant times dt; computeCostNumeric differs from the integral of the squared norm by at most (L T + B) dt; createRandomDouble stays within its bounds and attains them; checkMatrices accepts exactly when all coefficients differ by less than the tolerance.", "quantifier": "every trajectory, derivative, positive interval, matrix of real numbers and random number", "why_tests_cant": "These functions are what the tests compare against; they are not tested themselves.", "anchors": ["mav_trajectory_generation/include/mav_trajectory_generation/test_utils.h: createRandomDouble (31-35), checkMatrices (37-41), getMaximumMagnitude (43-54), computeCostNumeric (56-64)"]}
{"id": "C94", "title": "Rounding error of evaluate", "statement": "In binary64, a finite result of Polynomial::evaluate(t, d) (and each component of Segment::evaluate) differs from the exact d-th derivative by at most 2 (N-d) 2^-53 times the d-th derivative at |t| of the polynomial with absolute coefficients, plus 2^-1073 times 1 + |t| + ... + |t|^(N-d-1); the result is finite when those quantities at max(1,|t|) are at most 2^1000.", "quantifier": "every coefficient vector of at most 22 doubles, every double t, every derivative", "why_tests_cant": "All 2^64 values of each coefficient and of t; the exact value is a real number that no test computes.", "anchors": ["mav_trajectory_generation/include/mav_trajectory_generation/polynomial.h: evaluate (136-149)", "mav_trajectory_generation/src/segment.cpp: evaluate (51-58)"]}
{"id": "C95", "title": "Local time of a trajectory in doubles", "statement": "In binary64, for 0 <= t <= getMaxTime(), Trajectory::evaluate evaluates one segment i whose exact time range contains t up to rounding, at a local time that differs from t minus the exact start time by at most i+4 relative roundings of the exact end time of the segment; getMaxTime() is the exact sum of the segment times up to one rounding per segment.", "quantifier": "every trajectory with non-negative segment times and finite duration, every double t in range", "why_tests_cant": "All doubles and any number of segments; the exact sums are not available to a test.", "anchors": ["mav_trajectory_generation/src/trajectory.cpp: evaluate (48-79)", "mav_trajectory_generation/include/mav_trajectory_generation/trajectory.h: setSegments, addSegments"]}
{"id": "C96", "title": "Covariance ellipsoid", "statement": "drawCovariance3D shows exactly the points that lie within n_sigma standard deviations of mu in every direction: for every 3x3 matrix cov (symmetric or not) with w^T cov w >= 0, the ellipsoid of the marker (unit ball of diameter 1, scaled, rotated by the quaternion, moved) is { p : (w.(p-mu))^2 <= n_sigma^2 w^T cov w for all w }; orientation is a unit quaternion also when the solver returns a left-handed system of eigenvectors, scale is non-negative, and the members not mentioned keep their values.", "quantifier": "every mean, every covariance, every n_sigma >= 0, every result of the eigenvalue solver that consists of orthonormal eigenvectors, every previous marker", "why_tests_cant": "Equality of two infinite sets of points for all matrices and all choices of eigenvectors.", "anchors": ["mav_visualization/include/mav_visualization/helpers.h: drawCovariance3D (63-88)"]}
{"id": "C97", "title": "Result table of the benchmark", "statement": "Read by its column names, the text of outputResultsToString gives back every member of every result in order, one line of 14 cells per result below the header; outputResultsToFile replaces the contents of the named file by it and touches no other file. Whatever the optimisers, measured times and random vertices are, main either stops with code 1 after a trial at which ROS is shut down, writing nothing, or runs the trials 0 to 39 with 1, 2, 5, 10, 20, 30, 40, 50 segments, five each, and writes 320 lines, eight methods per trial, in that order.", "quantifier": "every list of results, every text of numbers without comma, space and line feed, every file system, every outcome of the trials", "why_tests_cant": "Needs a running ROS node, random vertices and real optimisations; a test would see one run of one machine.", "anchors": ["mav_trajectory_generation_ros/src/time_evaluation_node.cpp: outputResultsToString (809-830)", "mav_trajectory_generation_ros/src/time_evaluation_node.cpp: outputResultsToFile (832-845)", "mav_trajectory_generation_ros/src/time_evaluation_node.cpp: main (849-902)"]}
{"id": "C98", "title": "Rounding of scaleSegmentTimes", "statement": "In binary64, for a finite scaling of at most 2^40 that scaleSegmentTimes accepts, every segment time becomes its product with the scaling up to one rounding, and for every d and every real t the d-th derivative of each polynomial at scaling * t, times scaling^d, equals the former d-th derivative at t up to 2 N 2^-53 times the d-th derivative at |t| of the polynomial with absolute coefficients, plus 2^-1075 per coefficient for underflow; nothing overflows for coefficients up to 2^500 and times up to 2^900; getMaxTime() is the exact scaled total time up to K+1 roundings.", "quantifier": "every trajectory of doubles with N <= 22, every accepted scaling up to 2^40, every derivative and time", "why_tests_cant": "The bound quantifies over all coefficients, factors and times; a test compares a few values with a tolerance chosen by hand.", "anchors": ["mav_trajectory_generation/src/trajectory.cpp: scaleSegmentTimes (363-380)", "mav_trajectory_generation/src/polynomial.cpp: scalePolynomialInTime (199-205)"]}
{"id": "C99", "title": "Rounding of polynomial arithmetic", "statement": "In binary64, with finite results: operator* differs from the product of the two functions at every real t by at most (min(N1,N2)+2) 2^-53 times the product at |t| of the polynomials with absolute coefficients, plus min(N1,N2) 2^-1074 per coefficient; operator+ by at most 2^-53 times the sum of those at |t|; multiplication by a number, getCoefficients(d) and offsetPolynomial by one rounding (and 2^-1075 per coefficient); products of operands up to 2^470 do not overflow.", "quantifier": "every polynomial of doubles with at most 22 coefficients, every real time and derivative", "why_tests_cant": "Error bounds for all coefficients and times; tests compare a few products with a fixed tolerance.", "anchors": ["mav_trajectory_generation/src/polynomial.cpp: convolve (162-180)", "mav_trajectory_generation/include/mav_trajectory_generation/polynomial.h: operators (71-86), getCoefficients (98-113), offsetPolynomial"]}
{"id": "C100", "title": "Sampling a window in doubles", "statement": "In binary64, for t_start before the end of the trajectory: sample k of evaluateRange is a value of a segment j, not past its end, at a local time that equals t_start + k dt minus the exact start of j up to (k + j - i) 2^-52 (max time + dt) and the rounding of the start of the first segment i; label k is the exact start of i plus k dt up to k 2^-53 (t_end + dt) and the same rounding; the call ends with a result whenever t_start <= t_end and dt >= 2^-52 (t_end + dt).", "quantifier": "every trajectory of doubles with nonnegative times, every window and every dt up to 2^1000", "why_tests_cant": "The accumulated rounding depends on all steps, and the loop that never ends needs a window 2^53 steps long.", "anchors": ["mav_trajectory_generation/src/trajectory.cpp: evaluateRange (81-141)", "mav_trajectory_generation/src/trajectory_sampling.cpp: sampleTrajectoryInRange (47-76)"]}
{"id": "C101", "title": "Translating a trajectory", "statement": "offsetTrajectory(o) returns true exactly if o has an entry for each of the first min(D,3) dimensions, and otherwise changes nothing; after success every segment keeps its time, evaluate(t) at every t up to the end of the trajectory is moved by o in the first three dimensions, and further dimensions and all derivatives are unchanged.", "quantifier": "every trajectory whose segments agree with D and N >= 1, every offset vector, every time up to the end and every derivative order", "why_tests_cant": "A failure in some segment or a dimension count that is not tested would leave a path that is moved only partly.", "anchors": ["mav_trajectory_generation/src/trajectory.cpp: offsetTrajectory (262-274)", "mav_trajectory_generation/src/segment.cpp: offsetSegment (264-276)"]}
{"id": "C102", "title": "Estimated segment times in doubles", "statement": "In double precision estimateSegmentTimes and estimateSegmentTimesVelocityRamp return, for vertices with pairwise different consecutive positions, one positive number per segment; the velocity ramp never returns a NaN or less than 0.1 s, whatever the positions and limits, and the nfabian time is at least twice the time needed at v_max up to one rounding.", "quantifier": "every list of vertices in doubles; ramp: all limits including NaN and infinities; nfabian: limits between 2^-100 and 2^100, coordinates up to 2^200 in size, consecutive positions that differ by 2^-200 in some coordinate, and every exp that returns values in [0, 1] for arguments that are not positive", "why_tests_cant": "A zero or NaN time aborts the optimiser later, and underflow of a squared distance or a NaN in the comparison inside std::max occurs only for inputs far from those of the tests.", "anchors": ["mav_trajectory_generation/src/vertex.cpp: estimateSegmentTimesVelocityRamp (233-253), estimateSegmentTimesNfabian (255-272), computeTimeVelocityRamp (274-290)"]}
