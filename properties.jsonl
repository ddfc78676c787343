{"id": "C01", "title": "Keys are unique under every thread schedule", "statement": "Calls to KeyGenerator::getNextKey made by any number of threads return pairwise different keys, no matter how the threads are interleaved, as long as fewer than 2^64 calls are made in the process; the first call returns 1. After 2^64 calls the counter wraps and keys repeat.", "quantifier": "every number of threads, every interleaving of the lock / increment / unlock steps, every number of calls below 2^64", "why_tests_cant": "A test runs one schedule out of exponentially many and cannot reach 2^64 calls.", "anchors": ["curves/src/KeyGenerator.cpp: KeyGenerator::getNextKey"]}
{"id": "C02", "title": "A manager stays internally consistent under any history", "statement": "Starting from an empty coefficient manager, any sequence of insertCoefficient(s), addCoefficientAtEnd, removeCoefficientAtTime, updateCoefficientByKey, updateCoefficients, modifyCoefficientsValuesInBatch, clear and of modifyCoefficient calls that move a coefficient to a time not yet in use leaves the manager such that checkInternalConsistency passes, size() equals the number of keys, every key leads to exactly one coefficient, and no dangling iterator is followed; several managers sharing the key generator never hold a common key.", "quantifier": "every finite sequence of operations on any number of managers, for every non-NaN time, every coefficient value, and fewer than 2^64 keys handed out", "why_tests_cant": "The state space is unbounded: consistency is an invariant of all histories, a test checks a handful of them.", "anchors": ["curves/include/curves/LocalSupport2CoefficientManager-inl.hpp: insertCoefficient, addCoefficientAtEnd, modifyCoefficient, removeCoefficientAtTime, updateCoefficientByKey, clear, checkInternalConsistency"]}
{"id": "C03", "title": "insertCoefficient is map assignment with a stable key", "statement": "insertCoefficient(t,c) on any consistent manager succeeds; afterwards the coefficient at time t is c, coefficients at all other times are untouched, size grows by one iff t was absent, the key is the existing key of t if there was one and otherwise a key that was not in the manager before. Inserting the same (t,c) twice is the same as inserting it once.", "quantifier": "every consistent manager state reachable by any history, every time, every coefficient", "why_tests_cant": "Tests insert a few hand picked times; the claim is about all states and all positions relative to the existing knots.", "anchors": ["curves/include/curves/LocalSupport2CoefficientManager-inl.hpp: insertCoefficient, hasCoefficientAtTime"]}
{"id": "C04", "title": "Bulk insertion equals one-by-one insertion, last value wins", "statement": "insertCoefficients(times, values) aborts iff the two vectors have different length; otherwise afterwards the value stored at each time is the last value given for that time (or the previous one if the time is not mentioned), the result does not depend on the order in which pairwise different times are listed, and the keys appended to outKeys are, position by position, the keys under which those times are stored.", "quantifier": "every manager state, all vectors of times and values of any length, in any order, with or without repetitions", "why_tests_cant": "Orderings and repetitions grow factorially with the length of the input.", "anchors": ["curves/include/curves/LocalSupport2CoefficientManager-inl.hpp: insertCoefficients"]}
{"id": "C05", "title": "Time listing is sorted, duplicate free and complete", "statement": "getTimes always returns strictly increasing times; a time is listed iff hasCoefficientAtTime says it is present; getKeys lists, in the same order, the keys of those coefficients, without repetition; size() is their common length; getMinTime/getMaxTime are the first and last listed times, and both are 0 for an empty manager.", "quantifier": "every state reachable by any history", "why_tests_cant": "An ordering claim over unbounded histories.", "anchors": ["curves/include/curves/LocalSupport2CoefficientManager-inl.hpp: getTimes, getKeys, appendKeys, hasCoefficientAtTime, size, getMinTime, getMaxTime"]}
{"id": "C06", "title": "Look-ups by key and by time agree", "statement": "For every key listed by getKeys, getCoefficientTimeByKey returns the time at the same position of getTimes and getCoefficientByKey returns the coefficient stored at that time; for any other key both calls abort the process with a failed CHECK rather than returning data.", "quantifier": "every state reachable by any history, every key value", "why_tests_cant": "Needs to hold for all key values and all histories, including histories with removals and moved coefficients.", "anchors": ["curves/include/curves/LocalSupport2CoefficientManager-inl.hpp: getCoefficientByKey, getCoefficientTimeByKey, getKeys, getTimes"]}
{"id": "C07", "title": "Removal removes exactly one coefficient", "statement": "removeCoefficientAtTime(t) aborts iff there is no coefficient at t; otherwise afterwards t is absent, its key is unknown, and every other coefficient keeps its time, key and value. Inserting at a fresh time and removing it again restores the previous contents.", "quantifier": "every consistent state, every time", "why_tests_cant": "All states and all positions; aliasing between the two internal maps only shows in some histories.", "anchors": ["curves/include/curves/LocalSupport2CoefficientManager-inl.hpp: removeCoefficientAtTime"]}
{"id": "C08", "title": "Updating by key changes one value and nothing else", "statement": "updateCoefficientByKey(k,c) aborts iff k is not a key of the manager; otherwise the coefficient of k becomes c and all times, keys and other coefficients are unchanged. updateCoefficients(map) gives the same final contents for every iteration order of the (unordered) argument map.", "quantifier": "every consistent state, every key, every coefficient, every permutation of the argument map", "why_tests_cant": "The iteration order of a hash map is not under the control of a test.", "anchors": ["curves/include/curves/LocalSupport2CoefficientManager-inl.hpp: updateCoefficientByKey, updateCoefficients"]}
{"id": "C09", "title": "Active coefficients bracket the query time", "statement": "getCoefficientsAt(t) succeeds iff the manager holds at least two coefficients and getMinTime() <= t <= getMaxTime(). On success the two returned coefficients are neighbours in time order, t lies in [t0,t1), or t is the maximum time and the second one is the last coefficient. It never fails for a time inside the range of a curve with two or more coefficients.", "quantifier": "every consistent state, every non-NaN query time (strict weak order on times, including IEEE doubles with signed zeros)", "why_tests_cant": "Off by one behaviour at the ends and at knots has to be excluded for all knot sequences.", "anchors": ["curves/include/curves/LocalSupport2CoefficientManager-inl.hpp: getCoefficientsAt"]}
{"id": "C10", "title": "getTimesInWindow returns the times of the window, except the first knot", "statement": "For a manager with at least two coefficients, getTimesInWindow(out, beg, getMaxTime()) with beg > getMinTime() yields exactly the coefficient times >= beg in increasing order. The natural claim that this also holds for beg == getMinTime() is false: the first coefficient time is then missing. With a single coefficient, or none, and arguments passing the CHECKs, the call has undefined behaviour. With any other end time or a smaller begin time the call aborts.", "quantifier": "every consistent state, every begin and end time", "why_tests_cant": "The defect needs the boundary case of the window; the guarantee is for all windows.", "anchors": ["curves/include/curves/LocalSupport2CoefficientManager-inl.hpp: getTimesInWindow"]}
{"id": "C11", "title": "Batch modification overwrites a contiguous run of values only", "statement": "modifyCoefficientsValuesInBatch(times, values) with times being a non-empty contiguous run of the coefficient times overwrites exactly these values in order and changes nothing else. If the vectors have different lengths it aborts; if the first time is not a coefficient time, the vectors are empty, or the run extends past the last coefficient, the behaviour is undefined; if a later time does not match its successor coefficient the process aborts.", "quantifier": "every consistent state, all vectors of times and values", "why_tests_cant": "Every run in every state; the undefined cases cannot be reliably observed by a test.", "anchors": ["curves/include/curves/LocalSupport2CoefficientManager-inl.hpp: modifyCoefficientsValuesInBatch"]}
{"id": "C12", "title": "Appending at the end", "statement": "addCoefficientAtEnd(t,c) on a non-empty manager aborts iff t is not strictly greater than getMaxTime(); otherwise t becomes the new maximum time with coefficient c under a fresh key, which is appended to outKeys, and everything else is unchanged. On an empty manager with t > 0 it decrements the end iterator of an empty map (undefined behaviour); with t <= 0 it aborts.", "quantifier": "every consistent state, every time", "why_tests_cant": "All states; the empty case is undefined behaviour.", "anchors": ["curves/include/curves/LocalSupport2CoefficientManager-inl.hpp: addCoefficientAtEnd"]}
{"id": "C13", "title": "Moving a coefficient keeps its key, unless the target time is taken", "statement": "modifyCoefficient(it,t,c) with t not in use moves the coefficient to time t with value c under the same key and leaves all others unchanged. If t equals the time of the coefficient itself, the coefficient is lost and its key afterwards refers to freed memory, so the next access through the key is undefined behaviour. If t is the time of another coefficient, the new value is dropped, the moved coefficient disappears, and two keys refer to the same coefficient, so checkInternalConsistency aborts.", "quantifier": "every consistent state, every coefficient in it, every target time", "why_tests_cant": "Use after free through a stale map entry may go unnoticed when run; all states must be considered.", "anchors": ["curves/include/curves/LocalSupport2CoefficientManager-inl.hpp: modifyCoefficient"]}
{"id": "C14", "title": "clear forgets everything", "statement": "After clear() the manager is observably equal to a newly constructed one: size 0, no times, no keys, getMinTime() = getMaxTime() = 0, every key look-up aborts, getCoefficientsAt returns false; and any history replayed after clear() yields the same times and values as replayed on a new manager, with keys that are all different from those used before.", "quantifier": "every state, every history replayed after clear", "why_tests_cant": "Quantifies over histories before and after the call.", "anchors": ["curves/include/curves/LocalSupport2CoefficientManager-inl.hpp: clear"]}
{"id": "C15", "title": "Down-sampling keeps one knot per n measurements and always the newest one", "statement": "For a SlerpSE3Curve (same code in the Discrete/SE2 curves) with sampling ratio n >= 1, feeding m single measurements with strictly increasing times through extend leaves min(m,2) + ceil(max(m-2,0)/n) coefficients, the last of which carries the time and value of the newest measurement; the first two measurements are always kept; no check fails and no undefined behaviour occurs.", "quantifier": "every ratio n >= 1, every number m of measurements, all strictly increasing time sequences and all values", "why_tests_cant": "Induction over unbounded measurement sequences for every ratio.", "anchors": ["curves/include/curves/SlerpSE3Curve.hpp: SamplingPolicy::extend<SlerpSE3Curve>", "curves/src/SlerpSE3Curve.cpp: extend, setSamplingRatio", "curves/include/curves/LocalSupport2CoefficientManager-inl.hpp: addCoefficientAtEnd, modifyCoefficient"]}
{"id": "C16", "title": "Out of order measurements in extend", "statement": "One would expect extend to reject a measurement that is not newer than the curve. With ratio 1 and a single measurement on a curve with at least two coefficients it does (abort), but a curve with fewer coefficients, or a call with several measurements, accepts any order. With ratio n >= 2 a repeated time in the down-sampling phase silently destroys the newest coefficient and leaves a dangling key: there is a sequence of extend calls after which looking up a key returned earlier by extend is undefined behaviour. After clear() the policy counter is kept, so the number of coefficients produced by the same measurements may differ from that of a new curve.", "quantifier": "existence of a history; for ratio 1: every state and every time", "why_tests_cant": "Stale iterators do not reliably crash; the ratio-1 guarantee is for all states.", "anchors": ["curves/include/curves/SlerpSE3Curve.hpp: SamplingPolicy::extend<SlerpSE3Curve>", "curves/include/curves/LocalSupport2CoefficientManager-inl.hpp: modifyCoefficient"]}
{"id": "C17", "title": "Hermite sampling policy keeps the newest measurement and promotes every n-th", "statement": "Driving SamplingPolicy::extend on a CubicHermiteSE3Curve with single measurements at strictly increasing times never aborts and always leaves the newest measurement as the last coefficient. With minimum measurements n >= 1 and a zero minimum period, an unsettled measurement is replaced by the following ones until the n-th replacement is made permanent, so that m >= 1 measurements leave 1 + ceil((m-1)/(n+1)) coefficients.", "quantifier": "every n >= 1, every m, all increasing times, all poses", "why_tests_cant": "Counter state machine over unbounded sequences.", "anchors": ["curves/include/curves/CubicHermiteSE3Curve.hpp: SamplingPolicy::extend<CubicHermiteSE3Curve>, defaultExtend, interpolationExtend", "curves/include/curves/SamplingPolicy.hpp: SamplingPolicy"]}
{"id": "C18", "title": "Spline evaluation is the polynomial on the clamped time", "statement": "PolynomialSpline::getPositionAtTime(t) equals sum a_i * clamp(t,0,duration)^i for orders 1 to 5 with the coefficients read highest power first; it is constant before 0 and after the duration; for a negative duration every time is evaluated at 0. A default constructed spline has duration 0 and is the constant 0.", "quantifier": "orders 1..5, all coefficients, all durations, all times (real arithmetic)", "why_tests_cant": "Polynomial identity over all reals.", "anchors": ["curves/include/curves/PolynomialSpline.hpp: getPositionAtTime", "curves/include/curves/polynomial_splines_traits.hpp: spline_rep::tau"]}
{"id": "C19", "title": "Velocity and acceleration getters are the true derivatives", "statement": "Strictly inside (0,duration) getVelocityAtTime is the derivative of getPositionAtTime and getAccelerationAtTime the derivative of getVelocityAtTime, for every order 1 to 5; at 0 and at the duration they are the one sided derivatives. Outside, the position is constant but the velocity getter keeps returning the boundary derivative, so there it is not the derivative in general.", "quantifier": "orders 1..5, all coefficients, all durations > 0, all times", "why_tests_cant": "Limits of difference quotients cannot be tested, only sampled.", "anchors": ["curves/include/curves/PolynomialSpline.hpp: getPositionAtTime, getVelocityAtTime, getAccelerationAtTime", "curves/include/curves/polynomial_splines_traits.hpp: tau, dtau, ddtau"]}
{"id": "C20", "title": "Time vector accessors return the vector they name", "statement": "For orders 1 to 5, getTimeVector / getDTimeVector / getDDTimeVector and their ...AtZero and add... variants return the power vector and its first and second derivative at the given time (and the AtZero variants agree with time 0). The same claim for getDDiffTimeVector is false: it returns the first derivative, for every order.", "quantifier": "orders 1..5, every time", "why_tests_cant": "Identity over all times; the existing tests never call the faulty accessor.", "anchors": ["curves/include/curves/PolynomialSpline.hpp: getTimeVector, getDTimeVector, getDiffTimeVector, getDDTimeVector, getDDiffTimeVector, addDDiffTimeVector, getTimeVectorAtZero, getDTimeVectorAtZero, getDDTimeVectorAtZero", "curves/include/curves/polynomial_splines_traits.hpp: tau, dtau, ddtau, tauZero, dtauZero, ddtauZero"]}
{"id": "C21", "title": "Spline from boundary conditions meets its boundary conditions", "statement": "A PolynomialSpline computed from SplineOptions with tf > 0 starts at pos0 and ends at posT; additionally order 2 starts with vel0; order 3 has vel0 and velT; order 4 has vel0, acc0 and velT; order 5 has vel0, acc0, velT and accT. The coefficients with this property are unique, so the result is the Hermite interpolation polynomial.", "quantifier": "orders 1..5, all boundary values, all tf > 0 (exact linear solve)", "why_tests_cant": "All real boundary values and durations.", "anchors": ["curves/include/curves/polynomial_splines_traits.hpp: spline_rep::compute", "curves/include/curves/PolynomialSpline.hpp: computeCoefficients, PolynomialSpline(SplineOptions)"]}
{"id": "C22", "title": "Active spline look-up partitions the time axis", "statement": "For a container whose splines have positive durations, getActiveSplineIndexAtTime(t) returns the index i with start_i <= t < start_{i+1}, index 0 for t < 0 and the last index for t at or beyond the total duration; the reported offset is the total duration of the splines before i. For an empty container it returns -1 and leaves the offset alone.", "quantifier": "every number of splines, all positive durations, every time", "why_tests_cant": "All partitions of the axis, boundary points included.", "anchors": ["curves/include/curves/PolynomialSplineContainer.tpp: getActiveSplineIndexAtTime"]}
{"id": "C23", "title": "Container evaluation is the piecewise spline", "statement": "getPositionAtTime / getVelocityAtTime / getAccelerationAtTime of a container equal the corresponding value of the active spline at its local time; before 0 and after the total duration the position is that of the first start and the last end; getEndPosition/Velocity/Acceleration equal the values at the container duration; all are 0 for an empty container; getContainerDuration is the sum of the durations of the splines added since the last reset.", "quantifier": "every sequence of addSpline/reset, every time", "why_tests_cant": "Unbounded number of splines and all times.", "anchors": ["curves/include/curves/PolynomialSplineContainer.tpp: getPositionAtTime, getVelocityAtTime, getAccelerationAtTime, getEndPosition, getContainerDuration, reset", "curves/include/curves/PolynomialSplineContainer.hpp: addSpline"]}
{"id": "C24", "title": "Stepping the container time agrees with random access, for small steps", "statement": "Starting from a container at time 0, after any sequence of advance(dt) calls with 0 <= dt <= every spline duration, getPosition/getVelocity/getAcceleration equal the AtTime getters at getContainerTime(), except that a position after the end is the end position; the same holds from any time set by setContainerTime. The unrestricted claim is false: one step over more than one spline, a negative step, or adding a spline after the end was reached makes getPosition differ from getPositionAtTime(getContainerTime()).", "quantifier": "every container with positive durations and every sequence of steps; existence of counterexamples for the unrestricted claim", "why_tests_cant": "All step sequences; the existing tests step with one fixed dt.", "anchors": ["curves/include/curves/PolynomialSplineContainer.tpp: advance, setContainerTime, getPosition, getPositionAtTime, resetTime"]}
{"id": "C25", "title": "Container accessors stay in bounds", "statement": "Every sequence of addSpline, advance, setContainerTime, reset, resetTime and queries is free of out of bounds accesses provided setContainerTime is never called on an empty container; without the proviso there is a three call sequence (setContainerTime, addSpline, getPosition) that reads the spline list at index -1. getSpline(i) returns spline number i and raises an exception for every other int, negative ones included.", "quantifier": "every sequence of operations", "why_tests_cant": "Out of bounds reads do not necessarily fail a test.", "anchors": ["curves/include/curves/PolynomialSplineContainer.tpp: getSpline, setContainerTime, getActiveSplineIndexAtTime, getPosition, getVelocity, getAcceleration, advance"]}
{"id": "C26", "title": "setData interpolates every knot", "statement": "If setData(durations, positions, ...) is given n+1 >= 2 strictly increasing knot times and as many positions it returns true and afterwards the container position at each knot time (relative to the first) equals the given position, and the container duration equals last minus first knot time. Holds for the order 5, order 4, order 3 containers and, through the documented fall back to linear interpolation, for order 2 and 1.", "quantifier": "every number of knots, all strictly increasing knot times, all positions and boundary derivatives (exact linear solve)", "why_tests_cant": "The size of the linear system is unbounded; solvability for all knot spacings is a theorem, not a test.", "anchors": ["curves/include/curves/PolynomialSplineContainer.tpp: setData, addInitialConditions, addFinalConditions, addJunctionsConditions, extractSplineCoefficients"]}
{"id": "C27", "title": "setData yields a twice continuously differentiable trajectory", "statement": "For valid knots the order 5, 4 and 3 containers set by the six argument setData have equal position, velocity and acceleration on both sides of every interior knot, so that getPositionAtTime is continuous and differentiable on the whole line segment with derivative getVelocityAtTime, which is itself differentiable with derivative getAccelerationAtTime.", "quantifier": "every number of knots, all strictly increasing knot times, all positions and boundary derivatives, every time", "why_tests_cant": "Continuity at all points of all trajectories.", "anchors": ["curves/include/curves/PolynomialSplineContainer.tpp: setData, addJunctionsConditions"]}
{"id": "C28", "title": "setData honours the boundary derivatives that fit the order", "statement": "For valid knots, order 5 (and order 4 with at least two segments) honours initial and final velocity and acceleration; order 3 (and order 4 with one segment) honours both velocities and ignores the accelerations; orders 1 and 2 produce the piecewise linear interpolant and ignore all boundary derivatives.", "quantifier": "every number of knots, all strictly increasing knot times, all boundary values", "why_tests_cant": "Case split over order and number of segments, all real data.", "anchors": ["curves/include/curves/PolynomialSplineContainer.tpp: setData"]}
{"id": "C29", "title": "setData rejects degenerate knots", "statement": "If any knot time is not strictly greater than its predecessor, or there is exactly one knot, setData returns false. The order 3, 4 and 5 containers are then empty (every value 0). For orders 1 and 2 the claim that a failed setData leaves no data behind is false: the segments before the offending knot stay in the container, and with a single knot the two argument version keeps the previous trajectory.", "quantifier": "all knot vectors of any length", "why_tests_cant": "All positions of the offending knot.", "anchors": ["curves/include/curves/PolynomialSplineContainer.tpp: setData"]}
{"id": "C30", "title": "setData with empty knots", "statement": "With an empty knot vector the unsigned size computation wraps around: for orders 4 and 5 all three setData versions return false without touching memory, but for order 3 (four and six argument), order 2 and order 1 the call goes on to read the empty vector (undefined behaviour). The two argument version returns false for every order.", "quantifier": "orders 1..5, the three setData versions, 32 bit unsigned arithmetic", "why_tests_cant": "Undefined behaviour and wrap around of the size; depends on template parameter arithmetic.", "anchors": ["curves/include/curves/PolynomialSplineContainer.tpp: setData"]}
{"id": "C31", "title": "Scalar curve passes through its data in absolute time", "statement": "After PolynomialSplineScalarCurve::fitCurve(times, values, ...) with at least two strictly increasing times, getMinTime() is the first and getMaxTime() the last time, evaluate succeeds for every time and returns values[i] at times[i], the boundary derivatives are as requested, evaluateDerivative(1) is the derivative of evaluate and evaluateDerivative(2) its second derivative inside the range; shifting all times by a constant shifts the curve.", "quantifier": "every number of knots, all strictly increasing times, all values, every query time, every previous state of the curve", "why_tests_cant": "All real inputs and all previous curve states.", "anchors": ["curves/include/curves/PolynomialSplineScalarCurve.hpp: fitCurve, evaluate, evaluateDerivative, getMinTime, getMaxTime"]}
{"id": "C32", "title": "Scalar curve fit failures are silent, option list fit appends", "statement": "fitCurve with times that are not strictly increasing does not report an error: afterwards evaluate still returns true, with value 0 for every time (order 5). The documented clearing of the existing curve holds for the time/value overloads but is false for fitCurve(optionList): it appends to the existing trajectory and resets the minimum time to 0.", "quantifier": "all time vectors; existence for the refutation", "why_tests_cant": "All invalid inputs; needs a stateful sequence.", "anchors": ["curves/include/curves/PolynomialSplineScalarCurve.hpp: fitCurve", "curves/include/curves/PolynomialSplineContainer.tpp: setData"]}
{"id": "C33", "title": "Vector curve is only correct when time starts at zero", "statement": "After PolynomialSplineVectorSpaceCurve::fitCurve with strictly increasing times, evaluate(times[i]) returns values[i] component by component provided the first time is 0. For any other first time the natural claims fail: getMaxTime() returns the duration instead of the last time and evaluate(times[i]) is not values[i] in general, because the first time is not subtracted. Derivatives other than the first and second are reported as not available.", "quantifier": "every dimension, every number of knots, all times and values; existence for the refutation", "why_tests_cant": "The existing tests start at time 0.", "anchors": ["curves/include/curves/PolynomialSplineVectorSpaceCurve.hpp: fitCurve, evaluate, getMaxTime"]}
{"id": "C34", "title": "Hermite curve passes through its data points", "statement": "After CubicHermiteE3Curve::fitCurveWithDerivatives on an empty curve with strictly increasing times, evaluate(times[i]) succeeds and returns points[i]; fitCurve does the same with zero end velocities. The CubicHermiteSE3Curve positions and orientations likewise equal the given poses at the given times (orientation up to the sign of the quaternion, i.e. as a rotation).", "quantifier": "every number of points >= 1, all strictly increasing times, all positions and orientations, all end derivatives", "why_tests_cant": "All real data, all numbers of points.", "anchors": ["curves/src/CubicHermiteE3Curve.cpp: fitCurveWithDerivatives, fitCurve, evaluate", "curves/src/CubicHermiteSE3Curve.cpp: fitCurveWithDerivatives, evaluate"]}
{"id": "C35", "title": "Hermite curve velocities at the data points", "statement": "The first derivative at the first and last time is the given initial and final derivative, and at interior times it is the slope from the previous to the next data point (Catmull-Rom); for a curve with one point it is the initial derivative. For the SE3 curve the interior angular velocity is the constant one that turns the previous orientation into the next.", "quantifier": "every number of points, all strictly increasing times, all points and end derivatives", "why_tests_cant": "All real data.", "anchors": ["curves/src/CubicHermiteE3Curve.cpp: fitCurveWithDerivatives, calculateSlope, evaluateDerivative"]}
{"id": "C36", "title": "Hermite curve is continuously differentiable with the reported derivatives", "statement": "On the open interval between the first and last time evaluate is differentiable and evaluateDerivative(.,1) is its derivative, also at knots, and it is continuous; strictly between two knots evaluateDerivative(.,2) is the derivative of evaluateDerivative(.,1). The same holds for position, linear velocity and linear acceleration of the SE3 curve.", "quantifier": "every curve with at least two coefficients, with arbitrary coefficients, every time", "why_tests_cant": "Differentiability at all points.", "anchors": ["curves/src/CubicHermiteE3Curve.cpp: evaluate, evaluateDerivative, evaluateLinearAcceleration"]}
{"id": "C37", "title": "Hermite evaluation domain", "statement": "evaluate on a Hermite curve returns true iff the curve is non-empty and getMinTime() <= t <= getMaxTime(), and false otherwise, leaving the output untouched; first derivative likewise; the second derivative additionally fails on a one point curve; any other derivative order fails. On an empty curve the claim is false for t == 0: the code dereferences the end iterator (undefined behaviour), because the empty curve reports 0 as minimum and maximum time.", "quantifier": "every curve state, every time, every derivative order", "why_tests_cant": "Undefined behaviour on a measure zero set of times.", "anchors": ["curves/src/CubicHermiteE3Curve.cpp: evaluate, evaluateDerivative, evaluateLinearAcceleration", "curves/src/CubicHermiteSE3Curve.cpp: evaluate, evaluateDerivative, evaluateLinearAcceleration", "curves/include/curves/LocalSupport2CoefficientManager-inl.hpp: getCoefficientsAt, getMinTime, getMaxTime"]}
{"id": "C38", "title": "Refitting a Hermite curve", "statement": "CubicHermiteSE3Curve::fitCurve replaces the previous curve completely. For CubicHermiteE3Curve the documented clearing is false: data points of the previous fit at other times survive and change the new curve, both its range and its shape.", "quantifier": "every previous curve state and every new data set; existence for the refutation", "why_tests_cant": "Needs all previous states.", "anchors": ["curves/src/CubicHermiteE3Curve.cpp: fitCurve, fitCurveWithDerivatives", "curves/src/CubicHermiteSE3Curve.cpp: fitCurve, fitCurveWithDerivatives"]}
{"id": "C39", "title": "Periodic fit", "statement": "fitPeriodicCurve gives both ends the same derivative, so that for equal first and last points the periodic continuation is continuously differentiable. The expected end derivative (slope through the neighbours across the seam, with the time difference taken modulo the period) is not what is used: for four or more points the time difference has the wrong sign, for three points it is zero (division by zero), and fewer than two points index outside the input vector.", "quantifier": "every number of points, all strictly increasing times and points; existence for the refutation", "why_tests_cant": "All real data; the division by zero yields NaN silently.", "anchors": ["curves/src/CubicHermiteE3Curve.cpp: fitPeriodicCurve, calculateSlope", "curves/src/CubicHermiteSE3Curve.cpp: fitPeriodicCurve, calculateSlope"]}
{"id": "C40", "title": "Hermite interpolation reproduces affine motion and is equivariant", "statement": "If the data points lie on a motion p + t*v and the end derivatives are v, the fitted E3 curve is exactly that motion with velocity v and zero acceleration. Applying an affine map to all data (points, and its linear part to derivatives) applies it to the curve; shifting all times shifts the curve.", "quantifier": "every number of points, all strictly increasing times, all affine maps, every query time", "why_tests_cant": "All transformations and all data; existing tests check samples of two of them.", "anchors": ["curves/src/CubicHermiteE3Curve.cpp: fitCurveWithDerivatives, evaluate, evaluateDerivative"]}
{"id": "C41", "title": "Knot values are reproduced exactly in IEEE double arithmetic", "statement": "Evaluating one Hermite segment in binary64 arithmetic with rounding to nearest at its start or end time returns the stored knot position exactly (as a number), provided the time difference of the segment does not overflow and positions, derivatives and derivative times duration are finite.", "quantifier": "all finite doubles for times, positions and derivatives", "why_tests_cant": "2^64 values per argument.", "anchors": ["curves/src/CubicHermiteE3Curve.cpp: evaluate"]}
{"id": "C42", "title": "SE3 orientation stays a rotation and hits the data", "statement": "The orientation returned by CubicHermiteSE3Curve::evaluate is a unit quaternion for every time in the range whenever the data orientations are unit quaternions, it equals the given rotation at every knot, and it is continuous over the whole range as a rotation.", "quantifier": "all unit quaternions, all angular velocities, all times in range; quaternion exponential and logarithm as in kindr", "why_tests_cant": "All rotations; the double cover makes samples misleading.", "anchors": ["curves/src/CubicHermiteSE3Curve.cpp: evaluate"]}
{"id": "C43", "title": "SE3 angular velocity is the true angular velocity", "statement": "The angular velocity returned by CubicHermiteSE3Curve::evaluateDerivative(.,1) satisfies q' = 1/2 * omega * q for the orientation returned by evaluate strictly between knots; at both ends of a segment it equals the angular velocity stored in the coefficient.", "quantifier": "all unit quaternions, all angular velocities, every time between two knots", "why_tests_cant": "Limits; all rotations.", "anchors": ["curves/src/CubicHermiteSE3Curve.cpp: evaluate, evaluateDerivative"]}
{"id": "C44", "title": "SE3 curve is equivariant under a change of frame", "statement": "Left multiplying all data orientations by a fixed rotation and rotating all derivatives accordingly multiplies the orientations of the curve by that rotation; positions transform likewise under rotation and translation.", "quantifier": "all rotations, all translations, all data, every time", "why_tests_cant": "Existing tests sample one transformation.", "anchors": ["curves/src/CubicHermiteSE3Curve.cpp: evaluate, fitCurveWithDerivatives, calculateSlope"]}
{"id": "C45", "title": "CSV write then read", "statement": "loadCSV(writeCSV(rows)) returns rows unchanged iff no field contains a comma or a newline and the last field of every row is non-empty (for rows with at least one field); writeCSV aborts iff there is no row or some row is empty.", "quantifier": "all string matrices", "why_tests_cant": "All strings.", "anchors": ["curves/src/helpers.cpp: loadCSV, writeCSV"]}
{"id": "C46", "title": "Time/vector CSV files do not round trip", "statement": "The documented format is time, entry0, entry1, ...; writeTimeVectorCSV follows it, but loadTimeVectorCSV takes the time from the second column: the loaded times are the first vector entries. Likewise loadTimeTimeVectorCSV reads its two times from the second and third column. The vector entries are read from the right columns. A row shorter than the first raises an exception.", "quantifier": "all time and value sequences (with any exact number formatting)", "why_tests_cant": "Claim for all files; existing tests do not call these.", "anchors": ["curves/src/helpers.cpp: writeTimeVectorCSV, loadTimeVectorCSV, loadTimeTimeVectorCSV"]}
{"id": "C47", "title": "Sampling export writes one row less than requested", "statement": "writeEvalToFile(file, n) with n >= 2 on a curve with minTime < maxTime writes a header and exactly n-1 rows at equidistant times starting at the minimum time; the maximum time is never written. With n <= 0 it fails after the first row, with n = 1 it writes one row. A curve without two different times gives the header only. The header names the 14 columns t px py pz rw rx ry rz vx vy vz wx wy wz, a row of the E3 curve has 7 numbers, so that its velocity stands below the names of the rotation. In double arithmetic the number of rows depends on the rounding (11 rows for n = 11 from 0 to 1), and the loop need not terminate: if the step is lost when it is added to the minimum time, the same row is written forever.", "quantifier": "all n, all curves (real arithmetic); existence for the non-termination in doubles", "why_tests_cant": "Non termination; all n and all ranges.", "anchors": ["curves/src/CubicHermiteE3Curve.cpp: writeEvalToFile", "curves/src/CubicHermiteSE3Curve.cpp: writeEvalToFile"]}
{"id": "C48", "title": "Joint look-up in trajectory messages", "statement": "fromMessage(msg, joint) returns false for a message with a non-empty name list not containing the joint, leaving the curve unchanged, and otherwise uses the data of the first entry with that name. The claim that a missing joint always returns false is false: with an empty joint name list the message is accepted and entry 0 is read. The curve then goes through the joint's data at the times of the points: the joint curve at rest at both ends, the translation curve only relative to its first time. The claim that true means success is false as well: points out of time order, or a single point, give true and a curve that is zero everywhere. A point with too few entries is undefined behaviour, and so is a message without points for the two spline classes.", "quantifier": "all messages and joint names", "why_tests_cant": "All messages.", "anchors": ["curves_ros/src/RosJointTrajectoryInterface.cpp: fromMessage", "curves_ros/src/RosMultiDOFJointTrajectoryInterface.cpp: fromMessage", "curves_ros/src/RosMultiDOFJointTrajectoryTranslationInterface.cpp: fromMessage"]}
{"id": "C49", "title": "Discrete curve returns the nearest data point", "statement": "DiscreteSE3Curve::evaluate(t) for t in [min,max] returns the value of a coefficient whose time is nearest to t, the earlier one on a tie, the exact value at coefficient times, and aborts outside the range.", "quantifier": "every curve, every time", "why_tests_cant": "All knot sequences and times.", "anchors": ["curves/src/DiscreteSE3Curve.cpp: evaluate"]}
{"id": "C50", "title": "Composition curve reproduces the data it is extended with", "statement": "After extend({t},{v}) on a composition curve whose correction curve covers t, evaluate(t) = v; folding in the corrections keeps the curve value at every base coefficient time and makes the correction the identity; setting corrections to identity makes the curve equal to its base. extend and fitCurve abort for anything but one time and one value.", "quantifier": "every state with discrete base and correction, every time, every group element", "why_tests_cant": "All states and group elements.", "anchors": ["curves/include/curves/SE3CompositionCurve-inl.hpp: extend, evaluate, foldInCorrections, resetCorrectionCurve"]}
{"id": "C51", "title": "Copying a coefficient manager", "statement": "The implicitly generated copy constructor of LocalSupport2CoefficientManager copies the key map with its iterators, which still point into the tree of the original. The natural claim that a copy is independent of the original is false: setting a coefficient by key on the copy changes the original and not the copy, and after the original is cleared or destroyed every look-up by key on the copy is undefined behaviour. Look-ups by time on the copy work on the copy's own tree.", "quantifier": "every manager state, every key; existence for the refutation", "why_tests_cant": "A statement about all states; no test copies a manager.", "anchors": ["curves/include/curves/LocalSupport2CoefficientManager-inl.hpp: LocalSupport2CoefficientManager (implicit copy), coefficientIterator, setCoefficientByKey"]}
{"id": "C52", "title": "setData leaves a container ready to be played", "statement": "After a successful setData (any overload, order 1 to 5) the container is non-empty, its time and active spline index are zero, checkContainer() is true, getPosition() is the first and getEndPosition() the last given position, evaluation at every real time is defined and holds the first (last) position before (after) the knot range, and advancing in steps not longer than the shortest segment visits exactly the values getPositionAtTime returns at the accumulated time.", "quantifier": "every number of knots, all strictly increasing knot times, all positions and boundary values, every time, every sequence of small steps", "why_tests_cant": "All trajectories and all step sequences.", "anchors": ["curves/include/curves/PolynomialSplineContainer.tpp: setData, checkContainer, advance, getPosition, getEndPosition"]}
{"id": "C53", "title": "Extending a Hermite curve after a fit", "statement": "fitCurve and fitCurveWithDerivatives clear the coefficients of a CubicHermiteSE3Curve but not the measurement counter of its sampling policy. With a zero counter the next policy extension keeps all fitted points and appends the measurement. With a stale positive counter below the minimum it deletes the last fitted point instead, and after fitting a single point it reads unset iterators (undefined behaviour).", "quantifier": "every earlier state of the curve, all fitted sequences, every counter value", "why_tests_cant": "Depends on state left over from before the fit; every state and every fit.", "anchors": ["curves/src/CubicHermiteSE3Curve.cpp: fitCurveWithDerivatives", "curves/include/curves/CubicHermiteSE3Curve.hpp: SamplingPolicy::extend<CubicHermiteSE3Curve>, interpolationExtend, defaultExtend"]}
{"id": "C54", "title": "Sampling ratio zero or negative", "statement": "setSamplingRatio accepts any int. With a ratio <= 0 a SlerpSE3Curve fed single increasing measurements keeps the first two and the newest one only, never making another one permanent, and its int counter overflows (undefined behaviour) at measurement number 2^31 + 2. Driving SamplingPolicy::extend on a CubicHermiteSE3Curve with such a ratio and no minimum period keeps only the newest measurement.", "quantifier": "every ratio <= 0, every number of measurements, all increasing times, all values", "why_tests_cant": "Needs 2^31 measurements; all sequences.", "anchors": ["curves/include/curves/SlerpSE3Curve.hpp: SamplingPolicy::extend<SlerpSE3Curve>", "curves/include/curves/CubicHermiteSE3Curve.hpp: SamplingPolicy::extend<CubicHermiteSE3Curve>", "curves/include/curves/SamplingPolicy.hpp: SamplingPolicy"]}
{"id": "C55", "title": "Uniform motion in SE3 is reproduced", "statement": "fitCurveWithDerivatives of a CubicHermiteSE3Curve on samples of a motion with constant velocity and constant angular velocity, with these as end derivatives, gives a curve that returns exactly that motion and those velocities at every time of its range, provided the motion turns by less than half a turn between a sample and the next but one.", "quantifier": "all increasing sample times, all positions, unit orientations, velocities and angular velocities, every time", "why_tests_cant": "All motions and all evaluation times; the tests compare a few samples with a tolerance.", "anchors": ["curves/src/CubicHermiteSE3Curve.cpp: fitCurveWithDerivatives, calculateSlope, evaluate, evaluateDerivative"]}
{"id": "C56", "title": "transformCurve of the cubic Hermite SE3 curve", "statement": "The documented effect (a rigid transformation on the left side of the curve) does not take place: after transformCurve(T) the curve evaluates to the same poses as before, for every T and every curve.", "quantifier": "every curve, every transformation that moves the evaluated pose, every time", "why_tests_cant": "A statement about all curves and transformations; no test calls the function.", "anchors": ["curves/src/CubicHermiteSE3Curve.cpp: transformCurve", "curves/include/curves/CubicHermiteSE3Curve.hpp: transformCurve"]}
{"id": "C57", "title": "Knot velocities are reproduced exactly in IEEE double arithmetic", "statement": "Evaluating the first derivative of a CubicHermiteE3Curve in binary64 arithmetic with rounding to nearest at the time of a coefficient returns the stored velocity exactly (as a number), provided times and coefficients are finite, the length of every segment and its inverse do not overflow. Without the last condition the claim is false: for knots one smallest double apart the velocity at the knot is NaN although the position is exact.", "quantifier": "all finite doubles for times, positions and derivatives, every curve and every coefficient; existence for the refutation", "why_tests_cant": "2^64 values per argument; the failing durations are far below anything tested.", "anchors": ["curves/src/CubicHermiteE3Curve.cpp: evaluateDerivative"]}
{"id": "C58", "title": "Saving an SE3 curve at given times", "statement": "saveCurveAtTimes of the cubic Hermite SE3 curve writes one row per requested time with the time and the seven numbers of the pose. For a time in the range these are the evaluated pose; for a time outside it nothing is reported and the row repeats the pose of the row before (the identity in the first row). saveCurveTimesAndValues writes one row per coefficient with its own pose and aborts for an empty curve. A saved file read by loadTimeVectorCSV gives the x coordinates as times.", "quantifier": "every curve, all lists of times, every number format without delimiters", "why_tests_cant": "All curves and time lists; the failure is silent.", "anchors": ["curves/src/CubicHermiteSE3Curve.cpp: saveCurveTimesAndValues, saveCurveAtTimes", "curves/src/helpers.cpp: writeTimeVectorCSV, loadTimeVectorCSV"]}
{"id": "C59", "title": "transformCurve of the discrete SE3 curves", "statement": "After transformCurve(T) a discrete or semi-discrete SE3 curve has the same coefficient times and keys, and evaluate(t) is T times what it was before, for every time (also where evaluation aborts it still does). The values are read from the curve while it is being changed; this does no harm.", "quantifier": "every curve, every group element, every time", "why_tests_cant": "All curves, transformations and times; the curves are not part of the build.", "anchors": ["curves/src/DiscreteSE3Curve.cpp: transformCurve", "curves/src/SemiDiscreteSE3Curve.cpp: transformCurve"]}
{"id": "C60", "title": "Semi-discrete curve moves in equal steps through its data", "statement": "SemiDiscreteSE3Curve::evaluate returns the coefficient at every coefficient time, is defined exactly on the range of a non-empty curve, between two coefficients advances by the same group element in equal time steps, and is constant between equal coefficients.", "quantifier": "every curve, every time, every exponential/logarithm pair that is inverse and additive along one-parameter groups", "why_tests_cant": "All curves and times.", "anchors": ["curves/src/SemiDiscreteSE3Curve.cpp: evaluate"]}
{"id": "C61", "title": "Value expression of the discrete curves", "statement": "getValueExpression(t) of a DiscreteSE3Curve with at least two coefficients is the leaf whose key belongs to the coefficient evaluate(t) returns. It aborts for a curve with one coefficient, at the time where evaluate works. The expression of the SemiDiscreteSE3Curve is the same leaf, so the claim that it stands for the value evaluate returns is false.", "quantifier": "every curve, every time; existence for the refutation", "why_tests_cant": "All curves and times.", "anchors": ["curves/src/DiscreteSE3Curve.cpp: getValueExpression, evaluate", "curves/src/SemiDiscreteSE3Curve.cpp: getValueExpression, evaluate"]}
{"id": "C62", "title": "Extending a composition curve keeps its past", "statement": "With correction ratio 1, extend({t},{v}) with t after the end of a composition curve whose corrections cover it returns, makes t the end of the curve, and leaves the value at every earlier time as it was. With a larger ratio the claim is false: extending moves the last correction and changes values at earlier times.", "quantifier": "every curve state, every later time, every value, every earlier time; existence for the refutation", "why_tests_cant": "All states and times; the failure needs a correction and a ratio above one.", "anchors": ["curves/include/curves/SE3CompositionCurve-inl.hpp: extend, setSamplingRatio"]}
{"id": "C63", "title": "transformCurve of the composition curve", "statement": "transformCurve(T) of a composition curve multiplies the base by T on the left and keeps the corrections: where the correction is k and the base b the new value is k*T*b. Where the correction is the identity this is T times the old value. With other corrections the claim that the curve is multiplied by T on the left is false.", "quantifier": "every curve, every group element, every time; existence for the refutation", "why_tests_cant": "All curves, transformations and corrections.", "anchors": ["curves/include/curves/SE3CompositionCurve-inl.hpp: transformCurve"]}
{"id": "C64", "title": "Resampling the corrections of a composition curve", "statement": "setCorrectionTimes(ts) returns exactly if all of ts are in the range of the corrections and ts spans the range of the base curve; then the corrections are at exactly these times, the base is untouched, and the curve has its old value at each of them. Otherwise it aborts.", "quantifier": "every curve, all lists of times in any order", "why_tests_cant": "All curves and lists of times.", "anchors": ["curves/include/curves/SE3CompositionCurve-inl.hpp: setCorrectionTimes"]}
{"id": "C65", "title": "Changing and removing a correction", "statement": "setCorrectionCoefficientAtTime(t,v) aborts unless there is a correction at t; then it makes the curve v*base(t) at t, keeps all keys, and keeps the value at all other correction times. removeCorrectionCoefficientAtTime(t) aborts unless there is a correction at t; then the other corrections and the values at their times stay. The claim that the curve can still be evaluated wherever it could before removing is false.", "quantifier": "every curve, every time, every value; existence for the refutation", "why_tests_cant": "All curves and times.", "anchors": ["curves/include/curves/SE3CompositionCurve-inl.hpp: setCorrectionCoefficientAtTime, removeCorrectionCoefficientAtTime"]}
{"id": "C66", "title": "Setting the base of a composition curve does not compensate the corrections", "statement": "setBaseCurve(ts,vs) returns exactly if ts spans the range of the corrections; then the base has exactly the given times and the curve at a given time is the correction times the (last) given value, unlike extend which makes it the given value. Otherwise it aborts.", "quantifier": "every curve, all lists of times (unordered, repeated) and values", "why_tests_cant": "All curves and lists.", "anchors": ["curves/include/curves/SE3CompositionCurve-inl.hpp: setBaseCurve"]}
{"id": "C67", "title": "Corrections need not cover the base after clear", "statement": "The natural claim that a composition curve on which only extend and clear have been called can be evaluated on its whole range [getMinTime(), getMaxTime()] is false: clear() keeps the measurement counter of the correction curve, and two later extensions can move the last correction below the range of the base, after which evaluate(getMaxTime()) aborts. For a new curve extended in time order it is true.", "quantifier": "existence; all increasing sequences of times, all values and all ratios for the positive part", "why_tests_cant": "Depends on state kept across clear.", "anchors": ["curves/include/curves/SE3CompositionCurve-inl.hpp: extend, clear, evaluate", "curves/include/curves/SlerpSE3Curve.hpp: SamplingPolicy::extend<SlerpSE3Curve>"]}
{"id": "C68", "title": "The cubic trajectory is determined by the data", "statement": "For splines of order 3, setData stores the same splines whatever the container held before and whichever solution the solver picks, as long as it solves the system exactly; accelerations passed to the 6-argument call make no difference. The trajectory is linear in positions and boundary velocities (superposition), and the knots run through backwards, with swapped and negated velocities, give the same trajectory backwards.", "quantifier": "all exact solvers, all containers, all increasing knot times with at least 2 knots, all positions and velocities, all times", "why_tests_cant": "All data and all solvers; uniqueness is not observable by running one solver.", "anchors": ["curves/include/curves/PolynomialSplineContainer.tpp: setData"]}
{"id": "C69", "title": "The cubic trajectory bends least", "statement": "Among all twice continuously differentiable functions through all knots with the given velocities at both ends, the trajectory set by the 4-argument setData with order 3 has the smallest integral of the squared acceleration, and every function with as small an integral has the same positions on the whole time range. The trajectory is itself such a function.", "quantifier": "all exact solvers, all increasing knot times, all positions and velocities, every competing function", "why_tests_cant": "Quantifies over all functions; an integral of reals.", "anchors": ["curves/include/curves/PolynomialSplineContainer.tpp: setData"]}
{"id": "C70", "title": "Order 5 leaves the inner knots undetermined", "statement": "For splines of order 5 the 6-argument setData asks only for continuity at the inner knots: for every choice of velocities and accelerations there, some exact solver makes the trajectory take them. That two exact solvers give the same trajectory is false.", "quantifier": "all increasing knot times with at least 2 knots, all positions, velocities and accelerations at all knots; existence for the refutation", "why_tests_cant": "Quantifies over solvers.", "anchors": ["curves/include/curves/PolynomialSplineContainer.tpp: setData"]}
{"id": "C71", "title": "A fitted Hermite curve depends on its points locally", "statement": "Between two neighbouring points of a fit, evaluate and the derivatives depend only on these two points, the one before, the one after, and, where there is no such point, the end derivative: two fits of whatever length that agree on these return the same there. So changing one point leaves the curve unchanged up to the second point before and from the second point after it. For SE3 this holds with any exponential and logarithm.", "quantifier": "all pairs of data sets with increasing times, all end derivatives, every time", "why_tests_cant": "All pairs of data sets.", "anchors": ["curves/src/CubicHermiteE3Curve.cpp: fitCurveWithDerivatives, evaluate, evaluateDerivative", "curves/src/CubicHermiteSE3Curve.cpp: fitCurveWithDerivatives, evaluate, evaluateDerivative, evaluateLinearAcceleration"]}
{"id": "C72", "title": "A fit of reversed data is the reversed curve", "statement": "Fitting the points in reversed order at the negated times, with swapped and negated end derivatives, gives the curve run backwards: the same positions at -t, negated velocities, and (between points) the same accelerations.", "quantifier": "all data sets with at least two points and increasing times, every time", "why_tests_cant": "All data sets.", "anchors": ["curves/src/CubicHermiteE3Curve.cpp: fitCurveWithDerivatives, evaluate, evaluateDerivative"]}
{"id": "C73", "title": "How far a Hermite curve leaves its points", "statement": "On a segment each coordinate stays within the range of the four control values p0, p0+v0*h/3, p1-v1*h/3, p1, and does not decrease if both velocities are between zero and three times the mean velocity. After fitCurve a coordinate leaves the range of the points by at most a quarter of the size of the range, and by at most an eighth if the times are equidistant. The natural claim that it stays within the range is false: the eighth is reached.", "quantifier": "every curve; all data sets with at least two points and increasing times, every time", "why_tests_cant": "All data sets and times.", "anchors": ["curves/src/CubicHermiteE3Curve.cpp: fitCurve, evaluate"]}
{"id": "C74", "title": "Motion of the SE2 curve between coefficients", "statement": "Between two neighbouring coefficients of a SlerpSE2Curve the heading turns at a constant rate by the smaller of the two angles (by +180 degrees if they are opposite). The position moves on the straight line at constant speed if the heading does not change, and otherwise on a circular arc turned by the same angle as the heading. The velocity seen by the body is constant.", "quantifier": "every curve, all neighbouring coefficients, every time between them", "why_tests_cant": "All poses and times.", "anchors": ["curves/src/SlerpSE2Curve.cpp: evaluate"]}
{"id": "C75", "title": "fitCurve and setCurve of interpolating curves", "statement": "fitCurve of the discrete, semi-discrete and SE2 curves forgets what was on the curve; the curve then passes through the given values (the last one given for a time) and can be evaluated exactly from the smallest to the largest given time, whatever the order of the times. setCurve keeps coefficients at other times and the keys of times already there, and does not change the curve between two coefficients if no given time is there. Lists of different length stop the program. Empty lists change nothing: fitting to no data does not clear the curve.", "quantifier": "every curve, all lists of times and values", "why_tests_cant": "All curves and lists.", "anchors": ["curves/src/SlerpSE2Curve.cpp: fitCurve, setCurve, evaluate", "curves/src/SemiDiscreteSE3Curve.cpp: fitCurve, setCurve, evaluate", "curves/src/DiscreteSE3Curve.cpp: fitCurve, setCurve, evaluate"]}
{"id": "C76", "title": "Interpolation does not depend on where it is sampled nor on its direction", "statement": "Inserting a point that is on the curve already does not change the curve at any time. The curve through the reversed coefficients at negated times is the curve run backwards, provided no two neighbouring SE2 coefficients look in exactly opposite directions; without that proviso it is false.", "quantifier": "every curve, every inserted time, every time", "why_tests_cant": "All curves and pairs of times.", "anchors": ["curves/src/SlerpSE2Curve.cpp: evaluate", "curves/src/SemiDiscreteSE3Curve.cpp: evaluate"]}
{"id": "C77", "title": "The value expression has the value of the curve", "statement": "getValueExpression of the SE2 curve returns an expression exactly if there are two or more coefficients and the time is between the first and the last one, and stops the program otherwise. It contains only the keys of coefficients next to the time. If the coefficients get other values later, the expression made before has the value that the curve with these values has.", "quantifier": "every curve, every time, all later values of the coefficients", "why_tests_cant": "All curves, times and values.", "anchors": ["curves/src/SlerpSE2Curve.cpp: getValueExpression, evaluate", "curves/include/curves/Pose2_Expressions.hpp: slerp"]}
{"id": "C78", "title": "Prior factors and saved rows of the SE2 curve", "statement": "addPriorFactors ties the two coefficients around the time, which include all coefficients of the value expression, to the values they have. With fewer than two coefficients or outside of the range, where evaluate and getValueExpression stop the program, it dereferences unset iterators. saveCurveTimesAndValues writes one row per coefficient, in order of time.", "quantifier": "every curve, every time", "why_tests_cant": "All curves; reading an unset iterator can go unnoticed.", "anchors": ["curves/src/SlerpSE2Curve.cpp: addPriorFactors, saveCurveTimesAndValues"]}
{"id": "C79", "title": "Changing the sampling settings or clearing between measurements", "statement": "setSamplingRatio of the Slerp curve does not restart its counter: after m measurements with ratio n1, q = (m-2) mod n1 are counted, and with q < n2 the measurement that makes the count n2 stays, and every n2-th after it. With q >= n2 >= 2 no measurement stays any more: each one replaces the one before. clear does not reset the counter either, so a cleared Slerp curve is not like a new one (the natural claim is false). Driving SamplingPolicy::extend on a CubicHermiteSE3Curve, new settings apply from the next measurement on, and a cleared curve is like a new one with its settings.", "quantifier": "all ratios from 2, all sequences of measurements before and after the change; Hermite: all sequences of settings and measurements", "why_tests_cant": "All ratios and lengths.", "anchors": ["curves/include/curves/SlerpSE3Curve.hpp: SamplingPolicy::extend", "curves/include/curves/SamplingPolicy.hpp", "curves/include/curves/CubicHermiteSE3Curve.hpp", "curves/src/SlerpSE3Curve.cpp: setSamplingRatio, clear"]}
{"id": "C80", "title": "The Hermite sampling policy and lists of different length", "statement": "SamplingPolicy::extend on a CubicHermiteSE3Curve does not compare the lengths of times and values. Additional values are ignored. With fewer values than times it never returns: if the measurements with values are accepted, the next time makes it read a value beyond the end of the vector (undefined behaviour) or, if it is not newer than the curve, abort.", "quantifier": "every curve, all lists of times and values", "why_tests_cant": "All curves and lists; a read beyond the end can go unnoticed.", "anchors": ["curves/include/curves/CubicHermiteSE3Curve.hpp: SamplingPolicy::extend<CubicHermiteSE3Curve>"]}
{"id": "C81", "title": "Curves made of SlerpSE3Curve cannot be evaluated or filled", "statement": "SlerpSE3Curve::evaluate is not implemented and aborts. As a consequence transformCurve aborts on every curve that is not empty, both save functions always abort, and a composition curve whose correction is a SlerpSE3Curve aborts on every call of extend and fitCurve, whatever its state and the arguments, and cannot be evaluated, folded, resampled or saved. SE3CurveFactory accepts exactly five names and makes such curves for slerp_curve and composition_curve.", "quantifier": "every curve and composition curve, all lists of times and values, every name", "why_tests_cant": "All states; a test of one call shows one abort.", "anchors": ["curves/src/SlerpSE3Curve.cpp: evaluate, transformCurve, saveCurveTimesAndValues, saveCurveAtTimes", "curves/include/curves/SE3CompositionCurve-inl.hpp: extend, fitCurve", "curves/src/SE3CurveFactory.cpp: create_curve"]}
{"id": "C82", "title": "Files saved by the discrete curves", "statement": "saveCurveTimesAndValues of a discrete or semi-discrete curve writes one line for each coefficient, in time order, with its time and the seven numbers of its pose; for an empty curve it aborts. saveCurveAtTimes writes the value of the curve at each of the given times in the given order; it aborts if there are no times or one is outside the range of the curve.", "quantifier": "every curve, all lists of times", "why_tests_cant": "All curves and lists of times.", "anchors": ["curves/src/DiscreteSE3Curve.cpp: saveCurveTimesAndValues, saveCurveAtTimes", "curves/src/SemiDiscreteSE3Curve.cpp: saveCurveTimesAndValues, saveCurveAtTimes"]}
{"id": "C83", "title": "Files saved by a composition curve", "statement": "saveCurveTimesAndValues of a composition curve writes one line for each base coefficient with the product of the correction at its time and the coefficient. saveCurves writes three files: the base coefficients, the correction coefficients and the file just described. Both abort if the base is empty or has a time outside the range of the corrections. saveCorrectionCurveTimesAndValues writes the correction coefficients and saveCorrectionCurveAtTimes the values of the corrections at the given times.", "quantifier": "every composition curve with corrections", "why_tests_cant": "All curves.", "anchors": ["curves/include/curves/SE3CompositionCurve-inl.hpp: saveCurveTimesAndValues, saveCurveAtTimes, saveCurves, saveCorrectionCurveTimesAndValues, saveCorrectionCurveAtTimes"]}
{"id": "C84", "title": "Changing part of the base of a composition curve", "statement": "setBaseCurvePart(ts,vs) adds to the base: it returns exactly if the old and new base times together have the range of the corrections; then the curve at a given time is the correction times the last value given for it, and the curve keeps its value at all other base times. modifyBaseCoefficientsValuesInBatch with neighbouring base times replaces their values in the same way, keeps all keys, times and values at other base times, and aborts if the ranges of base and corrections differ.", "quantifier": "every curve, all lists of times and values (any order and repetition for setBaseCurvePart)", "why_tests_cant": "All curves and lists.", "anchors": ["curves/include/curves/SE3CompositionCurve-inl.hpp: setBaseCurvePart, modifyBaseCoefficientsValuesInBatch"]}
{"id": "C85", "title": "The minimal sampling period has no effect on slerp, discrete and composition curves", "statement": "setMinSamplingPeriod on a SlerpSE3Curve, a discrete curve or a composition curve never changes anything observable: extend with any arguments afterwards gives the same coefficients, keys, outcome and values as without the call. (Only the Hermite curve uses the period.)", "quantifier": "every curve state, every period, all sequences of measurements", "why_tests_cant": "A test sees that some period had no effect, not that none ever has.", "anchors": ["curves/src/SlerpSE3Curve.cpp: setMinSamplingPeriod", "curves/include/curves/SlerpSE3Curve.hpp: SamplingPolicy::extend<SlerpSE3Curve>", "curves/include/curves/SE3CompositionCurve-inl.hpp: setMinSamplingPeriod"]}
{"id": "C86", "title": "Printing a curve", "statement": "print of a discrete or semi-discrete curve with at least one coefficient shows their number, the range, and the coefficients in time order with their keys; with two or more, the mean time step is the length of the range divided by the number of steps and the mean distance the mean of the distances between neighbours. Printing an empty curve is undefined behaviour (an unsigned bound wraps around). A SlerpSE3Curve with two or more coefficients aborts when printed; with one its means are 0/0.", "quantifier": "every curve, every distance function", "why_tests_cant": "All curves; the wrapped bound leads to a read beyond the end of a vector.", "anchors": ["curves/src/DiscreteSE3Curve.cpp: print", "curves/src/SemiDiscreteSE3Curve.cpp: print", "curves/src/SlerpSE3Curve.cpp: print"]}
{"id": "C87", "title": "A cleared curve is like a new one", "statement": "After clear() a curve has no data: a scalar or vector spline curve is zero everywhere, a Hermite E3 or SE3 curve and a composition curve are empty and report no value (the composition curve aborts) at any time but 0. A fit after clear gives the same function of time as the same fit of a new curve; in particular clearing first is the way to keep the old points out of a Hermite E3 fit or a fit to options.", "quantifier": "every curve in any state, all fit arguments", "why_tests_cant": "All histories before the clear.", "anchors": ["curves/include/curves/PolynomialSplineScalarCurve.hpp: clear", "curves/include/curves/PolynomialSplineVectorSpaceCurve.hpp: clear", "curves/src/CubicHermiteE3Curve.cpp: clear", "curves/src/CubicHermiteSE3Curve.cpp: clear", "curves/include/curves/SE3CompositionCurve-inl.hpp: clear"]}
{"id": "C88", "title": "extend of the fitted curves does not add data", "statement": "CubicHermiteE3Curve::extend silently leaves the curve as it is, so the contract of Curve::extend fails. CubicHermiteSE3Curve::extend, the extend functions of the scalar and vector spline curves, and the fit of a vector curve to options raise an exception for all arguments; transformCurve of a scalar curve aborts.", "quantifier": "every curve, all lists of times and values", "why_tests_cant": "All arguments, the empty lists included.", "anchors": ["curves/src/CubicHermiteE3Curve.cpp: extend", "curves/src/CubicHermiteSE3Curve.cpp: extend", "curves/include/curves/PolynomialSplineScalarCurve.hpp: extend, transformCurve", "curves/include/curves/PolynomialSplineVectorSpaceCurve.hpp: extend, fitCurve"]}
{"id": "C89", "title": "What checkContainer accepts", "statement": "In real arithmetic checkContainer returns true exactly if the container time is between 0 and the duration, the active index is not negative and no spline has a negative duration. Stepping a proper container keeps this only until a step passes the end; from then on advance does nothing and checkContainer returns false for ever. In IEEE arithmetic every coefficient that is not a number is found, but a container time or a duration that is not a number is accepted.", "quantifier": "every container, all sequences of steps not longer than the splines", "why_tests_cant": "All containers and step sequences; the behaviour past the end depends on the step sizes.", "anchors": ["curves/include/curves/PolynomialSplineContainer.tpp: checkContainer, advance"]}
{"id": "C90", "title": "Sizes and times of a composition curve", "statement": "size() and getCurveTimes() of a composition curve report the corrections, isEmpty(), getMinTime() and getMaxTime() the base. getBaseCurveTimesInWindow gives the base times from the begin of the window on, without the first of the base; it aborts if the window does not end with the base or begins before it. The first extension of a new curve by (t,v) puts corrections at t and at time 0: the curve then has the value v at t, aborts at every other time, but getCurveTimes() is {0,t} in time order (only {0} for t = 0) and size() is 2. The claim that the reported times lie between getMinTime() and getMaxTime() is false.", "quantifier": "every time, value and sampling ratio", "why_tests_cant": "All times, of either sign.", "anchors": ["curves/include/curves/SE3CompositionCurve-inl.hpp: extend, size, baseSize, correctionSize, isEmpty, getMinTime, getMaxTime, getCurveTimes"]}
{"id": "C91", "title": "Rounding errors of evaluating a Hermite curve", "statement": "Evaluated in IEEE double arithmetic, a CubicHermiteE3Curve with positions at most M, segments between D and 2^200 long, and knot velocities that lead no farther than M along a segment gives at every finite time a finite position within 2^-45 M of the exact curve through the same coefficients, a velocity within 2^-45 M/D and an acceleration within 2^-44 M/D^2; it refuses exactly the times the exact curve refuses. The error is not small relative to the exact value: that can be 0 with a computed value other than 0.", "quantifier": "every consistent finite curve of any length, all finite times, all M and D between 2^-200 and 2^200", "why_tests_cant": "Error bounds hold for all doubles; tests compare a few values with a tolerance.", "anchors": ["curves/src/CubicHermiteE3Curve.cpp: evaluate, evaluateDerivative, evaluateLinearAcceleration"]}
{"id": "C92", "title": "Rounding errors of a fit and its evaluation", "statement": "Fitting in IEEE double arithmetic with fitCurve or fitCurveWithDerivatives to points of size at most M at times at least D apart, and evaluating the result, gives at every finite time the position of the exact fit of the same data within 2^-43 M, its velocity within 2^-43 M/D and its acceleration within 2^-42 M/D^2, and refuses exactly the times the exact fit refuses.", "quantifier": "all numbers of points, all finite data with M and D between 2^-200 and 2^198, end derivatives that lead no farther than M along the end segments, all finite times", "why_tests_cant": "The errors of the estimated velocities and of the evaluation add up; bounds hold for all doubles.", "anchors": ["curves/src/CubicHermiteE3Curve.cpp: fitCurve, fitCurveWithDerivatives, calculateSlope, evaluate, evaluateDerivative, evaluateLinearAcceleration"]}
{"id": "C93", "title": "Jacobian of the logarithm of a plane pose", "statement": "transformationLog hands gtsam, for every pose turned by 0 or by more than 0.01 and less than a half turn, the exact derivative of the logarithm: whichever way the pose moves, the Jacobian maps its body velocity to the rate of change of the logarithm. Between 0 and 0.01 it is within 2e-11 of it per unit of linear velocity and 4e-10 per unit of angular velocity and of the logarithm, but not exact. At a half turn the logarithm has no derivative.", "quantifier": "all differentiable motions of a pose with heading other than a half turn", "why_tests_cant": "The Jacobian must be right in every direction and at every pose, with the switch of formulas near 0; numeric differences check one pose to a tolerance.", "anchors": ["curves/include/curves/Pose2_Expressions.hpp: transformationLogImplementation, function1, function2"]}
{"id": "C94", "title": "Jacobians of slerp and of the point expressions in the plane", "statement": "slerp(T0, T1, alpha) has the value T0 at alpha 0, T1 at alpha 1 and moves with a constant body velocity in between, and the Jacobians composed along the expression are its true derivatives with respect to both poses whenever the relative angle is 0 or more than 0.01 and less than a half turn. The Jacobians of vectorScaling and pointsSubtraction are right. That of pose2AsPoint2 is right exactly for poses that are not turned.", "quantifier": "all pairs of differentiable motions of the poses, all alpha; all points, vectors and factors", "why_tests_cant": "A wrong Jacobian of a leaf shows only for turned poses; tests use the identity or compare to a tolerance.", "anchors": ["curves/include/curves/Pose2_Expressions.hpp: slerp, vectorScalingImplementation, pointsSubtractionImplementation, pose2AsPoint2Implementation"]}
{"id": "C95", "title": "Screw motion between two poses", "statement": "Evaluated between two coefficients, a semi discrete SE3 curve with the exponential and logarithm of rigid motions moves the body on a screw: it turns about an axis fixed in space at a constant rate, by at most a half turn in all, and moves along this axis at a constant rate; below a half turn the screw is the only one. All points move with one common velocity and angular velocity. Inserting a value of the curve as a coefficient changes no value. The curve through the mirrored samples is the mirrored curve if no two neighbouring poses are a half turn apart; otherwise it need not be. If exp and log work on rotation and position apart, the position moves on a straight line and the rotation about a fixed axis, and the motion is no longer uniform in the frame of the body.", "quantifier": "all pairs of neighbouring coefficients in SE(3), all times and all points of the body", "why_tests_cant": "That all points of the body follow one helix at all times cannot be seen from samples, and a half turn is an exact case.", "anchors": ["curves/src/SemiDiscreteSE3Curve.cpp: evaluate"]}
{"id": "C96", "title": "Derivative functions of the piecewise SE3 curves", "statement": "evaluateDerivative of the discrete and semi discrete SE3 curve returns a value exactly between the first and the last of at least two coefficients and aborts otherwise; orders other than 1 give zero. The first derivative is the velocity of the curve run backwards: between two coefficients with no half turn between them the body of a semi discrete curve has, in its own frame, exactly the opposite velocity, so that the result is right only for a body at rest. A discrete curve is at rest between its jumps, and gets the same result. The velocity functions of a composition curve return zero although it moves.", "quantifier": "all consistent curves, times, orders; all pairs of neighbouring poses not a half turn apart", "why_tests_cant": "The code carries the remark 'todo Verify this' and no test calls the functions; a sign is wrong for every moving curve.", "anchors": ["curves/src/SemiDiscreteSE3Curve.cpp, curves/src/DiscreteSE3Curve.cpp: evaluateDerivative; curves/include/curves/SE3CompositionCurve-inl.hpp: evaluateLinearVelocityA, evaluateAngularVelocityA"]}
{"id": "C97", "title": "What printing a curve shows", "statement": "print of a scalar spline curve shows 15 rows, evenly spaced from the first to the last time in real arithmetic, each with the value and both derivatives of the curve; for a fitted curve of order 5 the first and last row show the fitted end values. In double precision the time of the last row can lie before the end of the curve. print of a Hermite E3 curve shows the number of coefficients, the time range, and every coefficient with its key, position and time; print of a Hermite SE3 curve shows the number and the range but none of its coefficients. print of a composition curve of discrete curves shows all samples of both parts, and reads past the end if one of them is empty; of slerp curves it returns only if both parts have exactly one coefficient. print changes nothing.", "quantifier": "all curves with consistent maps, all sets of splines, all valid knots", "why_tests_cant": "The output is meant for the eye; no test reads it, and the missing lines of the SE3 version go unnoticed.", "anchors": ["curves/include/curves/PolynomialSplineScalarCurve.hpp, curves/src/CubicHermiteE3Curve.cpp, curves/src/CubicHermiteSE3Curve.cpp, curves/include/curves/SE3CompositionCurve-inl.hpp: print"]}
{"id": "C98", "title": "Polynomial splines in double precision", "statement": "With the roundings of double precision, getPositionAtTime of a PolynomialSpline of order 1 to 5 differs from the exact polynomial by at most 68 units in the last place (2^-53) of the largest term M that any coefficient contributes, getVelocityAtTime by at most 68 units of 5 M / T and getAccelerationAtTime by at most 68 units of 20 M / T^2, where T bounds the duration; nothing overflows. Times after the end give bit for bit the results at the end. Negative times, minus infinity and NaN give those at 0, where position and velocity are exactly the last two coefficients. A linear spline made from options is within 12 units of the straight line, a quadratic one within 35 units of the parabola through the given data; that they end exactly at the given position is false.", "quantifier": "all finite coefficients and times with T between 2^-150 and 2^150 and scales between 2^-900 and 2^900", "why_tests_cant": "Rounding errors depend on every bit of the inputs; tests compare a few values with a tolerance.", "anchors": ["curves/include/curves/PolynomialSpline.hpp: getPositionAtTime, getVelocityAtTime, getAccelerationAtTime; curves/include/curves/polynomial_splines_traits.hpp: tau, dtau, ddtau, compute"]}
{"id": "C99", "title": "Changing the units of a spline fit", "statement": "A fitted spline follows the units of its data. Adding a constant to all positions adds it to the fitted curve and leaves velocities and accelerations alone; constant positions at rest give a curve that does not move; for orders 3 to 5 the fit of a combination of two data sets on the same times is the same combination of the two fits. Adding a constant to all times of a PolynomialSplineScalarCurve only shifts the curve in time, for any data. Stretching the times of a cubic fit by a factor, and dividing the boundary velocities by it, stretches the curve. For order 5 the constant offset needs a solver that picks its columns from the matrix alone: with a solver that merely returns some solution it is false.", "quantifier": "all valid knots and data, orders 1 to 5, all boundary values, all offsets and positive factors", "why_tests_cant": "Tests fit one data set; that two fits are related for all offsets and all numbers of knots is a statement about pairs of runs.", "anchors": ["curves/include/curves/PolynomialSplineContainer.hpp/.tpp: setData (all variants); curves/include/curves/PolynomialSplineScalarCurve.hpp: fitCurve, evaluate, evaluateDerivative"]}
{"id": "C100", "title": "Fitting data taken from a known motion", "statement": "Column pivoting QR, which setData uses, solves every solvable system exactly in exact arithmetic and with columns that depend on the matrix alone. With any exact solver a cubic spline fitted to the values of a cubic polynomial, with its velocities at both ends, is that polynomial, for any number of knots; a quintic spline fitted to two values of a quintic polynomial with its derivatives is that polynomial. A piecewise linear fit (positions alone) of uniform motion is that motion. For three knots the quintic fit does not reproduce even uniform motion: with knots 0, 3, 9, positions 0, 3, 9 and velocity 1 at both ends, column pivoting gives a curve that stops at the middle knot; and measuring time in another unit changes the shape of the fitted curve.", "quantifier": "all valid knots, all polynomials; witnesses for the two refutations", "why_tests_cant": "The stop appears for some time units only; the tests of quintic fits look at the knots, where the position is right, and use times for which the solver happens to pick other columns.", "anchors": ["curves/include/curves/PolynomialSplineContainer.tpp: setData, lines 246-400 (colPivHouseholderQr at 314 and 391); curves/include/curves/polynomial_splines_traits.hpp: compute"]}
{"id": "C101", "title": "Times that are infinite or not a number", "statement": "Hermite curves report failure for every evaluation at an infinite time or at NaN, whatever they hold. Spline containers and scalar curves have no such answer: plus infinity is answered like the end, minus infinity like time zero, and NaN like the start of the last spline, with success and a finite number. Advancing a running container by NaN makes it run for ever: every later advance returns true and the active spline stays the same, until setContainerTime is called. A NaN among the knots passes the test for increasing knots: setData returns true; for piecewise linear data checkContainer rejects the result.", "quantifier": "all curves and containers over IEEE doubles, all special times, all later steps", "why_tests_cant": "Tests use ordinary times; that no later step ends the run is a statement about all sequences of steps.", "anchors": ["curves/include/curves/PolynomialSpline.hpp: getPositionAtTime (line 106); curves/include/curves/PolynomialSplineContainer.tpp: advance, getActiveSplineIndexAtTime, setData, checkContainer; curves/include/curves/LocalSupport2CoefficientManager-inl.hpp: getCoefficientsAt; curves/src/CubicHermiteE3Curve.cpp, CubicHermiteSE3Curve.cpp: evaluate, evaluateDerivative, evaluateLinearAcceleration"]}
{"id": "C102", "title": "Trajectories of several splines in double precision", "statement": "Position, velocity and acceleration of a container at a finite time, as computed in double precision, are those of the exact piecewise polynomial at a time that differs from the requested one by at most (n + 1) 4u L, up to the rounding error of one spline (68 u times the size of the terms); n is the number of splines, L bounds their total length and the time, u = 2^-53. For a scalar curve, which first subtracts its minimal time, the difference is at most (n + 2) 4u L. If the exact trajectory moves with speed at most V the position is off by at most the spline error plus V times this. The shift cannot be removed: at the requested time itself another spline may be in charge than the one that answers.", "quantifier": "all containers of finite splines with positive durations, all finite times, all orders 1 to 5", "why_tests_cant": "A bound for all inputs; a test compares a handful of points with a tolerance.", "anchors": ["curves/include/curves/PolynomialSplineContainer.tpp: getActiveSplineIndexAtTime, getPositionAtTime, getVelocityAtTime, getAccelerationAtTime; curves/include/curves/PolynomialSplineScalarCurve.hpp: evaluate, evaluateDerivative"]}
{"id": "C103", "title": "Numbers in saved files keep six significant digits", "statement": "A finite double that is written with toString and read back with atof changes by at most 1/100000 of its size; zero, infinities and NaN come back unchanged, and so do numbers that are the nearest double of a decimal with at most six significant digits, in particular integers below 10^6. Writing the number read gives the same text again. The order of numbers is preserved, but not strictly: all times within 5000 seconds of 1400000000 (seconds since 1970) are written as 1.4e+09. A file of times and vectors written with writeTimeVectorCSV is read by loadTimeVectorCSV with entries of this accuracy (and the times replaced by first entries, C46).", "quantifier": "all doubles; all files of finite vectors", "why_tests_cant": "A test prints a few numbers. Which doubles survive, and that none is off by more than the bound, are statements about 2^64 numbers.", "anchors": ["curves/src/helpers.cpp: toString, writeTimeVectorCSV, loadTimeVectorCSV"]}
{"id": "C104", "title": "The exported table and the MATLAB script that reads it", "statement": "The export of an SE3 curve writes rows the script readCubicHermiteSE3Curve.m can read: for every file the export completes or breaks off, the script gets one row of 14 numbers per sample, in order, each the number of the curve (time, position, rotation, velocities) up to 1/1000000. Integers, and decimals with six places below 4.5e9, are read back exactly. The script reads the first 14 words of every line however they are spaced. The order of times is preserved, and times more than 1/1000000 apart stay different up to 2^32. Times that round to the same multiple of 1/1000000 become equal; if the first two do, the step the script computes is 0 and none of its difference quotients is finite.", "quantifier": "all SE3 curves in double precision, all numbers of samples, all finite times", "why_tests_cant": "The reader is not C++ and no test runs it; the bound is for all doubles.", "anchors": ["curves/src/CubicHermiteSE3Curve.cpp: writeEvalToFile; curves/matlab/readCubicHermiteSE3Curve.m"]}
{"id": "C105", "title": "Rounding errors of SE3 curves: positions, velocities, lengths of quaternions, knots", "statement": "In double precision an SE3 curve whose times and coefficients are finite gives positions, linear velocities and accelerations as close to the exact curve as C91 states for E3 curves, whatever the functions of kindr return. If the stored quaternions and the exponentials of kindr are of length one up to e, every quaternion evaluate returns is of length one up to 5 e + 2^-46: lengths do not drift along the curve. At every knot but the last the pose returned is equal (==) to the stored one in every component.", "quantifier": "all SE3 curves in double precision with finite coefficients, segments of lengths between 2^-200 and 2^200 along which the angular velocities turn by at most 16 radians; all finite times", "why_tests_cant": "Tests compare with tolerances at a few times; that no curve of this kind is off by more is a statement about all coefficients.", "anchors": ["curves/src/CubicHermiteSE3Curve.cpp: evaluate, evaluateDerivative, evaluateLinearAcceleration"]}
{"id": "C106", "title": "Rounding errors of SE3 curves: orientations", "statement": "With an exponential and a principal logarithm accurate to e, the quaternion evaluate returns in double precision differs from that of the exact curve (with normalised knots) by at most 90 (e + 2^-46), at all times and knots, the last one included, provided that along no segment the turn between the knots that is left after the angular velocities had their share is within 34 (e + 2^-46) of a half turn. For logarithms in general the error is (18 + 9 L)(e + 2^-46), where L bounds how far the logarithm of a nearby quaternion moves. At a half turn the statement is false: two accurate logarithms may go round either way, and the orientation half way then differs by a half turn.", "quantifier": "all SE3 curves as for C105 with e at most 1/2000; all finite times", "why_tests_cant": "The error depends on the whole chain of exponentials, products and the logarithm; a test cannot show that the conditions listed are all that is needed.", "anchors": ["curves/src/CubicHermiteSE3Curve.cpp: evaluate"]}
{"id": "C107", "title": "Rounding errors of SE3 curves: angular velocities", "statement": "With an exponential and a principal logarithm accurate to e, the angular velocity evaluateDerivative returns in double precision differs from that of the exact curve (with normalised knots) by at most 19000 (e + 2^-46) / D, where D is the length of the shortest segment, at all times; at every knot, the last one included, it is the stored angular velocity up to such an error. For logarithms in general the factor is 1900 (2 + L), where L bounds how far the logarithm of a nearby quaternion moves. Both curves refuse the same times and orders.", "quantifier": "all SE3 curves as for C105 with e at most 1/10000 (1/2000 in general), away from half turns as for C106; all finite times; all orders", "why_tests_cant": "The error depends on three products of four exponentials and a derivative of the weights, and on the lengths of the segments; tests compare at a few times with tolerances.", "anchors": ["curves/src/CubicHermiteSE3Curve.cpp: evaluateDerivative"]}
{"id": "C108", "title": "What one NaN or infinity among the data spoils", "statement": "If a point given to fitCurve or fitCurveWithDerivatives of a 3-d Hermite curve has an infinite or NaN coordinate, this coordinate of the value, of the velocity and of the acceleration is infinite or NaN at all times from two knots before that point to two knots after it (exclusive at the right end), and nothing else is affected: on all other segments, and in the other coordinates everywhere, evaluation returns bit for bit the same numbers as with any other value in its place. On SE3 curves positions behave likewise, and one bad component of a rotation or of an angular velocity in a coefficient spoils all components of the orientation and of the angular velocity on the adjacent segments, provided the exponential map does not turn NaN into numbers. On polynomial splines one bad coefficient spoils positions, velocities and accelerations alike. The converse fails: finite data may overflow.", "quantifier": "all curves with finite times in double precision, all finite times of their range, all data; all exponential maps which give no finite component for a vector without a finite component; all spline orders", "why_tests_cant": "Tests use finite data; that a NaN is neither masked by a factor zero nor spread to other axes or segments is a statement about all of them.", "anchors": ["curves/src/CubicHermiteE3Curve.cpp: fitCurveWithDerivatives, evaluate, evaluateDerivative; curves/src/CubicHermiteSE3Curve.cpp: evaluate, evaluateDerivative; curves/include/curves/PolynomialSpline.hpp: getPositionAtTime, getVelocityAtTime, getAccelerationAtTime"]}
{"id": "C109", "title": "How fast a fitted curve moves and turns", "statement": "If neighbouring points of a fit are at most V times the difference of their times apart and the velocities given for the ends are at most V, the 3-d Hermite curve never moves faster than 2V; no smaller factor will do, since for every L >= 1 there are points with V = 1 on which it reaches 2 - 1/(L+1). On an SE3 curve in addition the angular speed never exceeds 3W, if neighbouring orientations are at most W times the difference of their times apart (as angles between zero and pi) and the angular velocities given for the ends are at most W. On any curve, fitted or not, the speed on a segment is bounded by the mean speed and the two stored speeds with the weights 6x(1-x), |1-4x+3x^2| and |3x^2-2x|, the angular speed by the mean angular speed and the two stored ones with the weights 6x(1-x), 1-x^2 and 1-(1-x)^2, where x runs from 0 to 1.", "quantifier": "all fits with increasing times (regular or not) to any number of points; all times of the range; all kindr logarithms that are exact and return the shortest rotation vector; all curves", "why_tests_cant": "A limit on the speed has to hold at the worst time of the worst data; tests sample times of some data. A robot is given the curve because the data respect its limits.", "anchors": ["curves/src/CubicHermiteE3Curve.cpp: fitCurveWithDerivatives, calculateSlope, evaluateDerivative; curves/src/CubicHermiteSE3Curve.cpp: fitCurveWithDerivatives, calculateSlope, evaluateDerivative"]}
{"id": "C110", "title": "Playing an SE3 curve backwards", "statement": "An SE3 curve whose knots are those of another one in reverse order, at the negated times and with negated velocities, has at time -t the position of the other one at time t and the opposite linear velocity, over the whole range. It has the same orientation on every segment on which the curve turns about one axis and the turn left between the two stored angular velocities is not half a turn. Fitting the reversed data gives the reversed curve, provided no two orientations that are two apart in the data differ by half a turn. In general orientations are not those of the curve played backwards: for every angle th between 0 and 2 pi there are two poses and end velocities of norm 8 th, about two axes, on which the fit of the reversed data has another orientation half way.", "quantifier": "all curves with unit quaternions; all fits with increasing times (regular or not) to two or more points; all kindr logarithms that are exact and return the shortest rotation vector", "why_tests_cant": "A trajectory driven back along itself is usually planned from the reversed data. Whether the orientations come out the same depends on the axes, so that tests with planar data pass.", "anchors": ["curves/src/CubicHermiteSE3Curve.cpp: fitCurveWithDerivatives, calculateSlope, evaluate, evaluateDerivative"]}
{"id": "C111", "title": "The frame fixed to the body and the unit of time", "statement": "Turning the frame that is fixed to the body by a constant rotation r and measuring time in another unit and from another origin (al t + s, al > 0) does not change the motion an SE3 curve describes: at the new time the curve through the knots with orientations q r has the same position, the orientation times r, the linear and angular velocities divided by al and the linear acceleration divided by al^2; a time at which one evaluation is refused is refused by the other. Fitting the changed data gives the changed curve. The same is not true of another origin on the body: if a body at rest at both ends only turns, by whatever rotation, the curve fitted to the poses of a point beside the origin that moves leaves the circle on which the point moves and is nearer to the centre half way.", "quantifier": "all curves with unit quaternions, all times, all unit quaternions r, scales al > 0 and offsets s; all fits with increasing times to any number of points; all kindr logarithms that are exact and commute with conjugation; all levers and pairs of orientations that move them", "why_tests_cant": "Tests use one frame and one unit of time. That a calibration between sensor and body may be applied before or after the fit as far as its rotation goes, but not its translation, concerns all calibrations.", "anchors": ["curves/src/CubicHermiteSE3Curve.cpp: fitCurveWithDerivatives, calculateSlope, evaluate, evaluateDerivative, evaluateLinearAcceleration"]}
{"id": "C112", "title": "Fitting samples of a smooth motion", "statement": "A curve fitted to positions sampled from a smooth motion, with the velocities of the motion at both ends, is near to the motion over the whole range. If the velocity of the motion changes by at most A per second and neighbouring times are at most h apart, the position is off by at most 9/32 A h^2 and the velocity by at most 3/4 A h. If moreover the times are exactly h apart and the acceleration changes by at most J per second, the position is off by at most 3/32 J h^3 and the velocity by at most 3/10 J h^2. The same holds for positions and linear velocities of fitted SE3 curves. The second order of the velocity is lost at irregular times: with the acceleration constant, J = 0, and the times -h/2, 0, h, the velocity at the middle knot is off by exactly A h / 4 for every A and h.", "quantifier": "all motions in space differentiable once (twice), all increasing lists of two or more times, all A, J and h, all times of the range", "why_tests_cant": "Unit tests compare a fit with the data at the knots only. What happens between them depends on the motion sampled, and the rates of convergence are statements about all motions and all grids.", "anchors": ["curves/src/CubicHermiteE3Curve.cpp: fitCurveWithDerivatives, calculateSlope, evaluate, evaluateDerivative; curves/src/CubicHermiteSE3Curve.cpp: fitCurveWithDerivatives, calculateSlope, evaluate, evaluateDerivative"]}
{"id": "C113", "title": "Splines through samples of a smooth function", "statement": "A spline of order 3 through samples of a smooth function, with the velocities of the function at both ends, is near to the function over the whole range, whether the knots are regular or not. If neighbouring knots are at most h apart and the velocity of the function changes by at most A per second, the position is off by at most 5/8 A h^2 and the velocity by at most 5/3 A h. If the fourth derivative is bounded by M, the position is off by at most 5/384 M h^4, the velocity by at most M h^3 / 15 and at the knots by at most M h^3 / 24. The same holds for fitted scalar curves of order 3, evaluated at absolute times, whatever accelerations are given for the ends.", "quantifier": "all functions differentiable once (four times), all valid lists of two or more knots, all bounds A and M and distances h, all times of the range, all exact solvers", "why_tests_cant": "That the velocities found by solving the linear system are near to those of the function is a statement about systems of every size; the rate of convergence is one about all functions and all grids. Tests check the knots.", "anchors": ["curves/include/curves/PolynomialSplineContainer.tpp: setData, getPositionAtTime, getVelocityAtTime; curves/include/curves/PolynomialSplineScalarCurve.hpp: fitCurve, evaluate, evaluateDerivative"]}
{"id": "C114", "title": "Rounding errors of fitting an SE3 curve: positions", "statement": "Fitting an SE3 curve in double precision and evaluating it gives, at every finite time, the positions, linear velocities and linear accelerations that exact arithmetic gives for the same times, positions and end velocities: up to 2^-43 M, 2^-43 M/D and 2^-42 M/D^2, where M bounds the positions and D is the least distance of neighbouring times; outside the range both return nothing. This does not depend on the orientations, nor on how the exponential map and the logarithm are rounded (the orientations of the two curves need not even correspond), nor on what the curves contained before. The same for fitCurve, whose end velocities are zero.", "quantifier": "all lists of finite times and positions up to 2^198 with steps of a moderate size, all orientations, all implementations of the exponential map and the logarithm, all times", "why_tests_cant": "Roundings of the slopes at the knots and of the evaluation add up differently for every input; a test compares a few values and cannot separate the positions from all possible orientations.", "anchors": ["curves/src/CubicHermiteSE3Curve.cpp: fitCurveWithDerivatives, fitCurve, evaluate, evaluateDerivative, evaluateLinearAcceleration"]}
{"id": "C115", "title": "How far fits stray from motions of bounded speed", "statement": "A Hermite curve fitted to samples of a motion that never moves faster than V, at times no more than h apart and with end velocities of at most V, is everywhere within 3/4 V h of the motion, and this is reached; the motion need not be differentiable. For SE3 curves, if the motion turns at most W per second and the end angular velocities are at most W, orientations are moreover within an angle of 5/3 W h of those of the motion, and the curve itself turns by at most 3 W (t - s) between any times s <= t. In particular this holds for fitCurve, whose end velocities are zero.", "quantifier": "all motions of bounded speed (no smoothness), all increasing lists of times with steps up to h, all end velocities within the bound, all times between the first and the last", "why_tests_cant": "The bound compares the curve with a continuum of unknown motions between the samples; a test knows one motion and finitely many times.", "anchors": ["curves/src/CubicHermiteE3Curve.cpp: fitCurveWithDerivatives, fitCurve, evaluate; curves/src/CubicHermiteSE3Curve.cpp: fitCurveWithDerivatives, fitCurve, evaluate"]}
{"id": "C116", "title": "Accelerations of splines through samples of a smooth function", "statement": "When a container or scalar curve of order 3 is set to samples of a function at times no more than h apart, with the derivatives of the function at the ends, the accelerations it returns are those of the function up to 3/8 M h^2 at every time, and up to M h^2/4 at the knots, where M bounds the fourth derivative. The times may be irregular, and no accelerations at the ends are needed; those given to the scalar curve are not used.", "quantifier": "all functions with a bounded fourth derivative, all strictly increasing lists of at least two times, all times between the first and the last, all exact solvers", "why_tests_cant": "The error bound is about every smooth function and every mesh; convergence cannot be read off finitely many fits.", "anchors": ["curves/include/curves/PolynomialSplineContainer.tpp: setData, getAccelerationAtTime; curves/include/curves/PolynomialSplineScalarCurve.hpp: fitCurve, evaluateDerivative"]}
{"id": "C117", "title": "How far a change of the data reaches in a spline fit", "statement": "When the velocity at the start of a fit of order 3 is changed, the velocity at the i-th knot changes by at most 2^-i of that, and positions between knots i and i+1 by at most 2^-i of it times a quarter of the step; but, except at the last knot, if the velocity at the start changes at all then so does the velocity at every knot. Likewise backwards for the velocity at the end. When one sample is changed by e, the velocity at a knot k places away changes by at most 3 e / d, halved k-1 times, where d is the shortest step; positions change by at most e (1 + 3/4 s/d) on a step of length s, and between knots other than the changed one by at most 3/4 e s/d halved as often. Nothing depends on what the container held before.", "quantifier": "all strictly increasing lists of at least two knots, all samples and end velocities, all changes, all times between the first and the last knot, all exact solvers", "why_tests_cant": "A fit couples all knots through one linear system; a test sees single changes in single lists and cannot bound how far they reach.", "anchors": ["curves/include/curves/PolynomialSplineContainer.tpp: setData, addJunctionsConditions, getPositionAtTime, getVelocityAtTime"]}
{"id": "C118", "title": "Looking up a coefficient up to a tolerance", "statement": "The private hasCoefficientAtTime(time, it, tol) of the coefficient manager answers yes exactly if some coefficient is within tol of the time, and then leaves the iterator at the earliest such coefficient; if not, it leaves the iterator at the earliest coefficient not before time - tol, or at the end if there is none; with a negative tolerance it finds nothing. In double precision the default tolerance 0, the one insertCoefficient uses, gives the comparison of the times themselves for every time including infinities and NaN; a tolerance that is NaN finds nothing; a tolerance of at most 2^-55 of the time has the same effect as 0, even a negative one (so at present-day time stamps in seconds anything below 2^-25 s is ignored).", "quantifier": "all managers, all times and tolerances (real numbers; for the statements about doubles all doubles)", "why_tests_cant": "A test uses a few times and tolerances, and rounding makes the answer differ from the one expected only for combinations of large times and small tolerances.", "anchors": ["curves/include/curves/LocalSupport2CoefficientManager-inl.hpp: hasCoefficientAtTime (private, lines 400-413), insertCoefficient"]}
{"id": "C119", "title": "Fitting inaccurate samples", "statement": "Two curves fitted at the same times to points that differ by at most e, with velocities at the ends differing by at most w, differ everywhere by at most e plus the larger of e/2 and h w/4, where h is the longest step; at equidistant times by at most e plus the larger of e/4 and h w/4. No other property of the times enters: neither their distances nor their number amplifies errors. So measurements with errors of at most e of a motion no faster than V give a curve within 3/4 V h + 3/2 e of the motion. For SE3 curves the same holds of the positions whatever the orientations. The factor 5/4 for equidistant times is reached, and the factor 3/2 is approached when a step lies between much shorter ones. Velocities differ by at most 3 e/d plus the larger of e/d and w, where d is the shortest step.", "quantifier": "all strictly increasing lists of at least two times, all points and velocities within the given distances, all times between the first and the last", "why_tests_cant": "A test perturbs single data sets; whether close or irregular times amplify measurement errors is a question about all of them.", "anchors": ["curves/src/CubicHermiteE3Curve.cpp: fitCurveWithDerivatives, calculateSlope, evaluate; curves/src/CubicHermiteSE3Curve.cpp: fitCurveWithDerivatives, calculateSlope, evaluate"]}
{"id": "C120", "title": "Fitting inaccurate samples with splines", "statement": "Two fits of order 3 through samples that differ by at most e, with velocities at the ends differing by at most w, at the same knots between d and h apart, differ in position by at most e + h/4 max(6 e/d, w) and in the velocities at the knots by at most max(6 e/d, w). So samples with errors of at most e of a function whose fourth derivative is bounded by M give a curve within 5/384 M h^4 plus that of the function. The ratio h/d cannot be dropped: with a short step before a step of length 1, errors of at most 1 move the middle of the longer step by more than any given distance (unlike for Hermite fits, C119).", "quantifier": "all strictly increasing lists of at least two knots, all samples and end velocities within the given distances, all times between the first and the last knot, all exact solvers", "why_tests_cant": "A test perturbs single data sets; a bound, or the absence of one, is a statement about all sets of knots.", "anchors": ["curves/include/curves/PolynomialSplineContainer.tpp: setData, addJunctionsConditions, getPositionAtTime, getVelocityAtTime"]}
{"id": "C121", "title": "From measurements in double precision back to the motion", "statement": "Points measured with errors of at most e at times at most h apart, held in doubles of size at most M, are fitted and evaluated in double precision. If the motion is no faster than V and neither are the velocities given at the ends, the result at every double between the first and the last time is finite and within 3/4 V h + 3/2 e + 2^-42 M of the motion. If its velocity changes by at most A per second and the velocities given at the ends are wrong by at most w, positions are within 9/32 A h^2 + e + max(e/2, h w/4) + 2^-42 M and velocities within 3/4 A h + 3 e/D + max(e/D, w) + 2^-42 M/D, where D is the shortest step. The bound on positions holds for SE3 curves too, whatever the orientations and however the exponential map and the logarithm are rounded.", "quantifier": "all lists of at least two finite times and points within the stated bounds (sizes and steps between 2^-200 and 2^198), all motions and measurement errors within the stated bounds, all finite times between the first and the last", "why_tests_cant": "Tests compare with values computed by the same arithmetic from the same samples; the distance to the motion itself, over all motions, times and roundings, is out of their reach.", "anchors": ["curves/src/CubicHermiteE3Curve.cpp: fitCurveWithDerivatives, calculateSlope, evaluate, evaluateDerivative; curves/src/CubicHermiteSE3Curve.cpp: fitCurveWithDerivatives, calculateSlope, evaluate"]}
{"id": "C122", "title": "Discrete curves through measurements of a motion", "statement": "If every coefficient of a discrete curve lies within e of a motion at its time, the motion changes by at most L per second and neighbouring coefficients are at most h apart, then the curve evaluated anywhere between its first and its last time lies within L h/2 + e of the motion; in particular a curve fitted to such measurements does, in whatever order they are given. Its values at two times differ by at most L times the time between them plus L h + 2 e. The first bound is reached halfway between two samples for every L, h and e.", "quantifier": "all value types and all distances on them that satisfy the triangle inequality (positions of poses, angles between orientations, ...), all motions, all curves with consistent coefficients, all lists of times and measurements within the stated bounds, all times in range", "why_tests_cant": "The distance to the sampled motion between the samples depends on the whole motion; a test knows finitely many of its values.", "anchors": ["curves/src/DiscreteSE3Curve.cpp: evaluate, fitCurve; curves/include/curves/LocalSupport2CoefficientManager-inl.hpp: getCoefficientsAt, insertCoefficients"]}
{"id": "C123", "title": "SE(2) curves through poses of a vehicle", "statement": "A SlerpSE2Curve is fitted to measured poses, in any order, of a vehicle that drives no faster than V and turns no faster than W, at times at most h apart; positions are measured with errors of at most p and headings with errors of at most q, and W h + 2 q is less than half a turn. Then at every time in range the heading of the curve is within W h/2 + q of that of the vehicle and its position within V h/2 + p + (V h + 2 p)(W h + 2 q)/5. Without errors the bound on the heading and the term V h/2 are reached by a vehicle that moves forth and back between two samples, for all V, W and h. If the vehicle makes three quarters of a turn between two samples, the curve points in the opposite direction in the middle: the condition on W h cannot be dropped.", "quantifier": "all motions of the vehicle and measurements within these bounds (headings counted with full turns, so no jumps at half a turn), all non-empty lists of sample times, all times in range; more generally all consistent curves holding such poses", "why_tests_cant": "The distance to the vehicle between the samples depends on its whole motion; a test knows finitely many of its poses.", "anchors": ["curves/src/SlerpSE2Curve.cpp: evaluate, fitCurve; curves/include/curves/Pose2_Expressions.hpp: slerp"]}
{"id": "C124", "title": "Semi-discrete curves through poses of a body", "statement": "A SemiDiscreteSE3Curve is fitted to measured poses, in any order, of a body; a point of the body moves no faster than V, its measured places are within e of the true ones, and the times are at most h apart. Then at every time in range the place where the pose of the curve puts that point is within V h/2 + e + (V h + 2 e) D/5 of where it is, where D is any bound on the angle between the rotations of neighbouring samples; D = pi always works, so no condition on the turning is needed. The term V h/2 is reached for all V and h, and it alone does not suffice: with half a turn between two samples a position is further off. If exponential and logarithm act on the position componentwise, the position is within V h/2 + e however far the body turns.", "quantifier": "all motions, all points of the body, all measurements within these bounds, all non-empty lists of sample times, all times in range; more generally all consistent curves holding such poses", "why_tests_cant": "The distance to the body between the samples depends on its whole motion; a test knows finitely many of its poses.", "anchors": ["curves/src/SemiDiscreteSE3Curve.cpp: evaluate, fitCurve"]}
{"id": "C125", "title": "Semi-discrete curves through orientations of a body", "statement": "A SemiDiscreteSE3Curve is fitted to measured poses, in any order, of a body that turns no faster than W; the measured orientations are within the angle q of the true ones, the times are at most h apart, and W h + 2 q is less than half a turn. Then at every time in range the orientation of the curve is within W h/2 + q of that of the body. This holds whether exponential and logarithm act on poses or on position and rotation separately. The bound W h/2 is reached for all W and h with W h less than half a turn. If the body makes three quarters of a turn between two samples, the curve turns the other way and is half a turn off in the middle: the condition cannot be dropped.", "quantifier": "all motions of the body (changing axes included) and measurements within these bounds, all non-empty lists of sample times, all times in range; more generally all consistent curves holding such poses", "why_tests_cant": "The angle to the true orientation between the samples depends on the whole motion; a test knows finitely many of its orientations.", "anchors": ["curves/src/SemiDiscreteSE3Curve.cpp: evaluate, fitCurve"]}
{"id": "C126", "title": "Fitting inaccurate orientations", "statement": "A CubicHermiteSE3Curve is fitted to poses of a body that turns by at most W per second; the orientations are measured with errors of at most e (as angles), at times at most h apart, and the angular velocities given for the ends are at most W. Then at every time in range the orientation of the curve is within 5/3 W h + 10/3 e of that of the body, whatever the positions, however far the body turns between two samples and however the lengths of the steps differ. The same for fitCurve, which takes zero for the velocities at the ends. The errors do count more than once: a body at rest, measured at four equidistant times with errors of e, gives an orientation that is off by 5/4 e halfway, for all e between 0 and 1.", "quantifier": "all motions of the body (changing axes included), all measurements within these bounds, all lists of at least two increasing times, all times in range", "why_tests_cant": "The angle to the true orientation between the samples depends on the whole motion and on all measurement errors; a test knows finitely many.", "anchors": ["curves/src/CubicHermiteSE3Curve.cpp: fitCurve, fitCurveWithDerivatives, calculateSlope, evaluate"]}
{"id": "C127", "title": "Speed of a spline through samples of a motion of bounded speed", "statement": "Let the mean speed from each sample to the next be at most V, and the velocities given for the two ends at most W, where W is at least 3 V. Then the spline of order 3 that setData(times, values, velocities at the ends) stores is nowhere faster than W, however many samples there are and however the lengths of the steps differ. If the samples are those of a motion that is nowhere faster than V, which may have corners, then positions of the spline are within h (V/2 + W/4) of it at every time, for steps of at most h. Scalar curves fitted with zero velocities at the ends thus stay within 5/4 V h of the motion and below 3 V. That the spline be no faster than the motion is false: a single step at rest at both ends reaches 3/2 of its mean speed.", "quantifier": "all lists of at least two increasing times and all samples and end velocities within these bounds; all motions of speed at most V; all times in range", "why_tests_cant": "Overshoot between the samples depends on all samples, through the system solved for the coefficients, and on the ratios of the steps; a test has finitely many of each.", "anchors": ["curves/include/curves/PolynomialSplineContainer.tpp: setData; curves/include/curves/PolynomialSplineScalarCurve.hpp: fitCurve, evaluate, evaluateDerivative"]}
{"id": "C128", "title": "When a fitted curve does not turn back", "statement": "Let the points given to a CubicHermiteE3Curve never decrease in some coordinate, and let the mean velocities of neighbouring steps in this coordinate differ by at most the factor 3, or by at most the factor 5 if all steps last equally long. Let the velocities given for the ends lie between zero and three times the mean velocity of the first and the last step, as the zero velocities that fitCurve takes do. Then the coordinate of the fitted curve never decreases, at any two times in range. The same holds for the positions of a CubicHermiteSE3Curve, whatever its orientations. Neither 3 nor 5 can be replaced by any larger number: there are points that only ever advance and a fitted curve through them that turns back.", "quantifier": "all numbers of points, all increasing times, all points and end velocities within these bounds, all pairs of times in range; for the last statement all factors above 3 and 5", "why_tests_cant": "A curve may turn back for a short time between any two points; a test evaluates finitely many times of finitely many curves.", "anchors": ["curves/src/CubicHermiteE3Curve.cpp: fitCurve, fitCurveWithDerivatives, calculateSlope, evaluate; curves/src/CubicHermiteSE3Curve.cpp: the same"]}
{"id": "C129", "title": "How far piecewise linear trajectories stray", "statement": "setData(times, values), without velocities, stores for every order from 1 to 5 a trajectory that never leaves the range of the values. If the values are measured with errors of at most e from a motion, at times at most h apart, its positions are within e + V h/2 of the motion when that is nowhere faster than V, and within e + A h^2/8 when its velocity changes by at most A per second. So are, for orders 1 and 2, those that setData stores when end velocities and accelerations are given, which these orders ignore. Both bounds are reached, with the errors on top. In contrast to splines of order 3 (C120) the factor of the errors is one, whatever the steps.", "quantifier": "all orders from 1 to 5, all lists of at least two increasing times, all values, motions and errors within these bounds, all times in range", "why_tests_cant": "The distance from the motion is a statement about all times between the samples and all motions through them; a test knows finitely many.", "anchors": ["curves/include/curves/PolynomialSplineContainer.tpp: setData (two, four and six arguments), getPositionAtTime"]}
{"id": "C130", "title": "Accelerations of fitted curves", "statement": "Points at increasing times, with velocities for both ends, are given to a CubicHermiteE3Curve. Let the mean velocities of neighbouring steps differ by at most A times the time between the middles of the steps, likewise those of the first and last step and the velocities at the ends, and let the lengths of neighbouring steps differ by at most the factor r. Then the acceleration that evaluateDerivative(time, 2) reports is at most 3 A r at every time in range. It is so for samples of any motion whose velocity changes by at most A per second, with its velocities at the ends. The same holds for the linear accelerations of a CubicHermiteSE3Curve, whatever its orientations. The factor three is reached by four points at equal steps.", "quantifier": "all numbers of points, all increasing times, all points and end velocities within these bounds, all times in range, both ends and the points included", "why_tests_cant": "The acceleration jumps at every point and is largest next to one; a test sees finitely many fits and times.", "anchors": ["curves/src/CubicHermiteE3Curve.cpp: fitCurveWithDerivatives, calculateSlope, evaluateDerivative; curves/src/CubicHermiteSE3Curve.cpp: the same, evaluateLinearAcceleration"]}
