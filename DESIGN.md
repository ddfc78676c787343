# Design of the verification of ethz-asl/curves

The code under study is the C++ source in `/repo` (packages `curves` and
`curves_ros`).  Everything below is about a model of that source written in
Rocq/Coq 8.16.1, in `rocq/theories/` (logical name `Verif`).

## 1. How the code is modelled

**Outcomes.**  Every modelled function that can fail returns an `outcome`:
`Ok v`, `Abort` (a failed glog `CHECK`), `Throw` (a C++ exception) or `UB`
(undefined behaviour: dereferencing `end()`, decrementing `begin()`, using an
erased iterator, indexing outside a vector, signed overflow).  Undefined
behaviour is therefore something a theorem can talk about, not something
assumed away.

**Numbers.**  The numeric code is written once, over a record of arithmetic and
comparison operations (`Num`).  It is instantiated with the reals (for the
analysis theorems: idealised arithmetic, no rounding), with the rationals (for
executable examples) and with IEEE binary64 from Flocq (for the theorems about
rounding and for witnesses that must be real machine runs).

**Times in the coefficient manager.**  The manager only compares times.  It is
modelled over any type with a strict weak order, so its theorems hold for the
reals and for IEEE doubles other than NaN (with `-0.0` equivalent to `+0.0`)
alike.  NaN keys violate the precondition of `std::map` and are excluded; NaN as the time of
a query is allowed (`tnum`: `==` and `<=` are false for it, the equivalence of the map is not).

**std::map and iterators.**  `std::map<Time,...>` is its in-order list of nodes.
A node carries an identity (its address); an iterator is such an identity or
`end`.  Erasing a node makes its identity unknown, and following an iterator to
an unknown node is `UB`.  `boost::unordered_map<Key,iterator>` is an association
list.  Red-black balancing, hashing and memory allocation are not modelled
(`std::bad_alloc` never happens).

**Integers.**  `size_t` arithmetic of the key counter wraps modulo 2^64, `unsigned int`
arithmetic in `setData` and in the CSV functions modulo 2^32.  `int` counters are
modelled in Z; overflow is `UB` where the code can reach it (sampling count,
`nSamples-1`), and the bound is stated in the theorem otherwise.

**External libraries.**  Eigen's `colPivHouseholderQr().solve` is an oracle
`solve` with the single assumption that it returns an exact solution of a
consistent linear system (`exact_solver`).  It is a hypothesis of the theorems,
never an axiom; a Gaussian elimination is proved to satisfy it (`gauss_exact`), so the
hypothesis is satisfiable and the model can be executed.  `ColPiv.v` models the column
pivoting decomposition itself in exact arithmetic and proves it exact (C100); theorems that
need the same columns to be used for every right side assume `basic_solver`, which it satisfies too.  kindr's quaternion
operations are modelled by their mathematical definition (Hamilton product,
`exp` with half angle); its logarithm is an oracle with the law `exact_kindr`
(`exp (log q)` is the same rotation as `q`), and `QuatLog.v` constructs one.  For the
discrete and composition curves SE3 is an arbitrary group.  glog, boost::mutex, iostreams
and ROS message types are modelled only as far as stated in the comment of the definition
concerned.

**Loops that may not end** (the sampling export) take a bound on the number of times
their condition is tested; the theorems quantify over the bound.

Each definition in a model file carries a comment with the file and the lines
it models, and says what is simplified.  Specifications are in separate files
(`*Spec.v`) or at the top of the `Props_*.v` file and do not use model functions
beyond the observers of the API.

## 2. Files

| model | specification | proofs | theorems | C++ source |
|---|---|---|---|---|
| `Base.v`, `Num.v`, `TimeOrder.v` | | `TimeInst.v`, `TimeB64.v`, `NumB64.v` (instances) | | |
| `KeyGen.v` | | `KeyGenProofs.v` | `Props_KeyGen.v` | KeyGenerator.cpp |
| `Manager.v`, `Tolerance.v` | `ManagerSpec.v` | `ManagerProofs.v`, `ManagerProofs2.v`, `ManagerProofs3.v`, `ManagerMap.v` (renaming of times) | `Props_Manager.v`, `Props_Tolerance.v` | LocalSupport2CoefficientManager(-inl).hpp |
| `ManagerCopy.v` | | | `Props_Copy.v` | the implicit copy of that class |
| `Sampling.v` | `SamplingSpec.v` | `SamplingProofs.v` | `Props_Sampling.v`, `Props_Sampling2.v` | SamplingPolicy.hpp, SlerpSE3Curve, CubicHermiteSE3Curve (extend, fitCurve) |
| `Spline.v` | `SplineSpec.v`, `LinSpec.v` | `SplineProofs.v` | `Props_Spline.v` | polynomial_splines_traits.hpp, PolynomialSpline.hpp |
| `Container.v` | `ContainerSpec.v`, `SetDataSpec.v` | `ContainerProofs.v`, `SetDataSys.v`, `SetDataProofs.v`, `SetDataExist.v`, `SetDataTraj.v`, `SetDataTop.v`, `SetDataUnique.v`, `SetDataEnergy.v` | `Props_Container.v`, `Props_SetData.v`, `Props_SetData2.v` | PolynomialSplineContainer.hpp/.tpp |
| `ColPiv.v` (Eigen's solver) | `BasicSolver.v` | `SetDataBasic.v`, `ColPivQ.v` | `Props_Units.v`, `Props_ColPiv.v`, `Props_SplineRate.v`, `Props_SplineAccel.v`, `Props_SplineDecay.v`, `Props_SplineNoise.v`, `Props_SplineSpeed.v`, `Props_Linear.v` | PolynomialSplineContainer.tpp (setData) |
| `SplineCurves.v` | | | `Props_SplineCurves.v` | PolynomialSplineScalarCurve.hpp, PolynomialSplineVectorSpaceCurve.hpp |
| `HermiteE3.v` | `HermiteSpec.v` | `HermiteE3Proofs.v`, `HermiteB64.v`, `HermiteErr.v` | `Props_HermiteE3.v`, `Props_Hermite2.v`, `Props_Binary64.v`, `Props_Rounding.v`, `Props_RoundFit.v`, `Props_RoundSE3Fit.v`, `Props_Sampled.v`, `Props_Tracking.v`, `Props_TurnNoise.v`, `Props_Noise.v`, `Props_EndToEnd.v`, `Props_Forward.v`, `Props_Accel.v` | CubicHermiteE3Curve.cpp/.hpp |
| `Quat.v`, `HermiteSE3.v` | `QuatSpec.v`, `HermiteSE3Spec.v` | `QuatProofs.v`, `QuatLog.v`, `HermiteSE3Proofs.v`, `HermiteSE3Curve.v`, `HermiteSE3Motion.v` | `Props_HermiteSE3.v`, `Props_Hermite2.v`, `Props_Speed.v`, `Props_Reverse.v`, `Props_Body.v` | CubicHermiteSE3Curve.cpp/.hpp |
| `Csv.v` | | | `Props_Csv.v` | helpers.cpp |
| | | `QuatDist.v`, `QuatErr.v`, `QuatLip.v` | `Props_RoundSE3.v`, `Props_HalfTurn.v`, `Props_RoundAngular.v`, `Props_NonFinite.v` | CubicHermiteSE3Curve.cpp in double precision |
| `Digits.v` | | `DigitsProofs.v` | `Props_Digits.v` | the digits written by toString (helpers.cpp) and fprintf, atof |
| `Matlab.v` | | | `Props_Matlab.v` | matlab/readCubicHermiteSE3Curve.m |
| `Export.v` | | | `Props_Export.v` | writeEvalToFile and saveCurve functions of the Hermite curves |
| `Discrete.v` | `DiscreteSpec.v` | `DiscreteProofs.v` | `Props_Discrete.v`, `Props_DiscreteSampled.v` | DiscreteSE3Curve.cpp, SemiDiscreteSE3Curve.cpp |
| `Slerp2.v`, `Se2.v` (the group SE(2)) | | | `Props_Slerp2.v`, `Props_Piecewise.v`, `Props_Vehicle.v` | SlerpSE2Curve.cpp, Pose2_Expressions.hpp (slerp) |
| `Se3.v` (the group SE(3)) | | | `Props_Se3.v`, `Props_SemiSampled.v`, `Props_SemiTurned.v` | SemiDiscreteSE3Curve.cpp (evaluate), with kindr::minimal::QuatTransformation |
| `Velocity.v` | | | `Props_Velocity.v` | evaluateDerivative of DiscreteSE3Curve.cpp, SemiDiscreteSE3Curve.cpp; velocities of SE3CompositionCurve-inl.hpp |
| `Printing.v` | | | `Props_Printing.v` | print of PolynomialSplineScalarCurve.hpp, CubicHermiteE3Curve.cpp, CubicHermiteSE3Curve.cpp, SE3CompositionCurve-inl.hpp |
| | | `SplineErr.v` | `Props_RoundSpline.v`, `Props_RoundContainer.v` | PolynomialSpline.hpp and PolynomialSplineContainer.tpp in double precision |
| | | | `Props_Special.v` | queries at infinite times and NaN |
| `RepoTests.v` | | | | curves/test, run in the model |
| `Pose2Expr.v` | | `Pose2Proofs.v` | `Props_Jacobian.v` | Pose2_Expressions.hpp |
| `SlerpSE3.v` | | | `Props_SlerpSE3.v` | SlerpSE3Curve.cpp, saving and printing of the discrete and composition curves, SE3CurveFactory.cpp |
| | | | `Props_Clear.v` | clear, extend, checkContainer and the size functions of all curves |
| `Composition.v` | | `CompositionProofs.v` | `Props_Composition.v` | SE3CompositionCurve-inl.hpp |
| `Ros.v` | | | `Props_Ros.v` | curves_ros/src/*.cpp |

## 3. The properties

After each theorem: what `Print Assumptions` lists for it (codes in section 4).  All theorems of a property are in the `Props_*.v` file named.

### C01 Keys are unique under every thread schedule — proved

Modelled: `getNextKey` as four atomic steps per thread (lock, load, store, unlock and return) over one counter of 2^64 values; a schedule is any list of thread numbers. Proved by an invariant of the transition system (at most the owner is inside; the log is an initial segment of the sequence 1, 2, ...), by induction on the schedule. The wrap-around after 2^64 calls refutes the unbounded claim.

Theorems (`Props_KeyGen.v`): `C01_keys_unique` [closed], `C01_keys_sequence` [closed], `C01_unbounded_unique_refuted` [closed].

Extent: Interleaving semantics of lock / increment / unlock for any number of threads and any schedule; wrap-around after 2^64 calls proved as _refuted for the unbounded claim.

### C02 A manager stays internally consistent under any history — proved

Modelled: a process is a key counter and a list of managers; calls are an inductive type, a history is a list of (manager, call). Proved: the invariant `consistent` (nodes sorted, identities and keys distinct, index and nodes in bijection, keys below the counter and disjoint between managers) is preserved by every call, then induction on the history.

Theorems (`Props_Manager.v`): `C02_history_consistent` [closed], `C02_reachable` [closed].

Extent: Induction over arbitrary call histories on any number of managers; no undefined behaviour except where call_defined excludes it (C11, C12, C13 describe these cases).

### C03 insertCoefficient is map assignment with a stable key — proved

Proved on consistent managers against the observer relation `holds m t k c` (a coefficient c with key k at a time equivalent to t): case analysis on the linear scan, then `map_insert` on sorted lists.

Theorems (`Props_Manager.v`): `C03_insert` [closed], `C03_insert_twice` [closed].

Extent: For every consistent manager, which every reachable one is (C02_reachable).

### C04 Bulk insertion equals one-by-one insertion, last value wins — proved

Induction on the list of pairs, with C03 for each step; `last_value` is the specification of which value wins.

Theorems (`Props_Manager.v`): `C04_bulk_abort_iff` [closed], `C04_bulk_values` [closed], `C04_bulk_order` [closed].

Extent: Values, keys, positions, abort condition, order independence.

### C05 Time listing is sorted, duplicate free and complete — proved

Consequences of the invariant; `C05_reachable` states them for every state reachable by a history, so that a fault in any modifying call breaks it.

Theorems (`Props_Manager.v`): `C05_listing` [closed], `C05_reachable` [closed].

Extent: Consequences of the invariant.

### C06 Look-ups by key and by time agree — proved

Consequences of the bijection between index and nodes; stated for consistent and for reachable managers.

Theorems (`Props_Manager.v`): `C06_lookup` [closed], `C06_reachable` [closed].

Extent: Listed keys and unknown keys.

### C07 Removal removes exactly one coefficient — proved

Case analysis on the node found; the effect of erase on sorted lists with distinct identities.

Theorems (`Props_Manager.v`): `C07_remove` [closed], `C07_insert_remove` [closed].

Extent: Including insert-then-remove.

### C08 Updating by key changes one value and nothing else — proved

In place update of one node; order independence of the many-value version by permutation induction.

Theorems (`Props_Manager.v`): `C08_update` [closed], `C08_update_many_order` [closed], `C08_update_many_values` [closed].

Extent: Including order independence of updateCoefficients.

### C09 Active coefficients bracket the query time — proved

`upper_bound` on a sorted list and the special case at the maximum time: complete characterisation of success and of the pair returned.

Theorems (`Props_Manager.v`): `C09_domain` [closed], `C09_bracket` [closed], `C09_reachable` [closed].

Extent: Complete characterisation of success and of the bracket; instantiated for IEEE doubles.

### C10 getTimesInWindow returns the times of the window, except the first knot — proved

Loop invariant of the backward loop; the missing first time and the undefined behaviour with fewer than two coefficients are separate theorems.

Theorems (`Props_Manager.v`): `C10_window` [closed], `C10_first_missing` [closed], `C10_abort_and_ub` [closed].

Extent: The missing first knot and the undefined behaviour for fewer than two coefficients are theorems.

### C11 Batch modification overwrites a contiguous run of values only — proved

Two loops (search backwards, write forwards) by induction; success, abort and undefined behaviour are characterised.

Theorems (`Props_Manager.v`): `C11_batch` [closed], `C11_batch_other` [closed].

Extent: Success, abort and undefined behaviour cases.

### C12 Appending at the end — proved

Case analysis; a consequence of sorted insertion behind the last node.

Theorems (`Props_Manager.v`): `C12_add_at_end` [closed].

Extent: Success, abort and undefined behaviour cases.

### C13 Moving a coefficient keeps its key, unless the target time is taken — proved

Moving is insert, erase, re-index: three cases (free time, own time, time of another coefficient). The own time case erases the coefficient; the taken time case loses one coefficient.

Theorems (`Props_Manager.v`): `C13_move` [closed], `C13_move_own_time` [closed], `C13_move_taken_time` [closed].

Extent: The lost coefficient / dangling key and the aliasing case are theorems.

### C14 clear forgets everything — proved

Observations by computation; replay by refinement of a manager to a sorted association list (`contents`), for histories that do not mention keys.

Theorems (`Props_Manager.v`): `C14_clear_observations` [closed], `C14_clear_replay` [closed], `C14_refinement` [closed].

Extent: Observations after clear and replay of any key-free history, by refinement to a sorted association list.

### C15 Down-sampling keeps one knot per n measurements and always the newest one — proved

Modelled: the slerp policy on the manager. Proved by induction over the measurements with an explicit description of which measurements are kept.

Theorems (`Props_Sampling.v`, `Props_Sampling2.v`): `C15_kept_measurements` [closed], `C15_count_and_newest` [closed], `C15_default_ratio` [closed].

Extent: Exact set of kept measurements, count, newest and first two, for every ratio and sequence; over any time order. A curve whose ratio was not set keeps every measurement (C15_default_ratio).

### C16 Out of order measurements in extend — proved

Ratio one by induction; the defects by case analysis on every state of the down-sampling phase and by computed runs.

Theorems (`Props_Sampling.v`): `C16_ratio_one` [closed], `C16_unordered_accepted` [closed], `C16_repeated_time_destroys` [closed], `C16_key_lookup_after_extend_refuted` [closed], `C16_clear_is_not_new_refuted` [closed].

Extent: Ratio 1 characterised; loss of the newest coefficient for every state in the down-sampling phase; two refutations by computed runs.

### C17 Hermite sampling policy keeps the newest measurement and promotes every n-th — proved

Modelled: both branches of the Hermite policy. Proved by induction over the measurements against a small separate machine (`SamplingSpec.v`) that lists the permanent points, the preliminary point and their slopes.

Theorems (`Props_Sampling.v`, `Props_Sampling2.v`): `C17_curve` [closed], `C17_newest_and_spacing` [closed], `C17_count_without_period` [closed], `C17_not_newer_aborts` [closed], `C17_default_settings` [closed].

Extent: Exact contents of the curve, spacing of permanent points, count without a period, abort for older measurements. Settings of a new curve: C17_default_settings.

### C18 Spline evaluation is the polynomial on the clamped time — proved

Inner products of coefficients and time vectors over R, by `ring`; clamping by case analysis.

Theorems (`Props_Spline.v`): `C18_position` [A], `C18_constant_outside` [A], `C18_default` [A].

Extent: Over the reals, orders 1 to 5.

### C19 Velocity and acceleration getters are the true derivatives — proved

Derivatives with Coquelicot's `is_derive` inside and one-sided limits at the ends; a spline with non-zero end slope refutes differentiability everywhere.

Theorems (`Props_Spline.v`): `C19_derivatives_inside` [C], `C19_derivatives_ends` [C], `C19_derivative_everywhere_refuted` [A].

Extent: Interior derivatives and one sided derivatives at the ends; differentiability everywhere is refuted.

### C20 Time vector accessors return the vector they name — proved

By computation for the orders 1 to 5; getDDiffTimeVector returns the first derivative (refuted with a witness).

Theorems (`Props_Spline.v`): `C20_time_vectors` [A], `C20_time_vectors_length` [A], `C20_at_zero` [A], `C20_add_variants` [A], `C20_ddiff_refuted` [A].

Extent: Time vectors, values at zero and the add variants; one accessor is refuted with a witness.

### C21 Spline from boundary conditions meets its boundary conditions — proved

`compute` with the solver oracle: an explicit solution shows the system consistent, so an exact solver returns some solution, whose rows are the boundary conditions; uniqueness by elimination.

Theorems (`Props_Spline.v`): `C21_boundary` [A], `C21_unique` [A].

Extent: Boundary conditions and uniqueness, for any exact linear solver; Gaussian elimination is shown to be one.

### C22 Active spline look-up partitions the time axis — proved

Induction over the splines with the running offset.

Theorems (`Props_Container.v`): `C22_lookup` [A], `C22_cases` [A], `C22_unique` [A], `C22_empty` [A].

Extent: Over the reals, any number of splines.

### C23 Container evaluation is the piecewise spline — proved

From C22; the evaluation agrees with a separately defined piecewise function.

Theorems (`Props_Container.v`): `C23_at_time` [A], `C23_outside` [A], `C23_end` [A], `C23_empty` [A], `C23_duration` [A].

Extent: Fewer than 2^31 splines.

### C24 Stepping the container time agrees with random access, for small steps — proved

Invariant: active index and offset are those of C22 for the current time, as long as a step does not jump over a spline; refuted by computed runs for large, negative and late steps.

Theorems (`Props_Container.v`): `C24_small_steps` [A], `C24_time` [A], `C24_set_time` [A], `C24_set_time_steps` [A], `C24_large_step_refuted` [A], `C24_negative_step_refuted` [A], `C24_add_after_end_refuted` [A].

Extent: Small steps; three refutations of the unrestricted claim.

### C25 Container accessors stay in bounds — proved

Invariant on the active index over arbitrary call lists; the three call counterexample by computation.

Theorems (`Props_Container.v`): `C25_in_bounds` [A], `C25_empty_set_time_refuted` [A], `C25_three_calls` [closed], `C25_get_spline` [closed].

Extent: Fewer than 2^31 calls; the three call counterexample is a theorem.

### C26 setData interpolates every knot — proved

The constraint matrix is built row by row as in the code (`sys`, `set_block`). Consistency of the system is proved by constructing a solution (`SetDataExist.v`): six arguments, order 5, one quintic Hermite polynomial per segment; six arguments, order 4 and at least two segments, propagation from the start with the last two segments solved together; otherwise cubics from forward elimination of the tridiagonal system for the velocities. Orders 1 and 2 do not solve a system. The rows are then read back as conditions on the splines.

Theorems (`Props_SetData.v`): `C26_six_arguments` [C], `C26_four_arguments` [C], `C26_two_arguments` [A].

Extent: Any number of knots below 2^29 (the 32 bit sizes do not wrap), any exact linear solver; the system is shown solvable and its solution unique enough to give the knot values.

### C27 setData yields a twice continuously differentiable trajectory — proved

From the junction rows and C19, on the assembled trajectory (`traj`).

Theorems (`Props_SetData.v`): `C27_six_arguments` [C], `C27_four_arguments` [C].

Extent: Derivatives on the closed range, two sided inside and one sided at the ends; continuity of the acceleration inside.

### C28 setData honours the boundary derivatives that fit the order — proved

From the boundary rows; independence of the values that do not fit the order is part of the statement.

Theorems (`Props_SetData.v`): `C28_all_boundary_values` [C], `C28_velocities_only` [C], `C28_linear` [A], `C28_two_arguments` [A].

Extent: All order / segment count cases; independence from ignored boundary values is part of the statements.

### C29 setData rejects degenerate knots — proved

The durations loop; for orders 1 and 2 the splines stored before the rejected knot stay (refuted).

Theorems (`Props_SetData.v`): `C29_rejects` [A], `C29_one_knot` [A], `C29_linear_rejects` [A], `C29_linear_leaves_nothing_refuted` [A], `C29_two_arguments_keeps` [A].

Extent: Including the two refutations for orders 1 and 2.

### C30 setData with empty knots — proved

32 bit wrap-around of numSplines made explicit; every overload by computation for all orders.

Theorems (`Props_SetData.v`): `C30_two_arguments` [A], `C30_four_arguments` [A], `C30_six_arguments` [A].

Extent: All orders 1 to 5 and all three overloads.

### C31 Scalar curve passes through its data in absolute time — proved

The scalar curve on top of the container, from C22, C26 - C28 with the shift by the minimum time.

Theorems (`Props_SplineCurves.v`): `C31_passes_through` [C], `C31_boundary` [C], `C31_default` [C], `C31_smooth` [C], `C31_shift` [A], `C31_orders` [A].

Extent: Any previous state, any exact solver; shift invariance for every input, also rejected ones.

### C32 Scalar curve fit failures are silent, option list fit appends — proved

From C29; computed witnesses for the list of options.

Theorems (`Props_SplineCurves.v`): `C32_silent_failure` [A], `C32_replaces` [A], `C32_option_list_appends` [A], `C32_option_list_clears_refuted` [A].

Extent: Silent failure for order 5, appending of option lists, refutation of the documented clearing.

### C33 Vector curve is only correct when time starts at zero — proved

One container per component; evaluation forgets the minimum time, so the curve is right exactly relative to its first time. A witness valid for every exact solver refutes absolute time.

Theorems (`Props_Clear.v`, `Props_SplineCurves.v`): `C33_orders` [A], `C33_relative_time` [C], `C33_time_from_zero` [C], `C33_max_time_wrong` [C], `C33_passes_through_refuted` [C], `C33_clear_keeps_min_time` [A], `C33_too_few_values` [A], `C33_derivative_lists` [A].

Extent: Any number of components; relative time behaviour, agreement for first time 0, refutation otherwise; also short input vectors and the derivative list overload.

### C34 Hermite curve passes through its data points — proved

From C03, C04 (the coefficients inserted) and C09 (the bracket) and polynomial identities at the ends of a segment; SE3 with unit quaternions and `exact_kindr`.

Theorems (`Props_HermiteE3.v`, `Props_HermiteSE3.v`): `C34_passes_through` [A], `C34_fit_curve` [A], `C34_se3_passes_through` [B], `C34_se3_fit_curve` [B].

Extent: E3: every point and the end velocities of fitCurve. SE3: positions exactly, orientations up to the sign of the quaternion and exactly so before the last point.

### C35 Hermite curve velocities at the data points — proved

The loop computing the derivatives against the Catmull-Rom specification of `HermiteSpec.v`.

Theorems (`Props_HermiteE3.v`, `Props_HermiteSE3.v`): `C35_knot_velocities` [A], `C35_ends` [A], `C35_se3_knot_twists` [B].

Extent: E3: Catmull-Rom derivative of an independent specification; SE3 likewise, the interior angular velocity characterised as the one that turns the previous into the next orientation.

### C36 Hermite curve is continuously differentiable with the reported derivatives — proved

Each segment equals the Hermite cubic of the specification; derivative and continuity by Coquelicot, gluing of neighbouring segments.

Theorems (`Props_Hermite2.v`, `Props_HermiteE3.v`): `C36_se3_positions` [C], `C36_segment_is_hermite_cubic` [A], `C36_continuously_differentiable` [C], `C36_acceleration_jumps_refuted` [A].

Extent: For arbitrary coefficients: each segment is the cubic Hermite polynomial, first derivative exact everywhere and continuous, second derivative inside segments, one sided at the ends; the jump of the second derivative at a knot has a witness. The positions of the SE3 curve likewise (C36_se3_positions).

### C37 Hermite evaluation domain — proved

From C09; the guard for one-knot curves is UB on an empty curve at time zero.

Theorems (`Props_HermiteE3.v`, `Props_HermiteSE3.v`): `C37_domain` [A], `C37_higher_derivatives` [A], `C37_empty` [A], `C37_empty_evaluation_refuted` [A], `C37_se3_domain` [A], `C37_se3_higher_derivatives` [A], `C37_se3_empty` [A], `C37_se3_empty_evaluation_refuted` [A].

Extent: E3 and SE3, including the undefined behaviour of an empty curve at time zero.

### C38 Refitting a Hermite curve — proved

E3 inserts into the old manager (merge, from C04); SE3 clears first, so two previous curves give the same result up to keys.

Theorems (`Props_HermiteE3.v`, `Props_HermiteSE3.v`): `C38_fit_merges` [A], `C38_fit_clears_refuted` [A], `C38_se3_fit_replaces` [A].

Extent: E3: merging proved for every previous curve, clearing refuted. SE3: the result of a fit is the same for any two previous curves.

### C39 Periodic fit — proved

Index arithmetic in size_t made explicit; derivative at the seam computed; three points divide by zero on binary64.

Theorems (`Props_Binary64.v`, `Props_HermiteE3.v`, `Props_HermiteSE3.v`): `C39_three_points_nan` [C], `C39_same_end_derivatives` [C], `C39_end_derivative_reversed` [A], `C39_seam_slope_refuted` [A], `C39_too_few_points` [A], `C39_se3_periodic` [B], `C39_se3_too_few_points` [A].

Extent: E3 and SE3: equal end derivatives, seam differentiability (E3), reversed end derivative for every data set with at least four points, out of range access. E3 on binary64: three points make every evaluation NaN.

### C40 Hermite interpolation reproduces affine motion and is equivariant — proved

Polynomial identities on a segment and on the derivative rule; equivariance under affine maps by the formulas.

Theorems (`Props_HermiteE3.v`): `C40_reproduces_straight_motion` [A], `C40_reproduces_constant_acceleration` [A], `C40_equivariant` [A], `C40_constant_acceleration_refuted` [A].

Extent: Straight motions for all times, constant acceleration for equidistant times (refuted otherwise), equivariance under affine maps of space and increasing affine maps of time.

### C41 Knot values are reproduced exactly in IEEE double arithmetic — proved

Binary64 with Flocq: at a knot the basis functions are exactly 0 or 1, and products with and sums of these are exact, as long as no intermediate result overflows. Lifted to curves with `ManagerMap.v` (manager over doubles without NaN).

Theorems (`Props_Binary64.v`): `C41_segment_ends` [C], `C41_curve_at_knots` [C], `C41_fit_through_points` [C], `C41_overflow_refuted` [C].

Extent: Segments, whole curves and curves after a fit; refuted when the length of a segment overflows.

### C42 SE3 orientation stays a rotation and hits the data — proved

Norm of quaternions is multiplicative; the values at the knots from the law of `log`; continuity by composition.

Theorems (`Props_HermiteSE3.v`): `C42_orientation_is_unit` [B], `C42_knot_orientations` [B], `C42_continuous` [C].

Extent: Any exponential/logarithm pair with the stated laws (a concrete one is constructed); continuity of every rotated vector on the closed range.

### C43 SE3 angular velocity is the true angular velocity — proved

Derivative of `exp` along a fixed axis, product rule on the product of exponentials, then conversion to the angular velocity in the fixed frame.

Theorems (`Props_HermiteSE3.v`): `C43_quaternion_derivative` [C], `C43_rotation_derivative` [C], `C43_angular_velocity_continuous` [C], `C43_knot_twists` [B].

Extent: Quaternion equation between knots, rotation equation and continuity of the angular velocity at all times, stored derivative at the knots.

### C44 SE3 curve is equivariant under a change of frame — proved

Algebra: left multiplication with a unit quaternion and translation commute with every step of the formulas.

Theorems (`Props_HermiteSE3.v`): `C44_curve_equivariant` [A], `C44_fit_equivariant` [A], `C44_fit_curve_equivariant` [A].

Extent: Evaluation for any logarithm, fits for any logarithm that commutes with conjugation; both functions at every time.

### C45 CSV write then read — proved

Files are lists of characters, `getline` as a function on them; induction on fields and rows.

Theorems (`Props_Csv.v`): `C45_write_aborts` [closed], `C45_write_then_load` [closed].

Extent: Rows shorter than 2^32 fields.

### C46 Time/vector CSV files do not round trip — proved

The column index error (`at(1)` for the time) characterised on every file; round trip refuted for any two numbers.

Theorems (`Props_Csv.v`): `C46_load_behaviour` [closed], `C46_loaded_columns` [closed], `C46_times_are_first_entries` [closed], `C46_round_trip_refuted` [closed], `C46_two_times` [closed].

Extent: Any exact number format; complete behaviour of loadTimeVectorCSV on any file; reading the right times refuted for any two different numbers.

### C47 Sampling export writes one row less than requested — proved

The sampling loop with a bound; over R the number of passes is exact, on binary64 the loop need not end because t + dt = t.

Theorems (`Props_Export.v`): `C47_e3_rows` [A], `C47_se3_rows` [A], `C47_no_samples` [A], `C47_no_range` [A], `C47_int_min` [closed], `C47_one_sample` [C], `C47_never_ends` [C], `C47_termination_refuted` [C], `C47_row_count_refuted` [C], `C47_columns` [closed], `C47_header_names` [closed], `C47_row_words` [closed].

Extent: Both curves in real arithmetic; the E3 curve for n <= 0, for curves without a range and on binary64: one sample, non-termination (all such curves and a witness), row count refuted.

### C48 Joint look-up in trajectory messages — proved

The name loop by induction; then the fits (C31, C32, C33, C34) for the three classes. Where a message is accepted with a useless result there are separate theorems.

Theorems (`Props_Ros.v`): `C48_missing_joint` [A], `C48_first_entry` [A], `C48_short_point` [A], `C48_no_names_refuted` [A], `C48_joint_trajectory` [C], `C48_true_is_success_refuted` [A], `C48_no_points` [A], `C48_translations` [C], `C48_poses` [B], `C48_one_point_refuted` [A].

Extent: Refuted parts: empty name list, and true as a sign of success. The conversion of ROS poses is a parameter.

### C49 Discrete curve returns the nearest data point — proved

From C09 over R; nearest point by comparing distances.

Theorems (`Props_Discrete.v`): `C49_nearest` [A], `C49_at_coefficient` [A], `C49_outside` [A].

Extent: Any type of values; ties and both ends included.

### C50 Composition curve reproduces the data it is extended with — proved

Over an abstract group: extending compensates the base by the inverse of the correction at that time; from the manager lemmas, the evaluation at coefficients, and covering of the base range by the corrections.

Theorems (`Props_Clear.v`, `Props_Composition.v`): `C50_single_measurements` [A], `C50_extend` [A], `C50_feed` [A], `C50_fold` [A], `C50_reset` [A], `C50_reset_without_times_refuted` [closed], `C50_fold_between_refuted` [closed].

Extent: Any group and any two discrete or semi-discrete parts; extend in any state, feeding a new curve, folding, resetting; refuted: folding between base times, resetting with no times.

### C51 Copying a coefficient manager — proved

Two managers whose nodes live in one memory; the copy has new nodes and the old index. Reading and writing by key goes to the original; destroyed or cleared originals leave dangling iterators (UB).

Theorems (`Props_Copy.v`): `C51_by_time` [closed], `C51_reads_the_original` [closed], `C51_sets_the_original` [closed], `C51_independence_refuted` [closed], `C51_dangling` [closed], `C51_removed_from_original` [closed], `C51_own_nodes` [closed], `C51_cleared_copy` [closed], `C51_check` [closed].

Extent: Independence of copies is refuted; a copy with dangling iterators is UB in the model.

### C52 setData leaves a container ready to be played — proved

From the definition of reset and C26; the state of the container after setData is that of a new one with splines.

Theorems (`Props_SetData.v`): `C52_six_arguments` [C], `C52_four_arguments` [C], `C52_two_arguments` [A].

Extent: All three overloads, orders 1 to 5.

### C53 Extending a Hermite curve after a fit — proved

From C17's machine started on the fitted manager with the counter left from before.

Theorems (`Props_Sampling.v`): `C53_fresh_counter_keeps_fit` [closed], `C53_stale_counter_deletes_last_point` [closed], `C53_stale_counter_one_point` [closed].

Extent: Zero counter, stale counter, and the one point case.

### C54 Sampling ratio zero or negative — proved

Computation on the comparison `count == ratio`, induction on the number of measurements up to the overflow of `int`.

Theorems (`Props_Sampling.v`): `C54_slerp_ratio_zero` [closed], `C54_slerp_ratio_zero_overflow` [closed], `C54_hermite_ratio_zero` [closed].

Extent: Slerp including the int overflow; Hermite without a period.

### C55 Uniform motion in SE3 is reproduced — proved

The slopes of a uniform motion are its twist (`principal_log`), and the three exponentials of a segment are about one axis, so they add up.

Theorems (`Props_HermiteSE3.v`): `C55_uniform_motion` [C].

Extent: Any increasing times with less than half a turn between a point and the next but one.

### C56 transformCurve of the cubic Hermite SE3 curve — proved

transformCurve has an empty body: refuted for every transformation that moves a value.

Theorems (`Props_HermiteSE3.v`): `C56_transform_curve_refuted` [A].

Extent: For every curve, time and transformation that moves the value.

### C57 Knot velocities are reproduced exactly in IEEE double arithmetic — proved

As C41 for the derivative formula; the inverse of the length must not overflow.

Theorems (`Props_Binary64.v`): `C57_curve_velocities` [C], `C57_short_segment_refuted` [C].

Extent: Whole curves; refuted when the inverse of the length of a segment overflows.

### C58 Saving an SE3 curve at given times — proved

The loop keeps the previous value when evaluation fails; from C45 and C46 for reading back.

Theorems (`Props_Export.v`): `C58_save_at_times` [A], `C58_save_curve` [B], `C58_load_saved` [A].

Extent: Any text format for numbers (without delimiters for reading back).

### C59 transformCurve of the discrete SE3 curves — proved

transformCurve reads the curve while it changes it; invariant of the loop over the times, using that the value at a coefficient does not depend on the others.

Theorems (`Props_Discrete.v`): `C59_transform_discrete` [A], `C59_transform_semi_discrete` [A].

Extent: Any group; the semi-discrete curve for any exponential/logarithm.

### C60 Semi-discrete curve moves in equal steps through its data — proved

Abstract group with one-parameter subgroups (`ExpLaws`); equal steps by additivity of the exponential along one direction.

Theorems (`Props_Discrete.v`): `C60_at_coefficient` [A], `C60_range` [A], `C60_equal_steps` [A], `C60_constant` [A].

Extent: Any group with an exponential/logarithm satisfying the stated laws; the translations of a line are an instance.

### C61 Value expression of the discrete curves — proved

From C09; the same expression is refuted for the semi-discrete curve, which interpolates.

Theorems (`Props_Discrete.v`): `C61_discrete_expression` [A], `C61_single_coefficient` [A], `C61_semi_discrete_refuted` [A].

Extent: Discrete curve for every curve; refuted for the semi-discrete curve.

### C62 Extending a composition curve keeps its past — proved

Extending changes the base only at the new time and the corrections only outside the old range.

Theorems (`Props_Composition.v`): `C62_extend_keeps_the_past` [A], `C62_ratio_refuted` [closed].

Extent: Any group, any state with covering corrections; refuted for ratio 2.

### C63 transformCurve of the composition curve — proved

Transform acts on the base, the corrections are applied on the left afterwards: correct with identity corrections, refuted otherwise.

Theorems (`Props_Composition.v`): `C63_transform` [A], `C63_corrections_refuted` [closed].

Extent: Any group; refuted with a correction in a non-commutative group.

### C64 Resampling the corrections of a composition curve — proved

Resampling keeps the correction at the new correction times; the range checks give the success condition.

Theorems (`Props_Composition.v`): `C64_set_correction_times` [A].

Extent: Success condition is exact.

### C65 Changing and removing a correction — proved

Set and remove of one correction; removal at an end of the range uncovers base times (refuted).

Theorems (`Props_Composition.v`): `C65_set_correction` [A], `C65_remove_correction` [A], `C65_remove_refuted` [closed].

Extent: Success conditions are exact; refuted: coverage after removal.

### C66 Setting the base of a composition curve does not compensate the corrections — proved

The base is replaced without compensation: evaluation is correction times new base.

Theorems (`Props_Composition.v`): `C66_set_base` [A].

Extent: Success condition is exact.

### C67 Corrections need not cover the base after clear — proved

clear does not reset the counter of the sampling policy, so a later extension at an earlier time moves the last correction below the range of the base; a computed history.

Theorems (`Props_Composition.v`): `C67_new_curve_covered` [A], `C67_coverage_refuted` [closed].

Extent: Refuted by a computed history; the positive part is also in C50_feed.

### C68 The cubic trajectory is determined by the data — proved

The system that setData builds holds of the coefficients of a piecewise cubic exactly if it is the wanted trajectory (`solve_and_store_system`); the velocities at the knots solve a strictly diagonally dominant recursion, so there is one such trajectory (`good_cubic_unique`). Superposition and reversal by exhibiting the other trajectory.

Theorems (`Props_SetData2.v`): `C68_cubic_unique` [A], `C68_cubic_superposition` [A], `C68_cubic_reversal` [A].

Extent: Order 3; any two exact solvers, any containers; superposition at every time, reversal on the time range.

### C69 The cubic trajectory bends least — proved

Holladay's argument: the cross term (g'' - s'')s'' integrates to zero by parts on each segment and telescopes, so the energies differ by the integral of (g''-s'')^2; if that is zero, g'' = s'' everywhere and both functions agree. Integrals and derivatives from Coquelicot.

Theorems (`Props_SetData2.v`): `C69_least_acceleration` [C], `C69_attained` [C].

Extent: Order 3, four arguments; existence of the integrals is part of the theorem; attained by an extension of the trajectory.

### C70 Order 5 leaves the inner knots undetermined — proved

A quintic through any position, velocity and acceleration at both ends of each segment (`hermite5`) solves the system, and a solver that returns this solution is exact (`preferring_exact`).

Theorems (`Props_SetData2.v`): `C70_quintic_undetermined` [A], `C70_solver_independent_refuted` [A].

Extent: Order 5 for every data set; independence of the solver refuted by a witness.

### C71 A fitted Hermite curve depends on its points locally — proved

The stored derivative of a point is a function of its neighbours (`neighbour_velocity`); so the two coefficients of the segment are the same in both curves, and evaluation uses only these (`evaluate_segment`, `bracket_R`).

Theorems (`Props_Hermite2.v`): `C71_local` [A], `C71_se3_local` [A], `C71_one_point` [A].

Extent: E3 on the closed segment, acceleration on the half open one; SE3 on the half open segment for any exponential and logarithm.

### C72 A fit of reversed data is the reversed curve — proved

The reversed fit has the reversed coefficients with negated velocities (`fit_velocity_reversed`), and the Hermite polynomial of the reversed segment is the reversed polynomial.

Theorems (`Props_Hermite2.v`): `C72_reversed` [A].

Extent: E3 over the reals; all times, also outside of the range; accelerations except at the knots.

### C73 How far a Hermite curve leaves its points — proved

Bernstein form of the Hermite polynomial (convex combination); the derivative as a combination of squares, then the mean value theorem; the velocities of a fit times the length of the segment are at most the range, and u(1-u) <= 1/4.

Theorems (`Props_Hermite2.v`): `C73_hull` [A], `C73_monotone` [C], `C73_overshoot` [A], `C73_overshoot_equidistant` [A], `C73_within_range_refuted` [A].

Extent: E3 over the reals; staying within the range of the points refuted for every lo < hi.

### C74 Motion of the SE2 curve between coefficients — proved

`exp_log` of SE(2): the exponential of a multiple of the logarithm in closed form (`exp_turning`, `exp_straight`); the centre of the circle solves a linear system with determinant 2(1-cos d); derivatives by `auto_derive`.

Theorems (`Props_Slerp2.v`): `C74_segment` [C], `C74_angle_unique` [C], `C74_constant_velocity` [C].

Extent: Over the reals, with the mathematical exponential and logarithm of SE(2) for those of gtsam.

### C75 fitCurve and setCurve of interpolating curves — proved

Contents after a batch of insertions (`last_value`), then evaluation at a coefficient and inside the range (`range_by_points`).

Theorems (`Props_Piecewise.v`): `C75_fit` [A], `C75_fit_discrete` [A], `C75_set` [A], `C75_set_discrete` [A], `C75_edge` [A].

Extent: Times are reals; the group with exponential and logarithm is arbitrary.

### C76 Interpolation does not depend on where it is sampled nor on its direction — proved

The part of exp(s*log x) up to a point has the logarithm s*log x (`principal`), so both halves have the same motion.

Theorems (`Props_Piecewise.v`): `C76_refine` [A], `C76_reversed` [A], `C76_se2_refine` [C], `C76_se2_reversed` [C], `C76_se2_reversed_refuted` [C].

Extent: Any group with a principal logarithm; instance SE(2). Reversal refuted for opposite headings.

### C77 The value expression has the value of the curve — proved

Both functions look up the same pair of coefficients (C09) and use the same formula; the values by key are those at the time.

Theorems (`Props_Slerp2.v`): `C77_defined` [A], `C77_value` [A].

Extent: gtsam expressions as terms; their Jacobians are not modelled.

### C78 Prior factors and saved rows of the SE2 curve — proved

The looked up pair of C09; evaluation at a coefficient time gives the coefficient.

Theorems (`Props_Slerp2.v`): `C78_prior` [A], `C78_prior_unchecked` [A], `C78_saved` [A].

Extent: Undefined behaviour is an outcome of the model. Factors as pairs of key and value; the noise models are not modelled.

### C79 Changing the sampling settings or clearing between measurements — proved

Invariant of the counter along the measurements (`more_step`, `stuck_feed`, `hermite_more`).

Theorems (`Props_Sampling2.v`): `C79_ratio_changed` [closed], `C79_ratio_lowered` [closed], `C79_cleared` [closed], `C79_cleared_like_new_refuted` [closed], `C79_hermite_settings` [closed], `C79_hermite_cleared` [closed].

Extent: The case of a lowered ratio up to overflow of the counter. That a cleared Slerp curve is like a new one is refuted with a witness.

### C80 The Hermite sampling policy and lists of different length — proved

Induction over the times; which case occurs is read off the curve after the measurements that have values. For a new curve with C17.

Theorems (`Props_Sampling2.v`): `C80_extra_values` [closed], `C80_missing_values` [closed], `C80_missing_values_new` [closed].

Extent: About the policy; CubicHermiteSE3Curve::extend itself throws.

### C81 Curves made of SlerpSE3Curve cannot be evaluated or filled — proved

Case analysis on the coefficients of the correction curve; evaluation is reached in every branch.

Theorems (`Props_SlerpSE3.v`): `C81_transform` [closed], `C81_save` [closed], `C81_composition` [closed], `C81_composition_unusable` [closed], `C81_factory` [closed].

Extent: No hypothesis on the state of the curve or on the numbers.

### C82 Files saved by the discrete curves — proved

The values at the coefficient times are the coefficients (as for C49); the text by the writing lemma of C45.

Theorems (`Props_SlerpSE3.v`): `C82_saved` [A], `C82_saved_at_times` [A].

Extent: toString and the vector of seven numbers are parameters.

### C83 Files saved by a composition curve — proved

The values at the base times by the evaluation lemmas of the parts; the text as for C82, of which C83_corrections is the case of the correction curve.

Theorems (`Props_SlerpSE3.v`): `C83_saved` [A], `C83_save_curves` [A], `C83_corrections` [A].

Extent: toString and the vector of seven numbers are parameters. A file written before a later one aborts is not represented.

### C84 Changing part of the base of a composition curve — proved

C04 for the base, then the range of the merged times; C11 for the batch.

Theorems (`Props_SlerpSE3.v`): `C84_set_base_part` [A], `C84_modify_base` [A].

### C85 The minimal sampling period has no effect on slerp, discrete and composition curves — proved

Every step of extend and of the composition commutes with setting the period.

Theorems (`Props_SlerpSE3.v`): `C85_curve` [closed], `C85_feed` [closed], `C85_composition` [closed].

Extent: For any kind of numbers, including binary64.

### C86 Printing a curve — proved

Induction over the coefficients for the sum of distances; keys by C06.

Theorems (`Props_SlerpSE3.v`): `C86_discrete` [A], `C86_slerp` [A].

Extent: The text is reduced to the numbers it shows.

### C87 A cleared curve is like a new one — proved

The cleared containers are equal to new ones. For Hermite curves a fit of any empty curve stores the same times and knots (e3_fit_spec), and evaluation depends only on these (e3_evaluate_contents).

Theorems (`Props_Clear.v`): `C87_scalar` [A], `C87_vector` [A], `C87_e3` [A], `C87_se3` [A], `C87_composition` [A].

Extent: Scalar and vector curves for any solver; E3 and SE3 over the reals.

### C88 extend of the fitted curves does not add data — proved

The bodies of these functions; the refutation uses a new curve.

Theorems (`Props_Clear.v`): `C88_e3_ignored` [A], `C88_e3_extend_refuted` [A], `C88_unsupported` [closed].

Extent: Includes the refutation of the contract of extend.

### C89 What checkContainer accepts — proved

The tests of checkContainer one by one; along small steps the invariant of C24 gives the index and the durations, and the time only grows. The witnesses are a single spline stepped by 3/4 twice, and a spline with duration NaN.

Theorems (`Props_Clear.v`): `C89_accepts` [A], `C89_stepping` [A], `C89_past_the_end` [A], `C89_played_refuted` [A], `C89_binary64_nan_coefficient` [C], `C89_binary64_nan_duration_refuted` [C].

Extent: Exact characterisation over the reals; the NaN facts in binary64.

### C90 Sizes and times of a composition curve — proved

The corrections after the first extension are computed exactly from the contents of the manager after each bulk insertion (cover_empty); base and corrections are then evaluated with the lemmas of C49.

Theorems (`Props_Clear.v`): `C90_observers` [closed], `C90_base_window` [A], `C90_first_extension` [A], `C90_times_in_range_refuted` [closed].

Extent: For any two curves that return the left coefficient at the start of a segment.

### C91 Rounding errors of evaluating a Hermite curve — proved

Every operation is an exact one followed by rounding (Flocq), with error at most 2^-53 of the result plus 2^-1075. The predicate near bounds the accumulated error relative to a scale and is propagated through the formulas of the code (HermiteErr.v); the blending polynomials are bounded by elementary factorisations. The look-up compares exactly, so both curves use the same segment (real_lookup). The refutation evaluates the curve from -20 to 7 over [0,3] at time 2.

Theorems (`Props_Rounding.v`): `C91_position` [C], `C91_velocity` [C], `C91_acceleration` [C], `C91_relative_refuted` [C].

Extent: Includes the refutation of a relative bound.

### C92 Rounding errors of a fit and its evaluation — proved

The stored velocities of the double fit are within 9 * 2^-53 M / L of the exact ones (slope_error), where L is the time difference used; so they lead no farther than 3M along the neighbouring segments and C91 applies with 3M. Exact curves whose knot velocities differ that little differ by at most 2/5 of it in position, twice in velocity and 8 times in acceleration (alike_value, alike_velocity, alike_acceleration).

Theorems (`Props_RoundFit.v`): `C92_fit_with_derivatives` [C], `C92_fit` [C].

Extent: fitPeriodicCurve is not covered: its end derivative divides by a negative time difference (C39).

### C93 Jacobian of the logarithm of a plane pose — proved

moves and varies state a derivative at 0 with Coquelicot. The heading is written locally as a constant plus an arc tangent (heading_derive), so it is differentiable off the half turn. With h = a/2 cot(a/2) the logarithm is (hx + ay/2, hy - ax/2, a); h is differentiable, at 0 by a quadratic bound from the Taylor series of sine and cosine (half_cot_bound, derive_quadratic). The rows of the Jacobian follow from four identities (turn_facts). Both thresholds lie between 0.001 and 0.01 and the polynomials used below them are within 2e-11 and 4e-10 of h and (1 - h)/a. Refutations: the heading 1/2000, and the motion through a half turn, along which the heading jumps.

Theorems (`Props_Jacobian.v`): `C93_log_jacobian` [C], `C93_log_jacobian_near` [C], `C93_exact_refuted` [C], `C93_half_turn_refuted` [C].

Extent: The exact statement is refuted for small angles and at a half turn.

### C94 Jacobians of slerp and of the point expressions in the plane — proved

Derivatives of inverse, product and exponential of moving poses (moves_inv, moves_mul, moves_exp) are those gtsam documents; chained with C93. The value is a one-parameter subgroup from T0 (se2_exp_log). For pose2AsPoint2 the derivative is the turned velocity, which equals the velocity for all motions exactly if the rotation is the identity.

Theorems (`Props_Jacobian.v`): `C94_slerp` [C], `C94_slerp_value` [C], `C94_scaling` [B], `C94_subtraction` [B], `C94_pose_as_point` [C], `C94_pose_as_point_refuted` [C].

Extent: The Jacobian of pose2AsPoint2 is refuted for turned poses. The Jacobians of gtsam itself (inverse, compose, Expmap) are modelled as documented, with the formula for angle 0 at the angle 0 only.

### C95 Screw motion between two poses — proved

Se3.v builds SE(3) on unit quaternions up to sign (the sign is made canonical) with the group laws, the exponential and logarithm in closed form and their laws (se3_exp_log, se3_log_exp_inverse). Every twist is that of a screw (twist_screw) and its exponential moves every point along the screw (screw_exp); Rodrigues' formula about is the specification of a turn. Uniqueness by the injectivity of the exponential below a half turn. The refinement and reversal are instances of C76. Refutations: two curves through a half turn about x, and a half turn about z with a step along x for the componentwise reading.

Theorems (`Props_Se3.v`): `C95_screw` [C], `C95_screw_unique` [C], `C95_velocity` [C], `C95_refine` [C], `C95_reversed` [C], `C95_componentwise` [C], `C95_reversed_refuted` [C], `C95_componentwise_refuted` [C], `C95_data` [C].

Extent: minkindr is outside the repository: both readings of its exp and log of a transformation are proved, those of rigid motions and those of rotation and position apart. The reversed curve with a half turn and the uniform motion under the second reading are refuted.

### C96 Derivative functions of the piecewise SE3 curves — proved

der_segment computes the result in a segment from the bracketing theorem of the container. The general theorem compares exponentials; for SE(3) the derivative of the position of every point of the body is computed (exp_point_velocity, moved_derivative) and compared with the velocity v + o x p of a rigid body; a body has only one velocity (velocity_unique). Witness of the refutations: one metre in one second along x.

Theorems (`Props_Velocity.v`): `C96_domain` [A], `C96_other_orders` [A], `C96_backwards` [A], `C96_opposite` [C], `C96_right_iff_at_rest` [C], `C96_discrete` [C], `C96_derivative_refuted` [C], `C96_composition_refuted` [C].

Extent: That the first derivative is the velocity of the curve is refuted, as is a velocity of a composition curve that is not zero. traits::Local(x, y) is taken to be the logarithm of the way from x to y.

### C97 What printing a curve shows — proved

Printing.v models the reports as lists of the numbers shown. The loop of the scalar curve is unrolled by induction over the rows; the ends of a fitted curve by C31. The E3 and SE3 reports by reading every coefficient back by key; the composition curve by C86. The last row in double precision by computation on a curve of duration 1.

Theorems (`Props_Printing.v`): `C97_scalar` [A], `C97_scalar_fitted` [C], `C97_last_row_refuted` [C], `C97_hermite_e3` [A], `C97_hermite_se3` [A], `C97_composition_discrete` [A], `C97_composition_slerp` [A].

Extent: The text around the numbers and the rounding of printed numbers are not modelled. That the last row of a scalar curve is at its end is refuted for double precision.

### C98 Polynomial splines in double precision — proved

SplineErr.v propagates the relation near (HermiteErr.v: finite and within k units on a scale) through the powers, the factors of the derivatives and the inner product, once for a general term of power i, then for each order. Each term is at most M on its scale, so that the scale of the sum is M. The specification is the polynomial of SplineSpec.v at the restricted time. Clamping is exact, also for infinite times and NaN (C98_after, C98_before). The exact start follows from products with zero. Witness of the refutation: from 0 to 1 in 49 seconds ends below 1.

Theorems (`Props_RoundSpline.v`): `C98_position` [C], `C98_velocity` [C], `C98_acceleration` [C], `C98_after` [C], `C98_before` [C], `C98_start` [C], `C98_linear` [C], `C98_quadratic` [C], `C98_linear_end` [C], `C98_exact_end_refuted` [C].

Extent: An ending exactly at the given position is refuted. Multiplication and addition are rounded one by one (no fused multiply-add). Splines of order 3 to 5 made from options depend on the linear solver of Eigen, for which no rounding bound is assumed; the bounds for their evaluation hold for whatever coefficients it returns.

### C99 Changing the units of a spline fit — proved

The matrix of setData depends on the durations only (SetDataBasic.v), and a basic solver (BasicSolver.v) uses the same independent columns for every right side, so that the solution is linear in it: fit_basis. The constant curve is supported on the constant coefficients, which are always among the columns. Time shift: set_data6 uses differences of times only, by rewriting. Stretch: the stretched segments satisfy the conditions of the fit and the cubic fit is unique (SetDataUnique.v).

Theorems (`Props_Units.v`): `C99_superposition_four` [A], `C99_superposition` [A], `C99_offset_two` [A], `C99_offset_four` [A], `C99_offset` [A], `C99_constant` [A], `C99_scalar_offset` [C], `C99_time_shift` [A], `C99_time_stretch` [A], `C99_offset_exact_refuted` [A].

Extent: Real arithmetic. The hypothesis basic_solver holds for column pivoting QR (C100_solver) and for Gaussian elimination (gauss_basic); with an exact solver that is not basic the offset is refuted for order 5. Stretching time is proved for order 3; for order 5 it is refuted in C100.

### C100 Fitting data taken from a known motion — proved

ColPiv.v models the decomposition column by column: choose the column with the largest remaining norm, project the others, stop at norm zero or after min(rows, columns) steps, substitute back. That no step after the last row changes anything (over the reals) follows from the Bessel inequality: more than m orthogonal vectors of length m do not exist. Exactness by induction on the remaining columns with an orthogonality invariant. The reproduction theorems by uniqueness of the cubic and of the two-knot quintic fit. For the refutations ColPivQ.v transfers a run over the rationals, done by computation, to the reals.

Theorems (`Props_ColPiv.v`): `C100_solver` [A], `C100_linear_reproduced` [A], `C100_cubic_reproduced` [A], `C100_quintic_reproduced` [A], `C100_uniform_refuted` [A], `C100_stretch_refuted` [A].

Extent: That the quintic fit with inner knots reproduces uniform motion, and that it does not depend on the unit of time, are refuted. The solver is modelled in exact arithmetic: the Householder reflections as orthogonal projections, the rank threshold as zero, and the updated column norms without the recomputation Eigen does against cancellation. In the two witnesses no two columns tie for the pivot.

### C101 Times that are infinite or not a number — proved

Case analysis on the comparison of special values; for the container an induction over the splines (all comparisons are false, so the search ends at the last one), for advance an induction over the steps with the invariant that the time is NaN.

Theorems (`Props_Special.v`): `C101_E3` [C], `C101_SE3` [C], `C101_container_nan` [C], `C101_container_plus` [C], `C101_container_minus` [C], `C101_stuck` [C], `C101_repaired` [C], `C101_nan_knot` [C], `C101_nan_knot_solved` [C], `C101_scalar_nan` [C].

Extent: Binary64 with Flocq. For the container the coefficients and durations are finite; the end is reached from plus infinity unless the sum of the durations overflows. A NaN time in the map of a Hermite curve is excluded (it breaks the order of std::map). That setData with a solver accepts NaN is a run with the pivoting solver; the answer does not depend on what the solver returns.

### C102 Trajectories of several splines in double precision — proved

Induction over the search for the active spline: the computed offset drifts by at most one rounding per spline, and when the search goes on the requested time has reached the next start up to two roundings. The time at which the exact trajectory gives the same local time is then written down explicitly. C98 gives the error inside of the spline.

Theorems (`Props_RoundContainer.v`): `C102_position` [C], `C102_velocity` [C], `C102_acceleration` [C], `C102_speed` [C], `C102_curve` [C], `C102_curve_derivatives` [C], `C102_same_time_refuted` [C].

Extent: Binary64 with Flocq, rounding to nearest even. The terms of the splines and the total length are neither extremely large nor extremely small (scales 2^-900 to 2^900, durations up to 2^150), fewer than 2^31 splines. The vector curve evaluates one container per component, so the container statement applies to each.

### C103 Numbers in saved files keep six significant digits — proved

The digits are computed on integers: the exponent by comparison with powers of ten, the digits by division with rounding to even. The proof shows that reading the text gives exactly digits times a power of ten, which is within half a unit of the sixth digit of the number; the nearest double is then at most twice as far. Order follows because rounding is monotone, also when the number of digits before the point changes.

Theorems (`Props_Digits.v`): `C103_kept` [C], `C103_special` [C], `C103_six_digit_numbers` [C], `C103_integers` [C], `C103_again` [C], `C103_order` [C], `C103_same_text` [C], `C103_unix_times` [C], `C103_file` [C], `C103_distinct_refuted` [C].

Extent: The digits are produced by a model of printf with "%g" (precision 6, the default of std::stringstream), the value read is the double nearest to the decimal read. Text that toString never produces (spaces, hexadecimal numbers, trailing characters) is outside of the model of atof. C103_distinct_refuted: that different times stay different is false.

### C104 The exported table and the MATLAB script that reads it — proved

As C103 with a fixed number of places; integers are written exactly, other doubles are below 2^53 so that nothing overflows. Splitting the text at newlines and spaces gives back the numbers because the text of a number contains neither. Induction over the loop of the export gives the rows.

Theorems (`Props_Matlab.v`): `C104_kept` [C], `C104_decimals` [C], `C104_integers` [C], `C104_order` [C], `C104_distinct` [C], `C104_same_text` [C], `C104_script` [C], `C104_step_lost` [C], `C104_distinct_refuted` [C], `C104_spacing` [C].

Extent: printf with "%lf" writes six places after the point. textscan is modelled for lines of at least 14 fields separated by spaces; fields are converted as by atof. C104_distinct_refuted: without the distance of 1/1000000 different times may become equal. The E3 export has 7 columns and is not a file for this script.

### C105 Rounding errors of SE3 curves: positions, velocities, lengths of quaternions, knots — proved

Positions and velocities are those of the E3 curve of the same coefficients (translation_evaluate), so C91 applies. Lengths: one product of quaternions adds at most 32 units in the last place, and lengths multiply. At a knot the weights are zeros, the exponentials ones, and products with them exact.

Theorems (`Props_RoundSE3.v`): `C105_position` [C], `C105_velocity` [C], `C105_unit` [C], `C105_knots` [C].

Extent: kindr is a parameter: C105_unit asks for exponentials of length one up to e and finite logarithms of length at most 8 (sound_kindr), C105_knots in addition for exp(0) = 1. C105_example: a correctly rounding kindr satisfies this. The last knot: C106_knots.

### C106 Rounding errors of SE3 curves: orientations — proved

The exponential map moves quaternions at most half as far as its arguments (proved by the law of cosines); products of unit quaternions add errors; the logarithm is Lipschitz with constant 4 on either side of the half turns (proved with the mean value theorem from the growth of a / sin a). The bounds are put together along one segment and carried over to the curve by the look-up. The counterexample takes knots 1 and i, and a correctly rounded logarithm that chooses -pi at exact half turns.

Theorems (`Props_HalfTurn.v`, `Props_RoundSE3.v`): `C106_half_turn_refuted` [C], `C106_principal` [C], `C106_orientation` [C], `C106_knots` [C].

Extent: The exact curve uses the exponential map and an exact logarithm of length at most pi. Distances are Euclidean distances of quaternions. C106_orientation is the general bound, C106_principal the one away from half turns, C106_half_turn_refuted the counterexample at a half turn. Angular velocities: C107.

### C107 Rounding errors of SE3 curves: angular velocities — proved

The error analysis of C106 with the weights of evaluateDerivative and their derivatives (whose third of the segment is 1/3 times the length instead of the length over 3): sums and multiples of quaternions are added to the products, the sum of three products is at most 48 long, and everything after the factor one_over_dt is relative to 48 / D. At the knots the exact curve has the stored velocity (C43).

Theorems (`Props_RoundAngular.v`): `C107_angular` [C], `C107_knots` [C], `C107_principal` [C].

Extent: kindr is a parameter, as for C105 and C106. C107_angular is the general bound, C107_principal the one away from half turns, C107_knots the values at the knots.

### C108 What one NaN or infinity among the data spoils — proved

An IEEE sum, difference or product is finite only if both operands are; the interpolation formulas multiply every coordinate of the two knots by a weight and add, so a finite result implies finite inputs, and no formula mixes axes. The look-up is computed for finite times on the sorted list of nodes, the knots of a fit come from e3_fit_b64. For orientations every component of a Hamilton product contains all components of both factors.

Theorems (`Props_NonFinite.v`): `C108_knots` [C], `C108_fit` [C], `C108_contained` [C], `C108_se3` [C], `C108_spline` [C], `C108_finite_data_refuted` [C].

Extent: Binary64. C108_fit says what a finite result implies (so a bad point is never masked), C108_contained that nothing else changes; both for fitCurveWithDerivatives, of which fitCurve is the case of zero derivatives. C108_knots and C108_se3 are about arbitrary curves, C108_spline about splines with given coefficients (not about the solver). C108_finite_data_refuted is the false converse.

### C109 How fast a fitted curve moves and turns — proved

The velocity of a segment is a combination of the difference of the points and the two stored velocities whose weights add up to at most 2 in absolute value. A fitted velocity at an inner knot is a mean over two segments, hence at most V by the triangle inequality. The angular velocity is the sum of the three parts of the derivative of the product of exponentials, each turned by a unit quaternion, which keeps its length; the middle part has the length of a logarithm, which is the angle between orientations up to the angles of the two outer parts. The angle between rotations, twice the arc cosine of the absolute dot product, satisfies the triangle inequality.

Theorems (`Props_Speed.v`): `C109_curve` [B], `C109_se3_curve` [C], `C109_fit` [B], `C109_se3_fit` [C], `C109_mean_speed_refuted` [B].

Extent: Real arithmetic. C109_fit and C109_se3_fit are about fits (fitCurve is the case of zero end velocities), C109_curve and C109_se3_curve about arbitrary curves with unit quaternions. The factor 2 is sharp (C109_mean_speed_refuted); whether 3 is, is not claimed.

### C110 Playing an SE3 curve backwards — proved

Positions are Hermite cubics, whose values at the reversed knots are equal by a ring identity. The rotation of the reversed segment is the whole turn times the inverses of the three exponentials in the opposite order, which is the forward rotation when the exponentials commute, that is about one axis; the logarithm of the inverse is the negated logarithm except at half turns, where the two shortest vectors are equally good. For the refutation the exponentials are multiplied out half way.

Theorems (`Props_Reverse.v`): `C110_positions` [A], `C110_one_axis` [C], `C110_fit` [C], `C110_orientations_refuted` [C].

Extent: Real arithmetic. Orientations are compared as rotations (a quaternion and its negative are the same). C110_orientations_refuted shows that C110_one_axis needs the axis.

### C111 The frame fixed to the body and the unit of time — proved

Multiplying by r on the right conjugates every exponential between the orientation of the left knot and r by r, so that the factors r and its inverse cancel between neighbours; the logarithm follows by its commuting with conjugation. The fractions of the segment elapsed do not change with the unit of time and the stored velocities times the length of the segment do not either. A fitted slope contains q_b r r^-1 q_a^-1. For the lever, the orientation half way is a unit quaternion and keeps the length of the lever, whereas the fitted position is the mean of two different vectors of that length.

Theorems (`Props_Body.v`): `C111_curve` [B], `C111_fit` [A], `C111_lever_refuted` [B].

Extent: Real arithmetic. Equality is equality of quaternions, not only of rotations. C44 is the counterpart for the frame of the world.

### C112 Fitting samples of a smooth motion — proved

The motion is compared with its Taylor polynomial at the time of evaluation, along the unit vector in the direction of the error. The remainders at the knots of the segment are bounded by integrating the bound on the last derivative; the error of a stored velocity is the error of a central or one-sided difference quotient, bounded from the same remainders; cubic Hermite interpolation reproduces the polynomial and is linear, so that the errors of the four data enter multiplied by the four basis polynomials, which are bounded by a polynomial inequality in the elapsed fraction. The refutation evaluates the fit.

Theorems (`Props_Sampled.v`): `C112_fit` [C], `C112_fit_regular` [C], `C112_se3_fit` [C], `C112_irregular_refuted` [B].

Extent: Real arithmetic; errors are Euclidean norms. C112_irregular_refuted shows that C112_fit_regular needs the regular times.

### C113 Splines through samples of a smooth function — proved

Continuity of the acceleration is a relation between the velocities at three neighbouring knots. The velocities of the function satisfy it up to a defect bounded by integrating the bound on the last derivative, and where the error of the velocity is largest the relation bounds it by the defect (the coefficient of the middle knot is twice those of the neighbours together). Between the knots the piece is a Hermite cubic; with exact velocities its distance to the function is found by counting zeros of derivatives (Rolle), and the errors of the velocities enter through basis polynomials. The constant 5/384 is the best possible for such splines in the literature; that it is best is not proved here.

Theorems (`Props_SplineRate.v`): `C113_second` [C], `C113_fourth` [C], `C113_curve` [C].

Extent: Real arithmetic and an exact solver (C100_solver: the model of the one used is exact). Order 3 only: by C100_uniform_refuted a spline of order 5 does not even reproduce uniform motion, so that no such bound holds for it.

### C114 Rounding errors of fitting an SE3 curve: positions — proved

The knots a fit stores are, as far as positions and linear velocities go, those which the E3 fit of the positions would store, for any arithmetic and any exponential map; and what evaluation returns as position, linear velocity and acceleration is that of the E3 curve with these knots. So the bounds of C92 apply. Unlike the E3 fit this one clears the curve first; nothing is assumed of what it contained.

Theorems (`Props_RoundSE3Fit.v`): `C114_fit_with_derivatives` [C], `C114_fit` [C].

Extent: IEEE double precision, round to nearest. The orientations themselves are C106, for given knots.

### C115 How far fits stray from motions of bounded speed — proved

The slopes stored at the knots are convex combinations of difference quotients of the samples, so they are at most V; a Hermite cubic whose ends and slopes keep to V strays from any path that keeps to V by at most 3/4 V h, by bounding the four weights of the cubic. Orientations: the first and last of the three rotations of a segment turn by at most W d / 3, the middle one by at most 5/3 W d; the angle is a metric, and the cumulative basis functions increase with bounded slopes. A dip motion reaches the bound.

Theorems (`Props_Tracking.v`): `C115_fit` [B], `C115_se3_fit` [C], `C115_fit_at_rest` [B], `C115_se3_fit_at_rest` [C], `C115_turning` [C], `C115_sharp` [B].

Extent: Exact arithmetic. The bound 3/4 V h is sharp (C115_sharp); the angles are bounds only.

### C116 Accelerations of splines through samples of a smooth function — proved

The accelerations at the knots obey the moment equations 2 a_i + a_(i+1) = 6 ((f_(i+1) - f_i)/d - s_i)/d and their mirror image, velocities s_i being shared by neighbouring pieces. The second derivative of the function obeys them up to M d^2/4 (bounding a remainder from its derivatives), the sum at a knot is diagonally dominant, so the largest error is at most M h^2/4. Between knots both are compared with the chord, which is off by M h^2/8.

Theorems (`Props_SplineAccel.v`): `C116_container` [C], `C116_curve` [C].

Extent: Exact arithmetic and an exact solver. Positions and velocities are C113.

### C117 How far a change of the data reaches in a spline fit — proved

The velocities at the knots obey a tridiagonal system (continuity of the acceleration); the difference of two fits obeys it with the differences of the samples on the right. Where these vanish, each equation makes a velocity at most half of its neighbour nearer to the change, by induction from the fixed end; around the changed sample the largest velocity is bounded by diagonal dominance. Any data on distinct knots are samples of a function, so the lemmas of C113 about pieces apply. If a velocity other than the last did not change, neither would its neighbours, down to the first.

Theorems (`Props_SplineDecay.v`): `C117_initial_velocity` [A], `C117_final_velocity` [A], `C117_sample` [A].

Extent: Exact arithmetic and an exact solver; order 3, where the fit is unique (C68).

### C118 Looking up a coefficient up to a tolerance — proved

Induction over the coefficients in the order of their times; adding or subtracting +0 does not change how a double compares, by cases; the neighbours of a double u are more than 2^-54 u away, so sums with less than half of that round back to u.

Theorems (`Props_Tolerance.v`): `C118_exact` [A], `C118_iterator` [A], `C118_default` [C], `C118_nan` [C], `C118_tiny` [C], `C118_negative` [A].

Extent: For real numbers and for IEEE doubles. No caller passes a tolerance other than the default.

### C119 Fitting inaccurate samples — proved

The difference of the slopes at an inner knot is at most 2e over the time between its neighbours, hence over either adjacent step; multiplied by the weight d x (1-x) <= d/4 of both velocities on a step of length d this is at most e/2, and the weights of the positions add up to one. The bound for measurements combines this with C115 by the triangle inequality. The witness has the inner two of four points on the other side of the outer two.

Theorems (`Props_Noise.v`): `C119_fit` [B], `C119_equidistant` [B], `C119_se3_fit` [B], `C119_measured` [B], `C119_velocity` [B], `C119_sharp` [B], `C119_factors` [A].

Extent: Exact arithmetic. Orientations of SE3 curves are left out.

### C120 Fitting inaccurate samples with splines — proved

The differences of the velocities at the knots obey the tridiagonal system of C117; at the largest of them diagonal dominance bounds it by the right hand side. The bound for measurements combines this with C113. For the refutation the system with three knots is solved by hand: the middle of the second step is moved by 1 + 3/(16 s (1+s)) when the first step has length s.

Theorems (`Props_SplineNoise.v`): `C120_fit` [A], `C120_measured` [C], `C120_factor_refuted` [A].

Extent: Exact arithmetic and an exact solver; order 3. The bound with a factor independent of the knots is refuted.

### C121 From measurements in double precision back to the motion — proved

C92 (and C114 for SE3) bounds each coordinate against the exact fit of the same doubles, C119 the exact fit against the exact fit of true samples, C112 and C115 that against the motion; the triangle inequality adds them up.

Theorems (`Props_EndToEnd.v`): `C121_speed` [C], `C121_acceleration` [C], `C121_se3` [C].

Extent: IEEE double arithmetic for the program, real numbers for the motion. Orientations of SE3 curves are left out.

### C122 Discrete curves through measurements of a motion — proved

By C49 the value is that of the nearest coefficient, which is at most h/2 away in time; the triangle inequality adds the measurement error. C75 says what a fit stores. For the bound being reached, a fit to two samples of t -> L t is evaluated halfway, where the earlier sample wins.

Theorems (`Props_DiscreteSampled.v`): `C122_curve` [A], `C122_fit` [A], `C122_steps` [A], `C122_sharp` [A].

Extent: Times are real numbers. Any distance with the triangle inequality.

### C123 SE(2) curves through poses of a vehicle — proved

C74 says that the curve turns about a fixed centre between two samples; as the measured headings differ by less than half a turn, the angle is their difference. The heading is then linear interpolation of measurements of a Lipschitz function. The position is compared with the chord (second order Taylor in every direction bounds the distance of arc and chord by r d^2/8, and sin b >= 5/8 b bounds the radius r by the chord) and the chord with the vehicle.

Theorems (`Props_Vehicle.v`): `C123_curve` [C], `C123_fit` [C], `C123_sharp` [C], `C123_fast_refuted` [C].

Extent: Exact arithmetic; SE(2) with its mathematical exponential and logarithm. The statement without the bound on W h is refuted.

### C124 Semi-discrete curves through poses of a body — proved

C95 says that between two samples the curve is a screw motion whose angle is the one between their rotations. The Gram identity for a unit axis turns the distance of the moved point from the chord into a plane problem: an arc of angle d <= pi deviates from its chord by at most d/5 of its length. The chord joins measurements of a Lipschitz motion. The witness for the term with D is the half turn of C95_example.

Theorems (`Props_SemiSampled.v`): `C124_curve` [C], `C124_fit` [C], `C124_componentwise` [C], `C124_any_turn` [C], `C124_sharp` [C], `C124_turn_refuted` [C].

Extent: Exact arithmetic; both readings of exponential and logarithm as in C95. The bound without the term for the turning is refuted.

### C125 Semi-discrete curves through orientations of a body — proved

The rotation on a segment is a point on a great circle of unit quaternions; its scalar product with the true one is a combination of those of the ends with weights sin((1-s)d)/sin d and sin(s d)/sin d, which are at least 1-s and s by concavity of the sine. The signs of the two quaternions agree because the three angles add up to less than half a circle. The inequality (1-s) cos(s w + q) + s cos((1-s) w + q) >= cos(w/2 + q) finishes the proof.

Theorems (`Props_SemiTurned.v`): `C125_curve` [C], `C125_fit` [C], `C125_sharp` [C], `C125_fast_refuted` [C].

Extent: Exact arithmetic; both readings of exponential and logarithm as in C95. The statement without the bound on W h is refuted.

### C126 Fitting inaccurate orientations — proved

On a segment of length d the stored and the mean angular speeds are at most W + 2 e/d, because a central difference spans at least this segment. C115's bound for the turn along a part of a segment then applies with this speed, and d cancels. The four measurements of a body at rest turn about one axis, where the segment is evaluated explicitly.

Theorems (`Props_TurnNoise.v`): `C126_fit` [C], `C126_fit_at_rest` [C], `C126_error_refuted` [C].

Extent: Exact arithmetic; exponential and logarithm of kindr as in C109 and C115. The bound with the error counted once is refuted.

### C127 Speed of a spline through samples of a motion of bounded speed — proved

The velocities at the knots satisfy a tridiagonal system that is diagonally dominant whatever the steps, with right-hand sides of at most 3 V times the row's weight; the largest is thus at most W. In a segment, the weights of the mean speed (counted as W/3) and of the two velocities add up to at most 1.

Theorems (`Props_SplineSpeed.v`): `C127_speed` [A], `C127_position` [A], `C127_curve` [A], `C127_faster_refuted` [A].

Extent: Exact arithmetic, exact solution of the linear system as in C113. The bound V for the speed is refuted.

### C128 When a fitted curve does not turn back — proved

A central difference is a weighted mean of the mean velocities of the two steps, thus at most three times either of them; C73 then applies to each segment, and the segments are chained. For larger factors, the segment between two quick ones moves back around its middle.

Theorems (`Props_Forward.v`): `C128_fit` [C], `C128_fit_at_rest` [C], `C128_se3_fit` [C], `C128_factor_refuted` [A], `C128_steps_refuted` [A].

Extent: Exact arithmetic, coordinates of the frame the points are given in. Larger factors are refuted for both kinds of steps.

### C129 How far piecewise linear trajectories stray — proved

The trajectory is the chord between two samples (C28). The error of a chord is the weighted mean of the differences of the motion at the two ends and at the time; for the second bound the terms linear in time cancel and Taylor's remainder is left.

Theorems (`Props_Linear.v`): `C129_positions` [C], `C129_low_orders` [C], `C129_sharp` [A].

Extent: Exact arithmetic. Both bounds are shown to be reached.

### C130 Accelerations of fitted curves — proved

The acceleration of a segment is the sum of the differences of its mean velocity and the two stored velocities, with weights that add up to at most 6 over its length. A central difference is the weighted mean of two mean velocities, so its difference to either is at most A/2 times the length of the other step. The mean velocity of a motion over a step differs from its velocity at either end of the step by at most A/2 times its length, by Taylor's theorem in every direction.

Theorems (`Props_Accel.v`): `C130_fit` [B], `C130_se3_fit` [B], `C130_motion` [C], `C130_sharp` [B].

Extent: Exact arithmetic. The bound is in terms of the data; it is reached for equal steps.

## 4. Trusted base

**Kernel and axioms.**  Coq's kernel (8.16.1) and `coqc`.  `Print Assumptions` lists for each
theorem (section 3):

* closed: nothing ("Closed under the global context");
* A: `ClassicalDedekindReals.sig_forall_dec`, `FunctionalExtensionality.functional_extensionality_dep`;
* B: A and `ClassicalDedekindReals.sig_not_dec`;
* C: B and `Classical_Prop.classic`.

All are axioms of Coq's standard library, used by its real numbers and, through
Coquelicot (derivatives, continuity) and Flocq (binary64), classical logic.  No axiom is
added here and none comes from another library.  `coqchk` also lists the opaque constants of
sealed standard library modules (`RbaseSymbolsImpl`, `RinvImpl`, `ssrunder`), which are
definitions behind a signature.

**Model.**  The correspondence between the C++ text and the model definitions, which is
by reading.

**Oracles.**  The hypotheses named in section 1: exact linear solve; kindr's and gtsam's functions being
the mathematical ones (gtsam takes the formulas of straight motion below a small angle, the model at angle 0 only); an exact number format where a theorem says so.

## 5. What of the code is modelled

| source | modelled | not modelled |
|---|---|---|
| KeyGenerator.cpp | getNextKey with threads | initialisation of statics (C++11 does it once) |
| LocalSupport2CoefficientManager | all members that compile: getKeys, appendKeys, getTimes, getTimesInWindow, insertCoefficient(s), modifyCoefficientsValuesInBatch, addCoefficientAtEnd, modifyCoefficient, removeCoefficientAtTime, hasCoefficientAtTime, updateCoefficientByKey, getCoefficientByKey, getCoefficientTimeByKey, getCoefficientsAt, updateCoefficients, size, empty, clear, getMinTime, getMaxTime, checkInternalConsistency, the private hasCoefficientAtTime with iterator (tolerance 0), implicit copy | print; a tolerance other than 0; members that do not compile when instantiated: equals, hasCoefficientWithKey, removeCoefficientWithKey, getCoefficientsInRange, getCoefficients |
| SamplingPolicy, SlerpSE3Curve | constructor, setSamplingRatio, setMinSamplingPeriod, clear, fitCurve, extend, evaluate (an abort), transformCurve, saving, print, evaluateDerivative | velocity functions (`CHECK(false)`) |
| PolynomialSpline, traits | everything but getters of stored values | |
| PolynomialSplineContainer | everything but printing; the quadratic programming members that are commented out do not exist | overflow of the `int` index beyond 2^31 splines |
| PolynomialSplineScalarCurve, -VectorSpaceCurve | everything but outKeys (never used) | |
| CubicHermiteE3Curve | fitCurve, fitCurveWithDerivatives, fitPeriodicCurve, evaluate, evaluateDerivative, evaluateLinearAcceleration, clear, extend, times, writeEvalToFile, print | members that are `CHECK(false)` |
| CubicHermiteSE3Curve | fitCurve, fitCurveWithDerivatives, fitPeriodicCurve, the sampling policy SamplingPolicy::extend<CubicHermiteSE3Curve> (C17, C53, C54, C79, C80 are about it; the member extend of the class throws and never calls it), setSamplingRatio, setMinSamplingPeriod, evaluate, evaluateDerivative (order 1), evaluateLinearAcceleration, clear, transformCurve, writeEvalToFile, saveCurveTimesAndValues, saveCurveAtTimes, print | gtsam expressions; debug assertions inside kindr |
| helpers.cpp | loadCSV, writeCSV, loadTimeVectorCSV, loadTimeTimeVectorCSV, writeTimeVectorCSV, toString of a double | texts that toString does not produce, as input of atof |
| DiscreteSE3Curve, SemiDiscreteSE3Curve | fitCurve, extend, setCurve, evaluate, transformCurve, getValueExpression (key), clear, setMinSamplingPeriod, saving, print, evaluateDerivative | velocity functions (`CHECK(false)`) |
| SlerpSE2Curve (not built by CMake) | fitCurve, setCurve, extend, setSamplingRatio, clear, evaluate, transformCurve, getValueExpression, addPriorFactors (the same text is in the two classes above), saveCurveTimesAndValues | functions for gtsam::Values (they call members the manager does not have), noise models, members that are `CHECK(false)` |
| SE3CompositionCurve | times, size, setSamplingRatio, extend, fitCurve, foldInCorrections, setCorrectionTimes, evaluate, clear, removeCorrectionCoefficientAtTime, setCorrectionCoefficientAtTime, transformCurve, resetCorrectionCurve, setBaseCurve, setBaseCurvePart, modifyBaseCoefficientsValuesInBatch, setMinSamplingPeriod, saving, print | evaluateDerivative, which returns an empty vector; the velocity functions return zero (`Velocity.v`) |
| Pose2_Expressions.hpp (not built by CMake) | function1, function2, transformationLog, vectorScaling, slerp, pointsSubtraction, pose2AsPoint2, each with its Jacobians | makeRandomSE2, the wrappers of gtsam's transform_from, distance and range |
| curves_ros | fromMessage of the three classes | conversion of a ROS transform to a pose (a parameter) |
| not modelled at all | | LinearInterpolationVectorSpaceCurve (commented out), SE2Curve (abstract) |
| matlab/readCubicHermiteSE3Curve.m | reading, the step, the difference quotients | plotting; lines with fewer than 14 numbers |
| curves/test (the tests built by CMake and test_LocalSupport2CoefficientManager) | RepoTests.v | run in double precision as a check of the model; left out: random data, rotations, gtsam (test_Hermite, test_SE3Coefficient) |

Rounding is modelled only where a theorem says binary64 (C39, C41, C47, C57, C91, C92, C97, C98, C101, C102, C103, C104, C105, C106, C107, C108, C114, C118, C121).

## 6. Tests of the theorems

`seeded/LOG.jsonl` lists the wrong programs the theorems were tried on: each line is an
edit of one model definition in a scratch copy, with the theorems whose proof then
failed (directly or because it uses a lemma whose proof failed) and what was tightened
when a claim should have failed but did not.
