(** * The unit tests of the repository, run in the model

    The files in curves/test are programs with a known result: upstream they pass.  Here
    the model runs the same programs, in double precision, as a check of the model (the
    properties are not about them).  Every [Example] is named after a TEST; the numbers
    and the order of the calls are those of the test.

    Literals: [dec n k] is the decimal fraction n / 10^k; the quotient of two integers
    that are doubles is rounded correctly, so that it is the double a compiler makes of
    the literal.

    Left out: tests of random data (PolynomialSplinesTest.cpp is covered by C21), tests
    that need the exponential map of kindr in double precision (the ones with a rotation
    in CubicHermiteSE3CurveTest.cpp; they are covered by C36, C43 and C44 over the reals)
    and tests that are not built (gtsam). *)

From Coq Require Import List Bool Arith NArith ZArith.
From Flocq Require Import Core IEEE754.BinarySingleNaN.
From Verif Require Import Base TimeOrder TimeB64 TimeInst KeyGen Manager Num NumB64 Spline Container SplineCurves
  ColPiv HermiteE3 Quat Sampling HermiteSE3.
Import ListNotations.

(** Not in the source: the literal [n / 10^k] and the literal [n]. *)
Definition dec (n : Z) (k : Z) : b64 := ndiv (nofZ n) (nofZ (10 ^ k)).
Definition int (n : Z) : b64 := nofZ n.

(** Not in the source (googletest): EXPECT_NEAR(a, b, tolerance) and EXPECT_EQ for doubles. *)
Definition near (a b tolerance : b64) : bool :=
  let d := nsub a b in nleb (if nltb d (nofZ 0) then nopp d else d) tolerance.

(** Not in the source: run a test on a value, if there is one. *)
Definition when {A} (o : outcome A) (test : A -> bool) : bool := match o with Ok a => test a | _ => false end.

(** ** PolynomialSplineContainerTest.cpp *)

(** PolynomialSplineContainerTest.cpp lines 17-30 (and 52-65, 91-104): the data of the three tests. *)
Definition knot_pos := [int 0; int 1; int 2].
Definition knot_val := [int 0; int 1; int 2].

Definition container_of (v0 a0 vT aT : b64) : outcome (bool * container b64) :=
  set_data6 pivoted 5 c_new knot_pos knot_val v0 a0 vT aT.

(** PolynomialSplineContainerTest.cpp lines 32-46: the calls share the variable timeOffset. *)
Fixpoint index_calls (c : container b64) (offset : b64) (calls : list (b64 * Z * b64)) : bool :=
  match calls with
  | [] => true
  | (t, index, expected) :: calls' =>
      let (i, offset') := active_index_at c t offset in
      Z.eqb i index && neqb offset' expected && index_calls c offset' calls'
  end.

(** PolynomialSplineContainerTest.cpp lines 15-47 *)
Example PolynomialSplineContainer_getActiveSplineIndexAtTime :
  when (container_of (int 0) (int 0) (int 0) (int 0)) (fun r =>
    index_calls (snd r) (int 0)
      [(int (-1), 0%Z, int 0); (int 0, 0%Z, int 0); (dec 5 1, 0%Z, int 0); (int 1, 1%Z, int 1);
       (dec 15 1, 1%Z, int 1); (int 2, 1%Z, int 1); (dec 25 1, 1%Z, int 1)]) = true.
Proof. vm_compute. reflexivity. Qed.

(** PolynomialSplineContainerTest.cpp lines 50-87; the last check is for the first knot only, the others are commented out
    in the test, as are the ones for the derivatives.  All of them hold. *)
Example PolynomialSplineContainer_eval :
  when (container_of (dec 1 1) (dec 2 1) (dec 3 1) (dec 4 1)) (fun r =>
    let c := snd r in
    let tol := dec 1 2 in
    forallb (fun i =>
        when (get_spline c (Z.of_nat i)) (fun s =>
          near (nth i knot_val (int 0)) (position_at 5 s (int 0)) tol &&
          near (nth (i + 1) knot_val (int 0))
               (position_at 5 s (nsub (nth (i + 1) knot_pos (int 0)) (nth i knot_pos (int 0)))) tol)) [0; 1] &&
    forallb (fun i => when (get_position_at_time 5 c (nth i knot_pos (int 0))) (fun p => near (nth i knot_val (int 0)) p tol))
      [0; 1; 2] &&
    when (get_velocity_at_time 5 c (int 0)) (fun v => near (dec 1 1) v tol) &&
    when (get_velocity_at_time 5 c (int 2)) (fun v => near (dec 3 1) v tol) &&
    when (get_acceleration_at_time 5 c (int 0)) (fun a => near (dec 2 1) a tol) &&
    when (get_acceleration_at_time 5 c (int 2)) (fun a => near (dec 4 1) a tol)) = true.
Proof. vm_compute. reflexivity. Qed.

(** PolynomialSplineContainerTest.cpp lines 89-113 *)
Example PolynomialSplineContainer_getState :
  when (container_of (int 0) (int 0) (int 0) (int 0)) (fun r =>
    let t := dec 4 1 in
    let c := set_container_time (snd r) t in
    when (get_position 5 c) (fun a => when (get_position_at_time 5 c t) (fun b => neqb a b)) &&
    when (get_velocity 5 c) (fun a => when (get_velocity_at_time 5 c t) (fun b => neqb a b)) &&
    when (get_acceleration 5 c) (fun a => when (get_acceleration_at_time 5 c t) (fun b => neqb a b))) = true.
Proof. vm_compute. reflexivity. Qed.

(** ** PolynomialSplineQuinticScalarCurveTest.cpp *)

(** Not in the source: one EXPECT_TRUE and EXPECT_NEAR of evaluate, one EXPECT_NEAR of
    evaluateDerivative. *)
Definition value_near (c : scalar_curve b64) (t expected tolerance : b64) : bool :=
  when (sc_evaluate 5 c t) (fun r => fst r && near expected (snd r) tolerance).

Definition derivative_near (c : scalar_curve b64) (t : b64) (order : Z) (expected tolerance : b64) : bool :=
  when (sc_evaluate_derivative 5 c (int 0) t order) (fun r => near expected (snd r) tolerance).

(** PolynomialSplineQuinticScalarCurveTest.cpp lines 19-26: finiteDifference *)
Definition finite_difference (c : scalar_curve b64) (t : b64) : outcome b64 :=
  let dt := dec 1 6 in
  let* p := sc_evaluate 5 c (nadd t dt) in
  let* m := sc_evaluate 5 c (nsub t dt) in
  Ok (ndiv (nsub (snd p) (snd m)) (nmul (int 2) dt)).

(** PolynomialSplineQuinticScalarCurveTest.cpp lines 28-52 *)
Example PolynomialSplineQuinticScalarCurveTest_Overflow :
  when (sc_fit pivoted 5 sc_new [int 0; int 4] [int 0; int 1]) (fun c =>
    let tol := dec 1 10 in
    value_near c (dec (-1) 1) (int 0) tol && value_near c (int 0) (int 0) tol &&
    value_near c (int 4) (int 1) tol && value_near c (dec 41 1) (int 1) tol) = true.
Proof. vm_compute. reflexivity. Qed.

(** PolynomialSplineQuinticScalarCurveTest.cpp lines 54-75 *)
Example PolynomialSplineQuinticScalarCurveTest_minMax :
  when (sc_fit pivoted 5 sc_new [int 1; int 4] [int 3; int 5]) (fun c =>
    let tol := dec 1 3 in
    near (int 1) (sc_get_min_time c) tol && near (int 4) (sc_get_max_time c) tol &&
    value_near c (int 1) (int 3) tol && value_near c (int 4) (int 5) tol) = true.
Proof. vm_compute. reflexivity. Qed.

(** PolynomialSplineQuinticScalarCurveTest.cpp lines 77-119 *)
Example PolynomialSplineQuinticScalarCurveTest_initialAndFinalConstraints :
  when (sc_fit_boundary pivoted 5 sc_new [int 1; int 4] [int 3; int 5] (dec 1 1) (dec 3 1) (dec 1 1) (dec 3 1)) (fun c =>
    let tol := dec 1 3 in
    value_near c (int 1) (int 3) tol && value_near c (int 4) (int 5) tol &&
    derivative_near c (int 1) 1 (dec 1 1) tol && derivative_near c (int 4) 1 (dec 1 1) tol &&
    derivative_near c (int 1) 2 (dec 3 1) tol && derivative_near c (int 4) 2 (dec 3 1) tol) = true.
Proof. vm_compute. reflexivity. Qed.

(** PolynomialSplineQuinticScalarCurveTest.cpp lines 121-166; the time 1.4 is before the start *)
Example PolynomialSplineQuinticScalarCurveTest_firstDerivative :
  when (sc_fit_boundary pivoted 5 sc_new [int 4; int 7; int 10] [int 3; int 10; int 3] (int 0) (int 0) (int 0) (int 0))
    (fun c =>
    let tol := dec 1 3 in
    value_near c (int 7) (int 10) tol &&
    when (finite_difference c (int 7)) (fun d => derivative_near c (int 7) 1 d tol) &&
    derivative_near c (int 7) 1 (int 0) tol &&
    when (finite_difference c (dec 14 1)) (fun d => derivative_near c (dec 14 1) 1 d tol)) = true.
Proof. vm_compute. reflexivity. Qed.

(** Not in the source: the loop [for (double t = first; t <= last; t += step)], with at most [fuel] rounds. *)
Fixpoint for_times (fuel : nat) (t last step : b64) (body : b64 -> bool) : bool :=
  match fuel with
  | O => false
  | S fuel' => if nleb t last then body t && for_times fuel' (nadd t step) last step body else true
  end.

(** PolynomialSplineQuinticScalarCurveTest.cpp lines 168-197.  The test loops up to times[3], which does not exist (there are three
    times); here the loop ends at the last time. *)
Example PolynomialSplineQuinticScalarCurveTest_invarianceUnderOffset :
  let times := [int 0; dec 41545 5; dec 58075 5] in
  let values := [int 0; dec 1 1; int 0] in
  let offset := dec (-5) 2 in
  when (sc_fit pivoted 5 sc_new times values) (fun c1 =>
  when (sc_fit pivoted 5 sc_new times (map (fun v => nadd v offset) values)) (fun c2 =>
    for_times 60 (int 0) (dec 58075 5) (dec 1 2) (fun t =>
      when (sc_evaluate 5 c1 t) (fun r1 =>
      when (sc_evaluate 5 c2 t) (fun r2 => near (snd r1) (nsub (snd r2) offset) (dec 1 7)))))) = true.
Proof. vm_compute. reflexivity. Qed.

(** ** PolynomialSplineVectorSpaceCurveTest.cpp, lines 18-51 *)

(** Not in the source: one EXPECT_NEAR for all three coordinates. *)
Definition all_near (c : vector_curve b64) (t expected tolerance : b64) : bool :=
  when (vc_evaluate c t) (fun r =>
    fst r && Nat.eqb (length (snd r)) 3 && forallb (fun x => near expected x tolerance) (snd r)).

Example PolynomialSplineQuinticVector3Curve_Overflow :
  when (vc_fit pivoted (vc_new 3) [int 0; int 4] [[int 0; int 0; int 0]; [int 1; int 1; int 1]]) (fun c =>
    let tol := dec 1 10 in
    all_near c (dec (-1) 1) (int 0) tol && all_near c (int 0) (int 0) tol &&
    all_near c (int 4) (int 1) tol && all_near c (dec 41 1) (int 1) tol) = true.
Proof. vm_compute. reflexivity. Qed.

(** PolynomialSplineVectorSpaceCurveTest.cpp lines 54-81: the fit of the test without checks goes through its points. *)
Example PolynomialSplineQuinticVector3Curve_Debugging :
  let times := [int 0; dec 5 1; int 1; dec 15 1] in
  let values := [[dec 352492 6; dec (-208961) 6; dec 15573 6]; [dec 352492 6; dec (-208961) 6; dec 115573 6];
                 [dec 419831 6; dec (-2154) 4; dec 115573 6]; [dec 419831 6; dec (-2154) 4; dec (-102906) 9]] in
  when (vc_fit pivoted (vc_new 3) times values) (fun c =>
    forallb (fun tv => when (vc_evaluate c (fst tv)) (fun r =>
      forallb (fun xy => near (fst xy) (snd xy) (dec 1 10)) (combine (snd tv) (snd r)))) (combine times values)) = true.
Proof. vm_compute. reflexivity. Qed.

(** ** CubicHermiteSE3CurveTest.cpp

    Tests in which nothing turns.  The exponential map is called with the zero vector
    and the logarithm with the identity only. *)

(** Not in the source (kindr): the two maps, for no rotation. *)
Definition at_rest : kindr b64 := Kindr (fun _ => qone) (fun _ => vzero).

(** Not in the source: EXPECT_EQ for poses, and tests of a fitted curve. *)
Definition identity_b64 : pose b64 := Pose vzero qone.
Definition same3 (a b : vec3 b64) : bool := neqb (vx a) (vx b) && neqb (vy a) (vy b) && neqb (vz a) (vz b).
Definition same_pose (a b : pose b64) : bool :=
  same3 (p_pos a) (p_pos b) && neqb (qw (p_rot a)) (qw (p_rot b)) && neqb (qx (p_rot a)) (qx (p_rot b)) &&
  neqb (qy (p_rot a)) (qy (p_rot b)) && neqb (qz (p_rot a)) (qz (p_rot b)).

Definition se3_fitted (ts : list b64) (vs : list (pose b64)) (test : se3_curve b64 -> bool) : bool :=
  when (se3_fit at_rest 0 se3_new ts vs []) (fun r => test (snd (fst r))).
Definition se3_at (c : se3_curve b64) (t : b64) (test : pose b64 -> bool) : bool :=
  when (se3_evaluate at_rest c t) (fun r => match r with Some v => test v | None => false end).

(** CubicHermiteSE3CurveTest.cpp lines 24-55 *)
Example Evaluate_IdentityPoses :
  se3_fitted [int 0; int 1] [identity_b64; identity_b64] (fun c =>
    forallb (fun t => se3_at c t (same_pose identity_b64)) [int 0; dec 5 1; int 1]) = true.
Proof. vm_compute. reflexivity. Qed.

(** CubicHermiteSE3CurveTest.cpp lines 57-82 *)
Example Evaluate_TranslationOnly :
  let a := Pose (V3 (int (-10)) (int 10) (int 10)) qone in
  let b := Pose (V3 (int 10) (int (-10)) (int (-10))) qone in
  se3_fitted [int 0; int 1] [a; b] (fun c =>
    se3_at c (int 0) (same_pose a) && se3_at c (dec 5 1) (same_pose identity_b64) && se3_at c (int 1) (same_pose b)) = true.
Proof. vm_compute. reflexivity. Qed.

(** CubicHermiteSE3CurveTest.cpp lines 84-112, with a smaller tolerance *)
Example InvarianceUnderCoordinateTransformation_Translation :
  let offset := V3 (int 10) (int 10) (int 10) in
  let a := Pose (V3 (int (-1)) (dec 1 1) (int 10)) qone in
  let b := Pose (V3 (int 1) (dec 2 1) (int 5)) qone in
  let move p := Pose (vadd (p_pos p) offset) (p_rot p) in
  let tol := dec 1 13 in
  se3_fitted [int 0; int 5] [a; b] (fun c1 =>
  se3_fitted [int 0; int 5] [move a; move b] (fun c2 =>
    for_times 60 (int 0) (int 5) (dec 1 1) (fun t =>
      se3_at c1 t (fun p => se3_at c2 t (fun q =>
        let r := vsub (p_pos q) offset in
        near (vx (p_pos p)) (vx r) tol && near (vy (p_pos p)) (vy r) tol && near (vz (p_pos p)) (vz r) tol))))) = true.
Proof. vm_compute. reflexivity. Qed.

(** CubicHermiteSE3CurveTest.cpp lines 320-357, the positions, with the identity for the fixed rotation.  The checks of
    y are commented out in the test; they hold. *)
Example Debugging_FreeGaitTorsoControl :
  let a := V3 (dec 999 1) (int 0) (dec 38 2) in
  let b := V3 (int 100) (int 0) (dec 40 2) in
  se3_fitted [int 0; dec 15 1] [Pose a qone; Pose b qone] (fun c =>
    for_times 20 (int 0) (dec 15 1) (dec 1 1) (fun t =>
      se3_at c t (fun p =>
        nleb (vx a) (vx (p_pos p)) && nleb (vx (p_pos p)) (vx b) &&
        nleb (vy a) (vy (p_pos p)) && nleb (vy (p_pos p)) (vy b) &&
        nleb (vz a) (vz (p_pos p)) && nleb (vz (p_pos p)) (vz b)))) = true.
Proof. vm_compute. reflexivity. Qed.

(** CubicHermiteSE3CurveTest.cpp lines 359-375 *)
Example GetTime_Simple :
  se3_fitted [dec 11 1; dec 56 1; dec 72 1] [identity_b64; identity_b64; identity_b64] (fun c =>
    neqb (dec 11 1) (se3_min_time c) && neqb (dec 72 1) (se3_max_time c)) = true.
Proof. vm_compute. reflexivity. Qed.

(** ** test_LocalSupport2CoefficientManager.cpp (not built by CMake)

    SetUp, lines 19-37: fifty coefficients at the times 1000 i - 3250, one by one into the
    first manager, all at once into the second.  The coefficients (random vectors in the
    test) are numbers here. *)

Definition test_times : list Z := map (fun i => (Z.of_nat i * 1000 - 3250)%Z) (seq 0 50).
Definition test_values : list Z := map (fun i => (Z.of_nat i * 7 + 1)%Z) (seq 0 50).

Definition set_up : outcome (mgr Z Z * list N * mgr Z Z * list N) :=
  let* r := foldM (fun s tc =>
      let '(g, m, ks) := s in
      let* q := insert_coefficient g m (fst tc) (snd tc) in
      Ok (fst (fst q), snd (fst q), ks ++ [snd q]))
    (combine test_times test_values) (0%N, mgr_empty, []) in
  let* r2 := insert_coefficients (fst (fst r)) mgr_empty test_times test_values [] in
  Ok (snd (fst r), snd r, snd (fst r2), snd r2).

(** test_LocalSupport2CoefficientManager.cpp lines 52-70 *)
Example LocalSupport2CoefficientManagerTest_testInsert :
  when set_up (fun s => let '(m1, k1, m2, k2) := s in
    Nat.eqb 50 (size m1) && Nat.eqb 50 (size m2) && Nat.eqb 50 (length k1) && Nat.eqb 50 (length k2) &&
    forallb (fun ab => Z.eqb (fst ab) (snd ab)) (combine (get_times m1) test_times) && Nat.eqb (length (get_times m1)) 50 &&
    forallb (fun ab => Z.eqb (fst ab) (snd ab)) (combine (get_times m2) test_times) && Nat.eqb (length (get_times m2)) 50 &&
    is_ok (check_internal_consistency Z.eqb m1) && is_ok (check_internal_consistency Z.eqb m2)) = true.
Proof. vm_compute. reflexivity. Qed.

(** Not in the source: the times of the coefficients around [t] are the expected ones. *)
Definition bracket_is (m : mgr Z Z) (t : Z) (expected : option (Z * Z)) : bool :=
  match get_coefficients_at m t, expected with
  | None, None => true
  | Some (a, b), Some (ta, tb) => Z.eqb (n_time a) ta && Z.eqb (n_time b) tb
  | _, _ => false
  end.

(** test_LocalSupport2CoefficientManager.cpp lines 73-118 *)
Example LocalSupport2CoefficientManagerTest_testTimes :
  when set_up (fun s => let '(m1, _, _, _) := s in
    let time i := nth i test_times 0%Z in
    bracket_is m1 (time 0%nat - 1)%Z None && bracket_is m1 (time 0%nat - 100)%Z None &&
    bracket_is m1 (time 49) (Some (time 48, time 49)) &&
    bracket_is m1 (time 49%nat + 1)%Z None && bracket_is m1 (time 49%nat + 100)%Z None &&
    forallb (fun i => bracket_is m1 (time (i - 1)) (Some (time (i - 1), time i)) &&
                      bracket_is m1 ((time (i - 1)%nat + time i) / 2)%Z (Some (time (i - 1), time i))) (seq 1 49)) = true.
Proof. vm_compute. reflexivity. Qed.

(** test_LocalSupport2CoefficientManager.cpp lines 124-143 *)
Example LocalSupport2CoefficientManagerTest_testUpdateCoefficients :
  when set_up (fun s => let '(m1, k1, m2, k2) := s in
    when (foldM (fun m k => update_coefficient_by_key m k 0%Z) k1 m1) (fun m =>
      forallb (fun k => when (get_coefficient_by_key m k) (Z.eqb 0)) k1) &&
    when (update_coefficients m2 (map (fun k => (k, 0%Z)) k2)) (fun m =>
      forallb (fun k => when (get_coefficient_by_key m k) (Z.eqb 0)) k2)) = true.
Proof. vm_compute. reflexivity. Qed.
