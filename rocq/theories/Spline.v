(** * Polynomial splines of order 1 to 5

    Model of curves/include/curves/polynomial_splines_traits.hpp and
    curves/include/curves/PolynomialSpline.hpp.  The template parameter
    [splineOrder_] is the number [o]; [spline_rep] is specialised for the orders
    1 to 5, other orders cannot be used (they have no definition of [tau]) and get
    the empty vector here.  [std::array<double, o+1>] is a list. *)

From Coq Require Import List ZArith Bool.
From Verif Require Import Base Num.
Import ListNotations.

Section Spline.
Context {S : Type} `{Num S}.
Local Open Scope num_scope.

(** polynomial_splines_traits.hpp 98-100, 133-135, 170-172, 214-216, 260-263 *)
Definition tau (o : nat) (tk : S) : list S :=
  match o with
  | 1%nat => [tk; #1]
  | 2%nat => [npow2 tk; tk; #1]
  | 3%nat => [npow3 tk; npow2 tk; tk; #1]
  | 4%nat => [npow4 tk; npow3 tk; npow2 tk; tk; #1]
  | 5%nat => [npow5 tk; npow4 tk; npow3 tk; npow2 tk; tk; #1]
  | _ => []
  end.

(** polynomial_splines_traits.hpp 102-104, 137-139, 174-176, 218-220, 265-268 *)
Definition dtau (o : nat) (tk : S) : list S :=
  match o with
  | 1%nat => [#1; #0]
  | 2%nat => [#2 * tk; #1; #0]
  | 3%nat => [#3 * npow2 tk; #2 * tk; #1; #0]
  | 4%nat => [#4 * npow3 tk; #3 * npow2 tk; #2 * tk; #1; #0]
  | 5%nat => [#5 * npow4 tk; #4 * npow3 tk; #3 * npow2 tk; #2 * tk; #1; #0]
  | _ => []
  end.

(** polynomial_splines_traits.hpp 106-108, 141-143, 178-180, 222-224, 270-273 *)
Definition ddtau (o : nat) (tk : S) : list S :=
  match o with
  | 1%nat => [#0; #0]
  | 2%nat => [#2; #0; #0]
  | 3%nat => [#6 * tk; #2; #0; #0]
  | 4%nat => [#12 * npow2 tk; #6 * tk; #2; #0; #0]
  | 5%nat => [#20 * npow3 tk; #12 * npow2 tk; #6 * tk; #2; #0; #0]
  | _ => []
  end.

(** tauZero: polynomial_splines_traits.hpp 110, 145, 182, 226, 275 *)
Definition tau_zero (o : nat) : list S :=
  match o with
  | 1%nat => [#0; #1]
  | 2%nat => [#0; #0; #1]
  | 3%nat => [#0; #0; #0; #1]
  | 4%nat => [#0; #0; #0; #0; #1]
  | 5%nat => [#0; #0; #0; #0; #0; #1]
  | _ => []
  end.

(** dtauZero: polynomial_splines_traits.hpp 111, 146, 183, 227, 276 *)
Definition dtau_zero (o : nat) : list S :=
  match o with
  | 1%nat => [#1; #0]
  | 2%nat => [#0; #1; #0]
  | 3%nat => [#0; #0; #1; #0]
  | 4%nat => [#0; #0; #0; #1; #0]
  | 5%nat => [#0; #0; #0; #0; #1; #0]
  | _ => []
  end.

(** ddtauZero: polynomial_splines_traits.hpp 112, 147, 184, 228, 277 *)
Definition ddtau_zero (o : nat) : list S :=
  match o with
  | 1%nat => [#0; #0]
  | 2%nat => [#2; #0; #0]
  | 3%nat => [#0; #2; #0; #0]
  | 4%nat => [#0; #0; #2; #0; #0]
  | 5%nat => [#0; #0; #0; #2; #0; #0]
  | _ => []
  end.

(** SplineOptions, polynomial_splines_traits.hpp 23-67 *)
Record options := mkOptions {
  o_tf : S; o_pos0 : S; o_posT : S; o_vel0 : S; o_velT : S; o_acc0 : S; o_accT : S }.

(** Eigen's [A.colPivHouseholderQr().solve(b)]: any function of the number of
    columns, the matrix (list of rows) and the right hand side.  What is assumed
    about it is stated in the theorems ([exact_solver] in [LinSpec.v]).
    polynomial_splines_traits.hpp lines 198, 242 and 288, PolynomialSplineContainer.tpp lines 314 and 391. *)
Definition solver := nat -> list (list S) -> list S -> list S.

(** spline_rep::compute, polynomial_splines_traits.hpp 115-120, 150-157, 187-201,
    231-245, 280-292.  It returns the coefficients (highest power first); the C++
    function writes them to a reference and returns [true]. *)
Definition compute (solve : solver) (o : nat) (opts : options) : list S :=
  match o with
  | 1%nat => [(o_posT opts - o_pos0 opts) / o_tf opts; o_pos0 opts]
  | 2%nat => [(o_posT opts - o_pos0 opts - o_vel0 opts * o_tf opts) / npow2 (o_tf opts);
              o_vel0 opts; o_pos0 opts]
  | 3%nat => solve 4%nat
      [tau_zero 3; dtau_zero 3; tau 3 (o_tf opts); dtau 3 (o_tf opts)]
      [o_pos0 opts; o_vel0 opts; o_posT opts; o_velT opts]
  | 4%nat => solve 5%nat
      [tau_zero 4; dtau_zero 4; ddtau_zero 4; tau 4 (o_tf opts); dtau 4 (o_tf opts)]
      [o_pos0 opts; o_vel0 opts; o_acc0 opts; o_posT opts; o_velT opts]
  | 5%nat => solve 6%nat
      [tau_zero 5; dtau_zero 5; ddtau_zero 5; tau 5 (o_tf opts); dtau 5 (o_tf opts); ddtau 5 (o_tf opts)]
      [o_pos0 opts; o_vel0 opts; o_acc0 opts; o_posT opts; o_velT opts; o_accT opts]
  | _ => []
  end.

(** The members of PolynomialSpline, PolynomialSpline.hpp 296-308.  The flag
    didEvaluateCoeffs_ is never read and is left out. *)
Record spline := mkSpline { s_duration : S; s_coefs : list S }.

(** PolynomialSpline(), PolynomialSpline.hpp 47-53 *)
Definition spline_default (o : nat) : spline := mkSpline #0 (repeat #0 (o + 1)).

(** PolynomialSpline(coefficients, duration) and setCoefficientsAndDuration,
    PolynomialSpline.hpp 56-62, 98-101 *)
Definition spline_of (coefs : list S) (duration : S) : spline := mkSpline duration coefs.

(** PolynomialSpline(options), computeCoefficients, PolynomialSpline.hpp 64-70, 92-95 *)
Definition spline_of_options (solve : solver) (o : nat) (opts : options) : spline :=
  mkSpline (o_tf opts) (compute solve o opts).

(** The clamped time [std::max(0.0, std::min(tk, duration_))], PolynomialSpline.hpp 106 *)
Definition clamp (tk duration : S) : S := nmax #0 (nmin tk duration).

(** PolynomialSpline.hpp 104-107 *)
Definition position_at (o : nat) (s : spline) (tk : S) : S :=
  inner_product (s_coefs s) (tau o (clamp tk (s_duration s))) #0.

(** PolynomialSpline.hpp 110-113 *)
Definition velocity_at (o : nat) (s : spline) (tk : S) : S :=
  inner_product (s_coefs s) (dtau o (clamp tk (s_duration s))) #0.

(** PolynomialSpline.hpp 116-119 *)
Definition acceleration_at (o : nat) (s : spline) (tk : S) : S :=
  inner_product (s_coefs s) (ddtau o (clamp tk (s_duration s))) #0.

(** ** Time vector accessors

    The C++ functions overwrite (get) or increment (add) their argument, a row
    vector of [o+1] entries; here the argument is [v] and the new value is the result. *)

(** [+=] of Eigen row vectors of the same length. PolynomialSpline.hpp lines 145, 173 and 200. *)
Definition vadd (v w : list S) : list S := map (fun p => fst p + snd p) (combine v w).

(** getTimeVector, PolynomialSpline.hpp 125-137 *)
Definition get_time_vector (o : nat) (v : list S) (tk : S) := tau o tk.
(** addTimeVector, PolynomialSpline.hpp 141-147 *)
Definition add_time_vector (o : nat) (v : list S) (tk : S) := vadd v (tau o tk).
(** getDTimeVector and getDiffTimeVector, PolynomialSpline.hpp 153-165 *)
Definition get_d_time_vector (o : nat) (v : list S) (tk : S) := dtau o tk.
(** getDiffTimeVector, PolynomialSpline.hpp 159-165. *)
Definition get_diff_time_vector (o : nat) (v : list S) (tk : S) := dtau o tk.
(** addDiffTimeVector, PolynomialSpline.hpp 169-175 *)
Definition add_diff_time_vector (o : nat) (v : list S) (tk : S) := vadd v (dtau o tk).
(** getDDTimeVector, PolynomialSpline.hpp 180-182 *)
Definition get_dd_time_vector (o : nat) (v : list S) (tk : S) := ddtau o tk.
(** getDDiffTimeVector, PolynomialSpline.hpp 186-192; it copies dtau (line 191) *)
Definition get_ddiff_time_vector (o : nat) (v : list S) (tk : S) := dtau o tk.
(** addDDiffTimeVector, PolynomialSpline.hpp 196-202 *)
Definition add_ddiff_time_vector (o : nat) (v : list S) (tk : S) := vadd v (ddtau o tk).
(** getTimeVectorAtZero, PolynomialSpline.hpp 207-220 *)
Definition get_time_vector_at_zero (o : nat) (v : list S) := tau_zero o.
(** addTimeVectorAtZero, PolynomialSpline.hpp 224-231 *)
Definition add_time_vector_at_zero (o : nat) (v : list S) := vadd v (tau_zero o).
(** getDTimeVectorAtZero and getDiffTimeVectorAtZero, PolynomialSpline.hpp 237-250 *)
Definition get_d_time_vector_at_zero (o : nat) (v : list S) := dtau_zero o.
(** getDiffTimeVectorAtZero, PolynomialSpline.hpp 243-250. *)
Definition get_diff_time_vector_at_zero (o : nat) (v : list S) := dtau_zero o.
(** addDiffTimeVectorAtZero, PolynomialSpline.hpp 254-261 *)
Definition add_diff_time_vector_at_zero (o : nat) (v : list S) := vadd v (dtau_zero o).
(** getDDTimeVectorAtZero and getDDiffTimeVectorAtZero, PolynomialSpline.hpp 265-278 *)
Definition get_dd_time_vector_at_zero (o : nat) (v : list S) := ddtau_zero o.
(** getDDiffTimeVectorAtZero, PolynomialSpline.hpp 271-278. *)
Definition get_ddiff_time_vector_at_zero (o : nat) (v : list S) := ddtau_zero o.
(** addDDiffTimeVectorAtZero, PolynomialSpline.hpp 282-289 *)
Definition add_ddiff_time_vector_at_zero (o : nat) (v : list S) := vadd v (ddtau_zero o).

End Spline.

Arguments options S : clear implicits.
Arguments spline S : clear implicits.
Arguments solver S : clear implicits.
