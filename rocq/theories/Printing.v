(** * Model of the print functions of the spline, Hermite and composition curves

    Sources: PolynomialSplineScalarCurve.hpp, CubicHermiteE3Curve.cpp,
    CubicHermiteSE3Curve.cpp, SE3CompositionCurve-inl.hpp.  A report holds the numbers in
    the order in which they are shown; their text, the fixed captions and the argument
    [str] are left out.  PolynomialSplineVectorSpaceCurve.hpp lines 42-44: nothing is
    printed. *)

From Coq Require Import List Bool Arith NArith ZArith.
From Verif Require Import Base TimeOrder KeyGen Manager Num Sampling Spline Container SplineCurves HermiteE3
  Quat HermiteSE3 Discrete Composition.
Import ListNotations.

Section Scalar.
Context {S : Type} `{Num S}.
Local Open Scope num_scope.

(** One row: time, value, first and second derivative.
    PolynomialSplineScalarCurve.hpp lines 63-67. *)
Record row := Row { w_time : S; w_value : S; w_first : S; w_second : S }.

(** PolynomialSplineScalarCurve.hpp 56-68, the loop with [n] points left.  The results
    (bool) of the evaluations are ignored; the variables for the derivatives are not
    initialised, and both orders assign them ([old] is #0 here). *)
Fixpoint sc_print_loop (o : nat) (c : scalar_curve S) (dt : S) (n : nat) (time : S) : outcome (list row) :=
  match n with
  | 0%nat => Ok []
  | Datatypes.S n' =>
      let* v := sc_evaluate o c time in
      let* d1 := sc_evaluate_derivative o c #0 time 1 in
      let* d2 := sc_evaluate_derivative o c #0 time 2 in
      let* rest := sc_print_loop o c dt n' (time + dt) in
      Ok (Row time (snd v) (snd d1) (snd d2) :: rest)
  end.

(** PolynomialSplineScalarCurve.hpp 48-69: print with nPoints = 15. *)
Definition sc_print (o : nat) (c : scalar_curve S) : outcome (list row) :=
  let lo := sc_get_min_time c in
  let hi := sc_get_max_time c in
  sc_print_loop o c ((hi - lo) / #14) 15 lo.

End Scalar.
Arguments row S : clear implicits.

Section Hermite.
Context {S : Type} `{Num S} `{TimeOps S}.

(** What the print functions of the Hermite curves show.
    CubicHermiteE3Curve.cpp lines 20-41, CubicHermiteSE3Curve.cpp lines 22-44. *)
Record hermite_report (L : Type) := HReport { hr_count : nat; hr_first : S; hr_last : S; hr_lines : list L }.
Arguments HReport {L}.

(** [keys[i]] and [times[i]] side by side, with the coefficient of [keys[i]].
    CubicHermiteE3Curve.cpp lines 34-39, CubicHermiteSE3Curve.cpp lines 36-42. *)
Definition lines_of {C L} (m : mgr S C) (shown : N -> C -> S -> L) : outcome (list L) :=
  mapM (fun kt => let* v := get_coefficient_by_key m (fst kt) in Ok (shown (fst kt) v (snd kt)))
    (combine (get_keys m) (get_times m)).

(** CubicHermiteE3Curve.cpp 20-41: a line shows key, position and time. *)
Definition e3_print (c : e3_curve S) : outcome (hermite_report (N * vec3 S * S)) :=
  let* lines := lines_of c (fun k v t => (k, k_pos v, t)) in
  Ok (HReport (size c) (min_time c) (max_time c) lines).

(** CubicHermiteSE3Curve.cpp 22-44: the lines are written to [ss], which is emptied at
    the end of every turn and never shown. *)
Definition se3_print (c : se3_curve S) : outcome (hermite_report (N * (pose S * twist S) * S)) :=
  let* _ := lines_of (h_mgr c) (fun k v t => (k, v, t)) in
  Ok (HReport (size (h_mgr c)) (min_time (h_mgr c)) (max_time (h_mgr c)) []).

End Hermite.
Arguments hermite_report S L : clear implicits.
Arguments HReport {S L}.
Arguments hr_count {S L}. Arguments hr_first {S L}. Arguments hr_last {S L}. Arguments hr_lines {S L}.

(** SE3CompositionCurve-inl.hpp 30-37: base curve first, then the correction; [pb] and
    [pc] are the print functions of the two. *)
Definition comp_print {S V B K} (pb : @slerp_curve S V -> outcome B) (pc : @slerp_curve S V -> outcome K)
  (c : comp S V) : outcome (B * K) :=
  let* b := pb (c_base c) in
  let* k := pc (c_corr c) in
  Ok (b, k).
