(** * Model of SlerpSE3Curve beyond sampling, of saving and printing, and of the factory

    Sources: /repo/curves/src/SlerpSE3Curve.cpp (built), DiscreteSE3Curve.cpp,
    SemiDiscreteSE3Curve.cpp, SE3CurveFactory.cpp and
    /repo/curves/include/curves/SE3CompositionCurve-inl.hpp.

    The three SE3 classes have the data of [slerp_curve] (Sampling.v); each is
    given here by its function evaluate.  Text sent to std::cout is reduced to the
    numbers it shows. *)

From Coq Require Import List Bool Arith NArith ZArith Ascii String.
From Coq Require Import List.
From Verif Require Import Base TimeOrder KeyGen Manager Num Sampling Discrete Composition Csv.
Import ListNotations.

Section Curves.
Context {S : Type} `{Num S} `{TimeOps S} {V : Type}.
Local Notation curve := (@slerp_curve S V).

(** SlerpSE3Curve.cpp lines 156-184: CHECK(false), the body is a comment. *)
Definition slerp_evaluate (c : curve) (t : S) : outcome V := Abort.

(** SlerpSE3Curve.cpp lines 248-250, the same in DiscreteSE3Curve.cpp and
    SemiDiscreteSE3Curve.cpp: setMinSamplingPeriod. *)
Definition slerp_set_period (c : curve) (d : S) : curve :=
  Slerp (s_mgr c) (Policy (p_count (s_pol c)) (p_min (s_pol c)) d (p_last (s_pol c))).

(** ** Saving *)

(** [show] is toString (helpers.cpp), [nums] the vector of position and rotation
    entries built in lines 283-285. *)
Variable show : S -> text.
Variable nums : V -> list S.
Variable ev : curve -> S -> outcome V.

(** SlerpSE3Curve.cpp lines 277-290, the same text in DiscreteSE3Curve.cpp and
    SemiDiscreteSE3Curve.cpp: saveCurveAtTimes, as the contents of the file. *)
Definition curve_save_at_times (c : curve) (times : list S) : outcome text :=
  let* vs := mapM (ev c) times in
  write_time_vector_csv show times (map nums vs).

(** SlerpSE3Curve.cpp lines 270-275: saveCurveTimesAndValues. *)
Definition curve_save (c : curve) : outcome text := curve_save_at_times c (get_times (s_mgr c)).

(** ** Printing *)

(** [dist p q] is the length of the difference of the positions of p and q. *)
Variable dist : V -> V -> S.

(** What print shows; [r_lines] has one entry for each coefficient. *)
Record report (L : Type) := Report {
  r_count : nat; r_first : S; r_last : S; r_mean_dt : S; r_mean_distance : S; r_lines : list L
}.
Arguments Report {L}.

(** SlerpSE3Curve.cpp lines 33-37: the loop up to [times.size()-1], with unsigned
    subtraction; for no times the bound is 2^64-1 and times[0] is read out of bounds. *)
Definition sum_distances (c : curve) (times : list S) : outcome S :=
  match times with
  | [] => UB
  | t0 :: r =>
      let* x := foldM (fun s t =>
        let* p1 := ev c (fst s) in
        let* p2 := ev c t in
        Ok (t, (snd s + dist p1 p2)%num)) r (t0, nofZ 0) in
      Ok (snd x)
  end.

(** SlerpSE3Curve.cpp lines 18-48.  The label with the key is built in [ss] but
    never shown, so a line has the time only (line 44). *)
Definition slerp_print (c : curve) : outcome (report S) :=
  let times := get_times (s_mgr c) in
  let* sum := sum_distances c times in
  let n1 := nofZ (Z.of_nat (length times) - 1) in
  Ok (Report (size (s_mgr c)) (min_time (s_mgr c)) (max_time (s_mgr c))
        ((max_time (s_mgr c) - min_time (s_mgr c)) / n1)%num (sum / n1)%num times).

(** DiscreteSE3Curve.cpp lines 18-49 and SemiDiscreteSE3Curve.cpp lines 18-49: a
    line has the key, the coefficient found by that key, and the time. *)
Definition disc_print (c : curve) : outcome (report (N * V * S)) :=
  let times := get_times (s_mgr c) in
  let* sum := sum_distances c times in
  let n1 := nofZ (Z.of_nat (length times) - 1) in
  let* lines := mapM (fun kt => let* v := get_coefficient_by_key (s_mgr c) (fst kt) in
                                Ok (fst kt, v, snd kt)) (combine (get_keys (s_mgr c)) times) in
  Ok (Report (size (s_mgr c)) (min_time (s_mgr c)) (max_time (s_mgr c))
        ((max_time (s_mgr c) - min_time (s_mgr c)) / n1)%num (sum / n1)%num lines).

End Curves.
Arguments report S L : clear implicits.
Arguments Report {S L}.
Arguments r_count {S L}. Arguments r_first {S L}. Arguments r_last {S L}.
Arguments r_mean_dt {S L}. Arguments r_mean_distance {S L}. Arguments r_lines {S L}.

(** ** The composition curve *)

Section Composed.
Context {S : Type} `{Num S} `{TimeOps S} {V : Type} `{GroupOps V}.
Local Notation curve := (@slerp_curve S V).
Local Notation comp := (comp S V).
Variable show : S -> text.
Variable nums : V -> list S.
Variables eb ec : curve -> S -> outcome V.

(** SE3CompositionCurve-inl.hpp lines 109-113 *)
Definition comp_set_period (c : comp) (d : S) : comp :=
  Comp (slerp_set_period (c_base c) (nofZ 0)) (slerp_set_period (c_corr c) d).

(** SE3CompositionCurve-inl.hpp lines 481-484: getCurveTimes; lines 469-472: getBaseCurveTimes; lines 474-478:
    getBaseCurveTimesInWindow *)
Definition comp_times (c : comp) : list S := get_times (s_mgr (c_corr c)).
(** SE3CompositionCurve-inl.hpp lines 469-472: getBaseCurveTimes. *)
Definition comp_base_times (c : comp) : list S := get_times (s_mgr (c_base c)).
(** SE3CompositionCurve-inl.hpp lines 474-478: getBaseCurveTimesInWindow. *)
Definition comp_base_window (c : comp) (a b : S) : outcome (list S) :=
  get_times_in_window (s_mgr (c_base c)) a b.

(** SE3CompositionCurve-inl.hpp lines 429-443: saveCurveAtTimes *)
Definition comp_save_at_times (c : comp) (times : list S) : outcome text :=
  let* vs := mapM (comp_evaluate eb ec c) times in
  write_time_vector_csv show times (map nums vs).

(** SE3CompositionCurve-inl.hpp lines 421-427: saveCurveTimesAndValues *)
Definition comp_save (c : comp) : outcome text := comp_save_at_times c (get_times (s_mgr (c_base c))).

(** SE3CompositionCurve-inl.hpp lines 453-467 and 445-451: saveCorrectionCurveAtTimes, saveCorrectionCurveTimesAndValues *)
Definition comp_save_correction_at_times (c : comp) (times : list S) : outcome text :=
  curve_save_at_times show nums ec (c_corr c) times.
(** SE3CompositionCurve-inl.hpp lines 445-451. *)
Definition comp_save_correction (c : comp) : outcome text :=
  comp_save_correction_at_times c (get_times (s_mgr (c_corr c))).

(** SE3CompositionCurve-inl.hpp lines 39-76: saveCurves, as the contents of the files ending in _base.csv,
    _correction.csv and _composed.csv.  A file written before a later one aborts is
    not represented. *)
Definition comp_save_curves (c : comp) : outcome (text * text * text) :=
  let bts := get_times (s_mgr (c_base c)) in
  let cts := get_times (s_mgr (c_corr c)) in
  let* bvs := mapM (eb (c_base c)) bts in
  let* cvs := mapM (ec (c_corr c)) cts in
  let* vs := mapM (comp_evaluate eb ec c) bts in
  let* f1 := write_time_vector_csv show bts (map nums bvs) in
  let* f2 := write_time_vector_csv show cts (map nums cvs) in
  let* f3 := write_time_vector_csv show bts (map nums vs) in
  Ok (f1, f2, f3).

End Composed.

(** ** The factory *)

(** The classes SE3CurveFactory can make. SE3CurveFactory.cpp lines 16-26. *)
Inductive made :=
| MadeSlerp | MadeDiscrete | MadeSlerpComposition | MadeDiscreteComposition | MadeSemiDiscreteComposition.

(** SE3CurveFactory.cpp lines 11-31 *)
Definition create_curve (name : string) : outcome made :=
  if String.eqb name "slerp_curve" then Ok MadeSlerp
  else if String.eqb name "discrete_curve" then Ok MadeDiscrete
  else if String.eqb name "composition_curve" then Ok MadeSlerpComposition
  else if String.eqb name "discrete_composition_curve" then Ok MadeDiscreteComposition
  else if String.eqb name "semi_discrete_composition_curve" then Ok MadeSemiDiscreteComposition
  else Abort.
