(** * The scalar and the vector valued polynomial spline curve

    Model of curves/include/curves/PolynomialSplineScalarCurve.hpp and
    curves/include/curves/PolynomialSplineVectorSpaceCurve.hpp.  Output references
    are modelled by returning their value after the call; the argument [old] is the
    value before the call where it can survive.  The [outKeys] arguments are never
    used by the code and left out; the print functions are in Printing.v. *)

From Coq Require Import List ZArith Bool.
From Verif Require Import Base Num Spline Container.
Import ListNotations.

Section Curves.
Context {S : Type} `{Num S}.
Local Open Scope num_scope.

(** ** Scalar curve *)

(** The members, PolynomialSplineScalarCurve.hpp 152-154 *)
Record scalar_curve := mkScalar { sc_container : container S; sc_min : S }.

(** PolynomialSplineScalarCurve.hpp 37-42 *)
Definition sc_new : scalar_curve := mkScalar c_new #0.

(** PolynomialSplineScalarCurve.hpp 72-80 *)
Definition sc_get_min_time (c : scalar_curve) : S := sc_min c.
(** PolynomialSplineScalarCurve.hpp 77-80. *)
Definition sc_get_max_time (c : scalar_curve) : S :=
  get_container_duration (sc_container c) + sc_min c.

(** PolynomialSplineScalarCurve.hpp 82-87 *)
Definition sc_evaluate (o : nat) (c : scalar_curve) (time : S) : outcome (bool * S) :=
  let* v := get_position_at_time o (sc_container c) (time - sc_min c) in
  Ok (true, v).

(** PolynomialSplineScalarCurve.hpp 89-106 *)
Definition sc_evaluate_derivative (o : nat) (c : scalar_curve) (old : S) (time : S) (derivative_order : Z)
    : outcome (bool * S) :=
  if (derivative_order =? 1)%Z then
    let* v := get_velocity_at_time o (sc_container c) (time - sc_min c) in Ok (true, v)
  else if (derivative_order =? 2)%Z then
    let* v := get_acceleration_at_time o (sc_container c) (time - sc_min c) in Ok (true, v)
  else Ok (false, old).

(** PolynomialSplineScalarCurve.hpp 108-112 *)
Definition sc_extend (c : scalar_curve) (times values : list S) : outcome scalar_curve := Throw.

(** PolynomialSplineScalarCurve.hpp 121-129.  The result of setData is ignored;
    [times.front()] of an empty vector is undefined. *)
Definition sc_fit_boundary (solve : solver S) (o : nat) (c : scalar_curve) (times values : list S)
    (v0 a0 vT aT : S) : outcome scalar_curve :=
  let* r := set_data6 solve o (sc_container c) times values v0 a0 vT aT in
  let* t0 := vec_front times in
  Ok (mkScalar (snd r) t0).

(** PolynomialSplineScalarCurve.hpp 114-119 *)
Definition sc_fit (solve : solver S) (o : nat) (c : scalar_curve) (times values : list S) : outcome scalar_curve :=
  sc_fit_boundary solve o c times values #0 #0 #0 #0.

(** PolynomialSplineScalarCurve.hpp 131-139.  The splines are quintic whatever the
    container; the code only compiles for the quintic container (order 5). *)
Definition sc_fit_options (solve : solver S) (c : scalar_curve) (opts : list (options S)) : scalar_curve :=
  mkScalar (fold_left (fun k p => add_spline k (spline_of_options solve 5 p)) opts (sc_container c)) #0.

(** PolynomialSplineScalarCurve.hpp 141-145 *)
Definition sc_clear (c : scalar_curve) : scalar_curve := mkScalar (reset (sc_container c)) #0.

(** PolynomialSplineScalarCurve.hpp 147-150, CHECK(false) *)
Definition sc_transform (c : scalar_curve) (v : S) : outcome scalar_curve := Abort.

(** ** Vector curve *)

(** The members, PolynomialSplineVectorSpaceCurve.hpp 159-161; the template argument N
    is the length of the list.  Vectors (Eigen::Matrix<double, N, 1>) are lists. *)
Record vector_curve := mkVector { vc_containers : list (container S); vc_min : S }.

(** PolynomialSplineVectorSpaceCurve.hpp 31-36 *)
Definition vc_new (n : nat) : vector_curve := mkVector (repeat c_new n) #0.

(** PolynomialSplineVectorSpaceCurve.hpp 46-54; at(0) throws if N is 0 *)
Definition vc_get_min_time (c : vector_curve) : S := vc_min c.
(** PolynomialSplineVectorSpaceCurve.hpp 51-54; at(0) throws if N is 0. *)
Definition vc_get_max_time (c : vector_curve) : outcome S :=
  match vc_containers c with k :: _ => Ok (get_container_duration k) | [] => Throw end.

(** One call for every container, in order. PolynomialSplineVectorSpaceCurve.hpp 58-60. *)
Fixpoint for_each {A B} (f : A -> outcome B) (l : list A) : outcome (list B) :=
  match l with
  | [] => Ok []
  | x :: l' => let* y := f x in let* ys := for_each f l' in Ok (y :: ys)
  end.

(** PolynomialSplineVectorSpaceCurve.hpp 56-62 *)
Definition vc_evaluate (c : vector_curve) (time : S) : outcome (bool * list S) :=
  let* vs := for_each (fun k => get_position_at_time 5 k time) (vc_containers c) in
  Ok (true, vs).

(** PolynomialSplineVectorSpaceCurve.hpp 64-79; with another order the first loop
    iteration returns false, with N = 0 there is no iteration *)
Definition vc_evaluate_derivative (c : vector_curve) (old : list S) (time : S) (derivative_order : Z)
    : outcome (bool * list S) :=
  if (derivative_order =? 1)%Z then
    let* vs := for_each (fun k => get_velocity_at_time 5 k time) (vc_containers c) in Ok (true, vs)
  else if (derivative_order =? 2)%Z then
    let* vs := for_each (fun k => get_acceleration_at_time 5 k time) (vc_containers c) in Ok (true, vs)
  else match vc_containers c with [] => Ok (true, old) | _ => Ok (false, old) end.

(** PolynomialSplineVectorSpaceCurve.hpp 81-85 *)
Definition vc_extend (c : vector_curve) (times : list S) (values : list (list S)) : outcome vector_curve := Throw.

(** [vector(i)] of an Eigen vector.
    PolynomialSplineVectorSpaceCurve.hpp 94 and 111; an index that is too large is undefined. *)
Definition entry (v : list S) (i : nat) : outcome S :=
  match nth_error v i with Some x => Ok x | None => UB end.

(** The loop [for t < times.size(): scalarValues.push_back(values.at(t)(i))],
    PolynomialSplineVectorSpaceCurve.hpp 94; at throws beyond the end *)
Fixpoint component (values : list (list S)) (i : nat) (n : nat) : outcome (list S) :=
  match n, values with
  | 0%nat, _ => Ok []
  | Datatypes.S _, [] => Throw
  | Datatypes.S n', v :: values' =>
      let* x := entry v i in
      let* xs := component values' i n' in
      Ok (x :: xs)
  end.

(** The loop over the components with boundary values given per component.
    PolynomialSplineVectorSpaceCurve.hpp 107-113. *)
Fixpoint vc_fit_loop (solve : solver S) (times : list S) (values : list (list S))
    (v0 a0 vT aT : list S) (i : nat) (ks : list (container S)) : outcome (list (container S)) :=
  match ks with
  | [] => Ok []
  | k :: ks' =>
      let* xs := component values i (length times) in
      let* w0 := entry v0 i in
      let* b0 := entry a0 i in
      let* wT := entry vT i in
      let* bT := entry aT i in
      let* r := set_data6 solve 5 k times xs w0 b0 wT bT in
      let* rest := vc_fit_loop solve times values v0 a0 vT aT (Datatypes.S i) ks' in
      Ok (snd r :: rest)
  end.

(** PolynomialSplineVectorSpaceCurve.hpp 99-114 *)
Definition vc_fit_boundary (solve : solver S) (c : vector_curve) (times : list S) (values : list (list S))
    (v0 a0 vT aT : list S) : outcome vector_curve :=
  let* t0 := vec_front times in
  let* ks := vc_fit_loop solve times values v0 a0 vT aT 0 (vc_containers c) in
  Ok (mkVector ks t0).

(** PolynomialSplineVectorSpaceCurve.hpp 87-97: zero boundary values *)
Definition vc_fit (solve : solver S) (c : vector_curve) (times : list S) (values : list (list S)) : outcome vector_curve :=
  let z := repeat #0 (length (vc_containers c)) in
  vc_fit_boundary solve c times values z z z z.

(** PolynomialSplineVectorSpaceCurve.hpp 116-137: the first and last of the given
    derivatives are used.  The three [at] calls of the loop 129-133 can each throw;
    all outcomes of a short vector are the same exception. *)
Fixpoint vc_fit_derivatives_loop (solve : solver S) (times : list S) (values first second : list (list S))
    (i : nat) (ks : list (container S)) : outcome (list (container S)) :=
  match ks with
  | [] => Ok []
  | k :: ks' =>
      let* xs := component values i (length times) in
      let* vs := component first i (length times) in
      let* ws := component second i (length times) in
      let* v0 := vec_front vs in
      let* a0 := vec_front ws in
      let* vT := vec_back vs in
      let* aT := vec_back ws in
      let* r := set_data6 solve 5 k times xs v0 a0 vT aT in
      let* rest := vc_fit_derivatives_loop solve times values first second (Datatypes.S i) ks' in
      Ok (snd r :: rest)
  end.

(** PolynomialSplineVectorSpaceCurve.hpp 116-137 *)
Definition vc_fit_derivatives (solve : solver S) (c : vector_curve) (times : list S)
    (values first second : list (list S)) : outcome vector_curve :=
  let* t0 := vec_front times in
  let* ks := vc_fit_derivatives_loop solve times values first second 0 (vc_containers c) in
  Ok (mkVector ks t0).

(** PolynomialSplineVectorSpaceCurve.hpp 140-145 *)
Definition vc_fit_options (c : vector_curve) (opts : list (options S)) : outcome vector_curve := Throw.

(** PolynomialSplineVectorSpaceCurve.hpp 147-152: minTime_ stays *)
Definition vc_clear (c : vector_curve) : vector_curve := mkVector (map reset (vc_containers c)) (vc_min c).

End Curves.

Arguments scalar_curve S : clear implicits.
Arguments vector_curve S : clear implicits.
