(** * Model of the derivative functions of the piecewise SE3 curves

    Sources: /repo/curves/src/DiscreteSE3Curve.cpp, SemiDiscreteSE3Curve.cpp,
    SlerpSE3Curve.cpp, SlerpSE2Curve.cpp and SE3CompositionCurve-inl.hpp. *)

From Coq Require Import List Bool Arith NArith ZArith.
From Verif Require Import Base TimeOrder KeyGen Manager Num Sampling Discrete Composition HermiteE3.
Import ListNotations.

Section Velocity.
Context {S : Type} `{Num S} `{TimeOps S} {V W : Type}.
Local Notation curve := (@slerp_curve S V).

(** [local x y] is gtsam::traits<Coefficient>::Local(x, y), [divide] the division of a
    vector by a number, [zero] the vector of zeros. *)
Variables (local : V -> V -> W) (divide : W -> S -> W) (zero : W).

(** SemiDiscreteSE3Curve.cpp lines 92-117 and, with the same text, DiscreteSE3Curve.cpp
    lines 94-118: evaluateDerivative.  CHECK_GE and CHECK_LE abort. *)
Definition pw_derivative (c : curve) (t : S) (order : N) : outcome W :=
  let m := s_mgr c in
  if negb (nleb (min_time m) t) then Abort
  else if negb (nleb t (max_time m)) then Abort
  else match get_coefficients_at m t with
  | None => Abort
  | Some (a, b) =>
      if N.eqb order 1 then Ok (divide (local (n_coef b) (n_coef a)) (n_time b - n_time a)%num)
      else Ok zero
  end.

(** SlerpSE3Curve.cpp lines 94-120 and SlerpSE2Curve.cpp lines 97-101: evaluateDerivative
    is CHECK(false). *)
Definition slerp_derivative (c : curve) (t : S) (order : N) : outcome W := Abort.

End Velocity.

Section Composed.
Context {S : Type} `{Num S} {V : Type}.

(** SE3CompositionCurve-inl.hpp lines 290-349: evaluateAngularVelocityA and B,
    evaluateLinearVelocityA and B, and the angular and linear derivatives of any order:
    all of them return Eigen::Vector3d::Zero(). *)
Definition comp_velocity (c : comp S V) (t : S) : outcome (vec3 S) := Ok vzero.

End Composed.
