(** * Model of CubicHermiteSE3Curve

    Source: /repo/curves/src/CubicHermiteSE3Curve.cpp (line numbers refer to it) and
    /repo/curves/include/curves/CubicHermiteSE3Curve.hpp.

    The members are the manager and the sampling policy; the type and the fit are those
    of [Sampling.v] ([hermite_curve], [hermite_fit_with_derivatives]), here with poses and
    twists.  The translational formulas (lines 224-238, 297-316, 396-411) are word for word
    those of CubicHermiteE3Curve.cpp, so the functions of [HermiteE3.v] are used.

    Simplifications.
    - kindr's types as in [Quat.v]; [TwistGlobalD] is a pair of vectors.
    - The assertions on the norm of a quaternion that kindr makes in debug builds are not modelled.
    - [bool f(Out& value, ...)] returns [Some value] for [true] and [None] for [false].
    - Messages on std::cerr are dropped. *)

From Coq Require Import List Bool Arith NArith ZArith.
From Verif Require Import Base TimeOrder KeyGen Manager Num Sampling HermiteE3 Quat.
Import ListNotations.

Section SE3.
Context {S : Type} `{Num S} `{TimeOps S}.
Local Open Scope num_scope.
Local Notation vec3 := (vec3 S).
Local Notation quat := (quat S).
Variable K : kindr S.

(** kindr::HomTransformQuatD (SE3) and kindr::TwistGlobalD. SE3Config.hpp lines 19-20. *)
Record pose := Pose { p_pos : vec3; p_rot : quat }.
(** SE3Config.hpp line 20. *)
Record twist := Twist { t_lin : vec3; t_ang : vec3 }.

(** The coefficient: kindr::HermiteTransformation, CubicHermiteSE3Curve.hpp lines 21-50. *)
Definition se3_curve := hermite_curve S pose twist.

(** CubicHermiteSE3Curve.cpp lines 16-18 *)
Definition se3_new : se3_curve := hermite_new.

(** CubicHermiteSE3Curve.cpp lines 85-101 *)
Definition se3_min_time (c : se3_curve) : S := min_time (h_mgr c).
(** CubicHermiteSE3Curve.cpp lines 85-87. *)
Definition se3_max_time (c : se3_curve) : S := max_time (h_mgr c).
(** CubicHermiteSE3Curve.cpp lines 93-97. *)
Definition se3_is_empty (c : se3_curve) : bool := match get_times (h_mgr c) with [] => true | _ => false end.
(** CubicHermiteSE3Curve.cpp lines 99-101. *)
Definition se3_size (c : se3_curve) : nat := size (h_mgr c).

(** The default constructed twist: kindr's TwistGlobalD() is zero.
    CubicHermiteSE3Curve.cpp line 106. *)
Definition zero_twist : twist := Twist vzero vzero.

(** CubicHermiteSE3Curve.cpp lines 160-172 *)
Definition se3_slope (tA tB : S) (a b : pose) : twist :=
  let inverse_dt := #1 / (tB - tA) in
  Twist (vmul (vsub (p_pos b) (p_pos a)) inverse_dt)
        (vmul (box_minus K (p_rot b) (p_rot a)) inverse_dt).

(** CubicHermiteSE3Curve.cpp lines 109-146 *)
Definition se3_fit_with_derivatives (g : N) (c : se3_curve) (ts : list S) (vs : list pose)
    (d0 d1 : twist) (out : list N) : outcome (N * se3_curve * list N) :=
  hermite_fit_with_derivatives se3_slope g c ts vs d0 d1 out.

(** CubicHermiteSE3Curve.cpp lines 103-107 *)
Definition se3_fit (g : N) (c : se3_curve) (ts : list S) (vs : list pose) (out : list N)
  : outcome (N * se3_curve * list N) :=
  se3_fit_with_derivatives g c ts vs zero_twist zero_twist out.

(** CubicHermiteSE3Curve.cpp lines 148-158 *)
Definition se3_fit_periodic (g : N) (c : se3_curve) (ts : list S) (vs : list pose)
    (out : list N) : outcome (N * se3_curve * list N) :=
  let n := N.of_nat (length ts) in
  let* tA := vec_at ts (size_sub n 2) in
  let* tB := vec_at ts 1 in
  let* a := vec_at vs (size_sub n 2) in
  let* b := vec_at vs 1 in
  let d := se3_slope tA tB a b in
  se3_fit_with_derivatives g c ts vs d d out.

(** CubicHermiteSE3Curve.cpp lines 174-192 *)
Definition se3_extend (c : se3_curve) (ts : list S) (vs : list pose) : outcome se3_curve := Throw.

(** The translational half of a coefficient. CubicHermiteSE3Curve.cpp lines 235-238. *)
Definition e3_knot (k : pose * twist) : knot S := Knot (p_pos (fst k)) (t_lin (snd k)).

(** CubicHermiteSE3Curve.cpp lines 243-253: [w1], [w2], [w3]; [third] is [dt / 3.0] in evaluate (line 243) and
    [one_third * dt] with [one_third = 1.0 / 3.0] in evaluateDerivative (lines 333-344). *)
Definition se3_w1 (third : S) (a : pose * twist) : vec3 :=
  qunrotate (p_rot (fst a)) (vscale third (t_ang (snd a))).
(** CubicHermiteSE3Curve.cpp lines 250-253. *)
Definition se3_w2 (third : S) (a b : pose * twist) : vec3 :=
  k_log K (qmul (qmul (qmul (k_exp K (vneg (se3_w1 third a))) (qconj (p_rot (fst a)))) (p_rot (fst b)))
                (k_exp K (vneg (se3_w1 third b)))).

(** CubicHermiteSE3Curve.cpp lines 217-263: the rotational part on one segment. *)
Definition se3_segment_rotation (ta tb : S) (a b : pose * twist) (t : S) : quat :=
  let dt := tb - ta in
  let alpha := (t - ta) / (tb - ta) in
  let alpha2 := alpha * alpha in
  let alpha3 := alpha2 * alpha in
  let third := dt / #3 in
  let w1 := se3_w1 third a in
  let w3 := se3_w1 third b in
  let w2 := se3_w2 third a b in
  let dBeta1 := alpha3 - #3 * alpha2 + #3 * alpha in
  let dBeta2 := (- #2) * alpha3 + #3 * alpha2 in
  let dBeta3 := alpha3 in
  qmul (qmul (qmul (p_rot (fst a)) (k_exp K (vscale dBeta1 w1))) (k_exp K (vscale dBeta2 w2)))
       (k_exp K (vscale dBeta3 w3)).

(** [manager_.coefficientBegin()->second.coefficient]. CubicHermiteSE3Curve.cpp lines 198 and 277. *)
Definition se3_first (c : se3_curve) : outcome (pose * twist) :=
  match nodes (h_mgr c) with [] => UB | n :: _ => Ok (n_coef n) end.

(** CubicHermiteSE3Curve.cpp lines 195-269 *)
Definition se3_evaluate (c : se3_curve) (t : S) : outcome (option pose) :=
  let m := h_mgr c in
  if neqb (max_time m) t && neqb (min_time m) t then
    let* k := se3_first c in Ok (Some (fst k))
  else
    match get_coefficients_at m t with
    | None => Ok None
    | Some (a, b) =>
        Ok (Some (Pose (e3_segment_value (n_time a) (n_time b) (e3_knot (n_coef a)) (e3_knot (n_coef b)) t)
                       (se3_segment_rotation (n_time a) (n_time b) (n_coef a) (n_coef b) t)))
    end.

(** CubicHermiteSE3Curve.cpp lines 296-302, 319-358: [qDiff]. *)
Definition se3_segment_qdiff (ta tb : S) (a b : pose * twist) (t : S) : quat :=
  let dt := tb - ta in
  let one_over_dt := #1 / dt in
  let alpha := (t - ta) / dt in
  let alpha2 := alpha * alpha in
  let alpha3 := alpha2 * alpha in
  let one_minus_alpha := #1 - alpha in
  let one_minus_alpha_2 := one_minus_alpha * one_minus_alpha in
  let one_minus_alpha_3 := one_minus_alpha * one_minus_alpha_2 in
  let beta1 := #1 - one_minus_alpha_3 in
  let dbeta1 := #3 * one_minus_alpha_2 in
  let beta2 := #3 * alpha2 - #2 * alpha3 in
  let dbeta2 := #6 * alpha * one_minus_alpha in
  let beta3 := alpha3 in
  let dbeta3 := #3 * alpha2 in
  let third := (#1 / #3) * dt in
  let w1 := se3_w1 third a in
  let w3 := se3_w1 third b in
  let w2 := se3_w2 third a b in
  let qA := p_rot (fst a) in
  let e1 := k_exp K (vscale beta1 w1) in
  let e2 := k_exp K (vscale beta2 w2) in
  let e3 := k_exp K (vscale beta3 w3) in
  qscale (qadd (qadd (qmul (qmul (qmul (qmul qA e1) (qpure (vscale dbeta1 w1))) e2) e3)
                     (qmul (qmul (qmul (qmul qA e1) e2) (qpure (vscale dbeta2 w2))) e3))
               (qmul (qmul (qmul (qmul qA e1) e2) e3) (qpure (vscale dbeta3 w3)))) one_over_dt.

(** CubicHermiteSE3Curve.cpp lines 271-376 *)
Definition se3_evaluate_derivative (c : se3_curve) (t : S) (order : N) : outcome (option twist) :=
  let m := h_mgr c in
  if N.eqb order 1 then
    if neqb (max_time m) t && neqb (min_time m) t then
      let* k := se3_first c in Ok (Some (snd k))
    else
      match get_coefficients_at m t with
      | None => Ok None
      | Some (a, b) =>
          let v := e3_segment_velocity (n_time a) (n_time b) (e3_knot (n_coef a)) (e3_knot (n_coef b)) t in
          let qdiff := se3_segment_qdiff (n_time a) (n_time b) (n_coef a) (n_coef b) t in
          let* q := se3_evaluate c t in
          match q with
          | None => Ok None
          | Some p =>
              Ok (Some (Twist v (qrotate (p_rot p) (qimag (qmul (qconj (p_rot p)) qdiff)))))
          end
      end
  else Ok None.

(** CubicHermiteSE3Curve.cpp lines 378-415 *)
Definition se3_evaluate_acceleration (c : se3_curve) (t : S) : outcome (option vec3) :=
  match get_coefficients_at (h_mgr c) t with
  | None => Ok None
  | Some (a, b) =>
      Ok (Some (e3_segment_acceleration (n_time a) (n_time b) (e3_knot (n_coef a)) (e3_knot (n_coef b)) t))
  end.

(** CubicHermiteSE3Curve.cpp lines 563-565 *)
Definition se3_clear (c : se3_curve) : se3_curve := Hermite (clear (h_mgr c)) (h_pol c).

(** CubicHermiteSE3Curve.cpp lines 567-569: an empty body. *)
Definition se3_transform_curve (c : se3_curve) (T : pose) : se3_curve := c.

End SE3.
Arguments pose S : clear implicits.
Arguments twist S : clear implicits.
Arguments se3_curve S : clear implicits.
