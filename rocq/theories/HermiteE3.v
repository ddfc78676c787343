(** * Model of CubicHermiteE3Curve

    Source: /repo/curves/src/CubicHermiteE3Curve.cpp (line numbers refer to it) and
    /repo/curves/include/curves/CubicHermiteE3Curve.hpp.

    Simplifications.
    - [Eigen::Vector3d] is a record of three scalars with componentwise operations
      (Eigen's fixed size vectors evaluate component by component).
    - [bool f(Out& value, ...)] returns [Some value] for [true] and [None] for
      [false]; in the branches returning false the output is not assigned.
    - Messages on std::cerr are dropped. *)

From Coq Require Import List Bool Arith NArith ZArith QArith.
From Verif Require Import Base TimeOrder KeyGen Manager Num.
Import ListNotations.

Section Vec.
Context {S : Type} `{Num S}.
Local Open Scope num_scope.

(** Eigen::Vector3d. CubicHermiteE3Curve.hpp lines 17-19. *)
Record vec3 := V3 { vx : S; vy : S; vz : S }.

(** [Eigen::Vector3d::Zero()], [a + b], [a - b], [a * s] (vector times scalar).
    CubicHermiteE3Curve.cpp line 127. *)
Definition vzero : vec3 := V3 #0 #0 #0.
(** CubicHermiteE3Curve.cpp lines 224-227. *)
Definition vadd (a b : vec3) : vec3 := V3 (vx a + vx b) (vy a + vy b) (vz a + vz b).
(** CubicHermiteE3Curve.cpp line 111. *)
Definition vsub (a b : vec3) : vec3 := V3 (vx a - vx b) (vy a - vy b) (vz a - vz b).
(** CubicHermiteE3Curve.cpp lines 111 and 224-227. *)
Definition vmul (a : vec3) (s : S) : vec3 := V3 (vx a * s) (vy a * s) (vz a * s).

(** HermiteE3Knot, CubicHermiteE3Curve.hpp lines 16-46. *)
Record knot := Knot { k_pos : vec3; k_vel : vec3 }.
End Vec.
Arguments vec3 : clear implicits.
Arguments knot : clear implicits.

(** The order on rational times, for examples. *)
#[global] Instance Q_TimeOps : TimeOps Q := { tlt := nltb; tnum _ := true; tzero := 0%Q }.

(** The [i]-th element of a std::vector by operator[]; [size_t] indices that are too
    large (also those from a wrap-around below zero) are undefined behaviour.
    CubicHermiteE3Curve.cpp lines 139 and 172. *)
Definition vec_at {A} (l : list A) (i : N) : outcome A :=
  match nth_error l (N.to_nat i) with Some a => Ok a | None => UB end.

(** [size_t] subtraction. CubicHermiteE3Curve.cpp lines 139, 166 and 172. *)
Definition size_sub (a b : N) : N := ((a + key_mod - b) mod key_mod)%N.

Section Curve.
Context {S : Type} `{Num S} `{TimeOps S}.
Local Open Scope num_scope.
Local Notation vec3 := (vec3 S).
Local Notation knot := (knot S).

(** CubicHermiteE3Curve.hpp line 135: the only member is the manager. *)
Definition e3_curve := mgr S knot.

(** CubicHermiteE3Curve.cpp lines 12-14 *)
Definition e3_new : e3_curve := mgr_empty.

(** CubicHermiteE3Curve.cpp lines 81-88, 90-94, 97-99 *)
Definition e3_min_time (c : e3_curve) : S := min_time c.
(** CubicHermiteE3Curve.cpp lines 86-88. *)
Definition e3_max_time (c : e3_curve) : S := max_time c.
(** CubicHermiteE3Curve.cpp lines 90-94. *)
Definition e3_is_empty (c : e3_curve) : bool := match get_times c with [] => true | _ => false end.
(** CubicHermiteE3Curve.cpp lines 97-99. *)
Definition e3_size (c : e3_curve) : nat := size c.

(** CubicHermiteE3Curve.cpp lines 102-114 *)
Definition e3_slope (tA tB : S) (pA pB : vec3) : vec3 :=
  let inverse_dt := #1 / (tB - tA) in
  vmul (vsub pB pA) inverse_dt.

(** CubicHermiteE3Curve.cpp lines 117-121: an empty body *)
Definition e3_extend (c : e3_curve) (ts : list S) (vs : list vec3) : e3_curve := c.

(** CubicHermiteE3Curve.cpp lines 156-173: the derivative chosen for the [i]-th key.  Both branches of the
    inner test on [times.size() > 1] assign the initial derivative. *)
Definition e3_derivative_at (ts : list S) (vs : list vec3) (d0 d1 : vec3) (i : N) : outcome vec3 :=
  if N.eqb i 0 then Ok d0
  else if N.eqb i (size_sub (N.of_nat (length ts)) 1) then Ok d1
  else
    let* tA := vec_at ts (size_sub i 1) in
    let* tB := vec_at ts (i + 1) in
    let* pA := vec_at vs (size_sub i 1) in
    let* pB := vec_at vs (i + 1) in
    Ok (e3_slope tA tB pA pB).

(** The loop of lines 154-176. *)
Definition e3_coefficients (ts : list S) (vs : list vec3) (d0 d1 : vec3) : outcome (list knot) :=
  foldM (fun acc i =>
    let* d := e3_derivative_at ts vs d0 d1 i in
    let* v := vec_at vs i in
    Ok (acc ++ [Knot v d])) (map N.of_nat (seq 0 (length ts))) [].

(** CubicHermiteE3Curve.cpp lines 143-179.  [debug] says whether [assert] is compiled in (no NDEBUG). *)
Definition e3_fit_with_derivatives (debug : bool) (g : N) (c : e3_curve) (ts : list S)
    (vs : list vec3) (d0 d1 : vec3) (out : list N) : outcome (N * e3_curve * list N) :=
  if debug && negb (Nat.eqb (length ts) (length vs)) then Abort
  else
    let* cs := e3_coefficients ts vs d0 d1 in
    insert_coefficients g c ts cs out.

(** CubicHermiteE3Curve.cpp lines 124-128 *)
Definition e3_fit (debug : bool) (g : N) (c : e3_curve) (ts : list S) (vs : list vec3)
    (out : list N) : outcome (N * e3_curve * list N) :=
  e3_fit_with_derivatives debug g c ts vs vzero vzero out.

(** CubicHermiteE3Curve.cpp lines 130-141 *)
Definition e3_fit_periodic (debug : bool) (g : N) (c : e3_curve) (ts : list S) (vs : list vec3)
    (out : list N) : outcome (N * e3_curve * list N) :=
  let n := N.of_nat (length ts) in
  let* tA := vec_at ts (size_sub n 2) in
  let* tB := vec_at ts 1 in
  let* pA := vec_at vs (size_sub n 2) in
  let* pB := vec_at vs 1 in
  let d := e3_slope tA tB pA pB in
  e3_fit_with_derivatives debug g c ts vs d d out.

(** [manager_.coefficientBegin()->second.coefficient]. CubicHermiteE3Curve.cpp lines 187 and 240. *)
Definition first_coefficient (c : e3_curve) : outcome knot :=
  match nodes c with [] => UB | n :: _ => Ok (n_coef n) end.

(** CubicHermiteE3Curve.cpp lines 198-227: one segment. *)
Definition e3_segment_value (ta tb : S) (ka kb : knot) (t : S) : vec3 :=
  let dt := tb - ta in
  let alpha := (t - ta) / (tb - ta) in
  let alpha2 := alpha * alpha in
  let alpha3 := alpha2 * alpha in
  let beta0 := #2 * alpha3 - #3 * alpha2 + #1 in
  let beta1 := (- #2) * alpha3 + #3 * alpha2 in
  let beta2 := alpha3 - #2 * alpha2 + alpha in
  let beta3 := alpha3 - alpha2 in
  vadd (vadd (vadd (vmul (k_pos ka) beta0) (vmul (k_pos kb) beta1))
             (vmul (k_vel ka) (beta2 * dt)))
       (vmul (k_vel kb) (beta3 * dt)).

(** CubicHermiteE3Curve.cpp lines 184-231 *)
Definition e3_evaluate (c : e3_curve) (t : S) : outcome (option vec3) :=
  if neqb (max_time c) t && neqb (min_time c) t then
    let* k := first_coefficient c in Ok (Some (k_pos k))
  else
    match get_coefficients_at c t with
    | None => Ok None
    | Some (a, b) =>
        Ok (Some (e3_segment_value (n_time a) (n_time b) (n_coef a) (n_coef b) t))
    end.

(** CubicHermiteE3Curve.cpp lines 251-281: one segment. *)
Definition e3_segment_velocity (ta tb : S) (ka kb : knot) (t : S) : vec3 :=
  let dt := tb - ta in
  let one_over_dt := #1 / dt in
  let alpha := (t - ta) / dt in
  let alpha2 := alpha * alpha in
  let gamma0 := #6 * (alpha2 - alpha) in
  let gamma1 := #3 * alpha2 - #4 * alpha + #1 in
  let gamma2 := #6 * (alpha - alpha2) in
  let gamma3 := #3 * alpha2 - #2 * alpha in
  vadd (vadd (vadd (vmul (k_pos ka) (gamma0 * one_over_dt)) (vmul (k_vel ka) gamma1))
             (vmul (k_pos kb) (gamma2 * one_over_dt)))
       (vmul (k_vel kb) gamma3).

(** CubicHermiteE3Curve.cpp lines 302-326: one segment. *)
Definition e3_segment_acceleration (ta tb : S) (ka kb : knot) (t : S) : vec3 :=
  let dt := tb - ta in
  let one_over_dt := #1 / dt in
  let alpha := (t - ta) / dt in
  let d_alpha := one_over_dt in
  let d_gamma0 := #6 * (#2 * alpha - #1) * d_alpha in
  let d_gamma1 := (#6 * alpha - #4) * d_alpha in
  let d_gamma2 := #6 * (#1 - #2 * alpha) * d_alpha in
  let d_gamma3 := (#6 * alpha - #2) * d_alpha in
  vadd (vadd (vadd (vmul (vmul (k_pos ka) d_gamma0) one_over_dt) (vmul (k_vel ka) d_gamma1))
             (vmul (vmul (k_pos kb) d_gamma2) one_over_dt))
       (vmul (k_vel kb) d_gamma3).

(** CubicHermiteE3Curve.cpp lines 294-329 *)
Definition e3_evaluate_acceleration (c : e3_curve) (t : S) : outcome (option vec3) :=
  match get_coefficients_at c t with
  | None => Ok None
  | Some (a, b) =>
      Ok (Some (e3_segment_acceleration (n_time a) (n_time b) (n_coef a) (n_coef b) t))
  end.

(** CubicHermiteE3Curve.cpp lines 234-292 *)
Definition e3_evaluate_derivative (c : e3_curve) (t : S) (order : N) : outcome (option vec3) :=
  if N.eqb order 1 then
    if neqb (max_time c) t && neqb (min_time c) t then
      let* k := first_coefficient c in Ok (Some (k_vel k))
    else
      match get_coefficients_at c t with
      | None => Ok None
      | Some (a, b) =>
          Ok (Some (e3_segment_velocity (n_time a) (n_time b) (n_coef a) (n_coef b) t))
      end
  else if N.eqb order 2 then e3_evaluate_acceleration c t
  else Ok None.

(** CubicHermiteE3Curve.cpp lines 331-333 *)
Definition e3_clear (c : e3_curve) : e3_curve := clear c.

End Curve.
Arguments e3_curve S : clear implicits.
