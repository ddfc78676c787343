(** * Expressions with Jacobians for poses of the plane (Pose2_Expressions.hpp)

    Simplifications: real numbers; an expression is the function it computes together with
    the Jacobians handed to gtsam.  The product, the inverse, Logmap and Expmap are those of
    Se2.v. *)

From Coq Require Import List Reals Lra.
From Verif Require Import Base Discrete DiscreteSpec Se2.
Import ListNotations.
Local Open Scope R_scope.

(** A 3x3 matrix by rows (gtsam::Matrix3). Pose2_Expressions.hpp lines 75-91. *)
Record mat3 := Mat3 { m3_x : twist2; m3_y : twist2; m3_w : twist2 }.
(** Rows times column (Eigen), used by gtsam in the chain rule.
    Pose2_Expressions.hpp lines 124-129. *)
Definition dot3 (r w : twist2) : R := w2_x r * w2_x w + w2_y r * w2_y w + w2_w r * w2_w w.
(** Pose2_Expressions.hpp lines 124-129. *)
Definition mat3_apply (m : mat3) (w : twist2) : twist2 := Twist2 (dot3 (m3_x m) w) (dot3 (m3_y m) w) (dot3 (m3_w m) w).

(** std::numeric_limits<double>::epsilon(), Pose2_Expressions.hpp lines 53 and 65. *)
Definition dbl_epsilon : R := / 2 ^ 52.

(** Pose2_Expressions.hpp lines 51-61. *)
Definition function1 (alpha : R) : R :=
  let K := (330688 / 10000000000) / (833333 / 10000000) in
  let threshold := Rpower (dbl_epsilon / K) (1 / 4) * 10 in
  if Rlt_dec threshold (Rabs alpha) then 1 / alpha - 1 / 2 * sin alpha / (1 - cos alpha)
  else 833333 / 10000000 * alpha + 138889 / 100000000 * alpha ^ 3.

(** Pose2_Expressions.hpp lines 63-73. *)
Definition function2 (alpha : R) : R :=
  let K := 138889 / 100000000 in
  let threshold := Rpower (dbl_epsilon / K) (1 / 4) * 10 in
  if Rlt_dec threshold (Rabs alpha) then alpha * (1 / 2) * sin alpha / (1 - cos alpha)
  else 1 - 833333 / 10000000 * alpha ^ 2.

(** Pose2_Expressions.hpp lines 75-91: the value and the Jacobian written to HT.  The locals alphaInv and
    halfCotHalfAlpha are not used. *)
Definition transformation_log (p : pose2) : twist2 * mat3 :=
  let v := se2_log p in
  let alpha := w2_w v in
  let v1 := w2_x v in let v2 := w2_y v in
  (v, Mat3 (Twist2 (function2 alpha) (- (1 / 2) * alpha) (v1 * function1 alpha + 1 / 2 * v2))
           (Twist2 (1 / 2 * alpha) (function2 alpha) (v2 * function1 alpha - 1 / 2 * v1))
           (Twist2 0 0 1)).

(** Pose2_Expressions.hpp lines 106-117 for N = 3: the value, H1 and H2. *)
Definition vector_scaling (v : twist2) (alpha : R) : twist2 * mat3 * twist2 :=
  (se2_scale v alpha, Mat3 (Twist2 (1 * alpha) 0 0) (Twist2 0 (1 * alpha) 0) (Twist2 0 0 (1 * alpha)), v).

(** Used in Pose2_Expressions.hpp lines 155-180: a point (gtsam::Point2), and a 2x2 and a 2x3 matrix by rows. *)
Record point2 := Pt { pt_x : R; pt_y : R }.
(** Pose2_Expressions.hpp lines 155-167. *)
Record mat2 := Mat2 { m2_x : point2; m2_y : point2 }.
(** Pose2_Expressions.hpp lines 155-167. *)
Definition mat2_apply (m : mat2) (d : point2) : point2 :=
  Pt (pt_x (m2_x m) * pt_x d + pt_y (m2_x m) * pt_y d) (pt_x (m2_y m) * pt_x d + pt_y (m2_y m) * pt_y d).
(** Pose2_Expressions.hpp lines 175-180. *)
Record mat23 := Mat23 { m23_x : twist2; m23_y : twist2 }.
(** Pose2_Expressions.hpp lines 175-180. *)
Definition mat23_apply (m : mat23) (w : twist2) : point2 := Pt (dot3 (m23_x m) w) (dot3 (m23_y m) w).

(** Pose2_Expressions.hpp lines 155-167: the value, H1 and H2. *)
Definition points_subtraction (p1 p2 : point2) : point2 * mat2 * mat2 :=
  (Pt (pt_x p1 - pt_x p2) (pt_y p1 - pt_y p2), Mat2 (Pt 1 0) (Pt 0 1), Mat2 (Pt (-1) 0) (Pt 0 (-1))).

(** Pose2_Expressions.hpp lines 175-180: the value and H. *)
Definition pose2_as_point2 (p : pose2) : point2 * mat23 :=
  (Pt (p2_x p) (p2_y p), Mat23 (Twist2 1 0 0) (Twist2 0 1 0)).

(** ** slerp, lines 124-129

    gtsam composes the Jacobians of the parts by the chain rule.  Those of inverse, product
    and Expmap are gtsam's: minus the adjoint map, the adjoint map of the inverse of the
    second factor and the identity, and the right Jacobian of the exponential (gtsam
    takes the formulas at angle 0 below a small threshold, here at the angle 0 only). *)
(** gtsam::Pose2::AdjointMap, used by inverse and compose (lines 32-49). *)
Definition adjoint (p : pose2) : mat3 :=
  let c := rc (p2_rot p) in let s := rs (p2_rot p) in
  Mat3 (Twist2 c (- s) (p2_y p)) (Twist2 s c (- p2_x p)) (Twist2 0 0 1).

(** gtsam::Pose2::Expmap with Hp, Pose2_Expressions.hpp lines 97-100. *)
Definition exp_jacobian (v : twist2) : mat3 :=
  let a := w2_w v in
  if Req_EM_T a 0 then Mat3 (Twist2 1 0 (- (1 / 2) * w2_y v)) (Twist2 0 1 (1 / 2 * w2_x v)) (Twist2 0 0 1)
  else
    let s := sin a / a in let c := (cos a - 1) / a in
    let v1 := w2_x v / a in let v2 := w2_y v / a in
    Mat3 (Twist2 s (- c) (v1 + v2 * c - v1 * s)) (Twist2 c s (- (v1 * c) + v2 - v2 * s)) (Twist2 0 0 1).

(** Sum and opposite of velocities. Not in the source: used by the chain rule in gtsam. *)
Definition twist_add (u w : twist2) : twist2 := Twist2 (w2_x u + w2_x w) (w2_y u + w2_y w) (w2_w u + w2_w w).
(** Not in the source: used by the chain rule in gtsam. *)
Definition twist_opp (u : twist2) : twist2 := Twist2 (- w2_x u) (- w2_y u) (- w2_w u).

(** Pose2_Expressions.hpp lines 124-129: the value, and the effect of small motions of the two poses on it. *)
Definition slerp_expression (t0 t1 : pose2) (alpha : R) : pose2 * (twist2 -> twist2) * (twist2 -> twist2) :=
  let i0 := pose2_inv t0 in
  let b := pose2_mul i0 t1 in
  let '(v, jl) := transformation_log b in
  let '(u, hs, _) := vector_scaling v alpha in
  let e := se2_exp u in
  let through w := mat3_apply (exp_jacobian u) (mat3_apply hs (mat3_apply jl w)) in
  (pose2_mul t0 e,
   fun w => twist_add (mat3_apply (adjoint (pose2_inv e)) w)
              (through (mat3_apply (adjoint (pose2_inv t1)) (twist_opp (mat3_apply (adjoint t0) w)))),
   through).
