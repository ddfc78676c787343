(** * Unit quaternions as used from kindr

    kindr is an external library that is not part of /repo; the operations used by
    /repo/curves/src/CubicHermiteSE3Curve.cpp are modelled by their mathematical
    definition:
    - [RotationQuaternion::operator*]: the Hamilton product, without normalisation;
    - [inverted]: the conjugate;
    - [rotate], [inverseRotate]: [q v q^-1] and [q^-1 v q] for unit [q];
    - [exponentialMap v]: [(cos |v|/2, sin (|v|/2)/|v| v)];
    - [logarithmicMap]: an oracle, see [exact_log] in [QuatSpec.v];
    - [boxMinus]: [a.boxMinus(b)] is [log (a b^-1)]. *)

From Coq Require Import List Bool ZArith.
From Verif Require Import Num HermiteE3.

Section Quat.
Context {S : Type} `{Num S}.
Local Open Scope num_scope.

(** kindr::RotationQuaternionPD. CubicHermiteSE3Curve.hpp line 277. *)
Record quat := Quat { qw : S; qx : S; qy : S; qz : S }.

(** RotationQuaternion(1,0,0,0), the default of kindr. CubicHermiteSE3Curve.cpp line 250. *)
Definition qone : quat := Quat #1 #0 #0 #0.

(** operator*. CubicHermiteSE3Curve.cpp lines 252 and 263. *)
Definition qmul (a b : quat) : quat :=
  Quat (qw a * qw b - qx a * qx b - qy a * qy b - qz a * qz b)
       (qw a * qx b + qx a * qw b + qy a * qz b - qz a * qy b)
       (qw a * qy b - qx a * qz b + qy a * qw b + qz a * qx b)
       (qw a * qz b + qx a * qy b - qy a * qx b + qz a * qw b).

(** inverted(). CubicHermiteSE3Curve.cpp lines 252 and 364. *)
Definition qconj (a : quat) : quat := Quat (qw a) (- qx a) (- qy a) (- qz a).

(** [.vector()] sums and [* s] on the four components (Eigen::Vector4d).
    CubicHermiteSE3Curve.cpp lines 354-356. *)
Definition qadd (a b : quat) : quat := Quat (qw a + qw b) (qx a + qx b) (qy a + qy b) (qz a + qz b).
(** CubicHermiteSE3Curve.cpp line 356. *)
Definition qscale (a : quat) (s : S) : quat := Quat (qw a * s) (qx a * s) (qy a * s) (qz a * s).

(** RotationQuaternion(0.0, v) and imaginary(). CubicHermiteSE3Curve.cpp lines 350-352. *)
Definition qpure (v : vec3 S) : quat := Quat #0 (vx v) (vy v) (vz v).
(** CubicHermiteSE3Curve.cpp line 364. *)
Definition qimag (a : quat) : vec3 S := V3 (qx a) (qy a) (qz a).

(** rotate and inverseRotate. CubicHermiteSE3Curve.cpp line 364. *)
Definition qrotate (q : quat) (v : vec3 S) : vec3 S := qimag (qmul (qmul q (qpure v)) (qconj q)).
(** CubicHermiteSE3Curve.cpp lines 248-249. *)
Definition qunrotate (q : quat) (v : vec3 S) : vec3 S := qimag (qmul (qmul (qconj q) (qpure v)) q).

(** exponentialMap and logarithmicMap. CubicHermiteSE3Curve.cpp lines 250-253. *)
Record kindr := Kindr { k_exp : vec3 S -> quat; k_log : quat -> vec3 S }.

(** boxMinus. CubicHermiteSE3Curve.cpp line 168. *)
Definition box_minus (K : kindr) (a b : quat) : vec3 S := k_log K (qmul a (qconj b)).

(** [-v]. CubicHermiteSE3Curve.cpp lines 250-251. *)
Definition vneg (v : vec3 S) : vec3 S := V3 (- vx v) (- vy v) (- vz v).
(** [s * v]. CubicHermiteSE3Curve.cpp lines 244-245 and 259-261. *)
Definition vscale (s : S) (v : vec3 S) : vec3 S := V3 (s * vx v) (s * vy v) (s * vz v).
End Quat.
Arguments quat : clear implicits.
Arguments kindr : clear implicits.
