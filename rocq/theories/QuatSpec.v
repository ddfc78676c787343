(** * Unit quaternions, rotations, exponential: the mathematics *)

From Coq Require Import List Reals.
From Verif Require Import Num HermiteE3 HermiteSpec Quat.
Local Open Scope R_scope.

(** Norm one. *)
Definition unit_quat (q : quat R) : Prop := qw q * qw q + qx q * qx q + qy q * qy q + qz q * qz q = 1.

(** Two unit quaternions stand for the same rotation iff they are equal up to sign. *)
Definition qneg (q : quat R) : quat R := Quat (- qw q) (- qx q) (- qy q) (- qz q).
Definition same_rotation (a b : quat R) : Prop := a = b \/ a = qneg b.

(** The rotation matrix of a quaternion applied to a vector. *)
Definition rotation_matrix (q : quat R) (v : vec3 R) : vec3 R :=
  let w := qw q in let x := qx q in let y := qy q in let z := qz q in
  V3 ((w * w + x * x - y * y - z * z) * vx v + 2 * (x * y - w * z) * vy v + 2 * (x * z + w * y) * vz v)
     (2 * (x * y + w * z) * vx v + (w * w - x * x + y * y - z * z) * vy v + 2 * (y * z - w * x) * vz v)
     (2 * (x * z - w * y) * vx v + 2 * (y * z + w * x) * vy v + (w * w - x * x - y * y + z * z) * vz v).

(** Length and cross product. *)
Definition vnorm (v : vec3 R) : R := sqrt (vx v * vx v + vy v * vy v + vz v * vz v).
Definition cross (a b : vec3 R) : vec3 R :=
  V3 (vy a * vz b - vz a * vy b) (vz a * vx b - vx a * vz b) (vx a * vy b - vy a * vx b).

(** The exponential map with half angles. *)
Definition qexp (v : vec3 R) : quat R :=
  let n := vnorm v in
  let s := if Req_EM_T n 0 then / 2 else sin (n / 2) / n in
  Quat (cos (n / 2)) (s * vx v) (s * vy v) (s * vz v).

(** kindr's functions: the exponential map, and a logarithm that is a right inverse of it
    up to the sign of the quaternion. *)
Definition exact_kindr (K : kindr R) : Prop :=
  (forall v, k_exp K v = qexp v) /\
  (forall q, unit_quat q -> same_rotation (qexp (k_log K q)) q).

(** In addition the logarithm of a rotated rotation is the rotated logarithm. *)
Definition equivariant_log (K : kindr R) : Prop :=
  forall p q, unit_quat p -> unit_quat q ->
    k_log K (qmul (qmul p q) (qconj p)) = rotation_matrix p (k_log K q).

(** In addition the logarithm returns rotation vectors shorter than pi. *)
Definition principal_log (K : kindr R) : Prop :=
  forall v, vnorm v < PI -> k_log K (qexp v) = v.

(** A quaternion valued function and its derivative, component by component. *)
Definition quat_derivative (f : R -> quat R) (t : R) (d : quat R) : Prop :=
  derivable_pt_lim (fun s => qw (f s)) t (qw d) /\ derivable_pt_lim (fun s => qx (f s)) t (qx d) /\
  derivable_pt_lim (fun s => qy (f s)) t (qy d) /\ derivable_pt_lim (fun s => qz (f s)) t (qz d).

(** Continuity on a closed interval. *)
Definition continuous_on (f : R -> R) (a b : R) : Prop :=
  forall t, a <= t <= b -> forall eps, 0 < eps -> exists d, 0 < d /\
    forall s, a <= s <= b -> Rabs (s - t) < d -> Rabs (f s - f t) < eps.
