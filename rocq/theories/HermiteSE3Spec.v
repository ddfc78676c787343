(** * What is expected of SE3 curves *)

From Coq Require Import List Reals.
From Verif Require Import Base TimeOrder TimeInst Manager ManagerSpec Num Sampling HermiteE3 HermiteSpec Quat QuatSpec HermiteSE3.
Local Open Scope R_scope.

(** Observers. *)
Definition rot_at (K : kindr R) (c : se3_curve R) (t : R) : quat R :=
  match se3_evaluate K c t with Ok (Some p) => p_rot p | _ => Quat 0 0 0 0 end.
Definition ang_at (K : kindr R) (c : se3_curve R) (t : R) : vec3 R :=
  match se3_evaluate_derivative K c t 1 with Ok (Some w) => t_ang w | _ => V3 0 0 0 end.

(** All stored orientations have norm one. *)
Definition unit_knots (c : se3_curve R) : Prop :=
  forall t k, In (t, k) (contents (h_mgr c)) -> unit_quat (p_rot (fst k)).

(** Rotation by [p], then translation by [tr]. *)
Definition move_pose (p : quat R) (tr : vec3 R) (x : pose R) : pose R :=
  Pose (vadd (rotation_matrix p (p_pos x)) tr) (qmul p (p_rot x)).
Definition move_twist (p : quat R) (w : twist R) : twist R :=
  Twist (rotation_matrix p (t_lin w)) (rotation_matrix p (t_ang w)).
Definition move_knot (p : quat R) (tr : vec3 R) (k : pose R * twist R) : pose R * twist R :=
  (move_pose p tr (fst k), move_twist p (snd k)).

(** Orientation at time [t] when turning with angular velocity [w] (in the fixed frame)
    from orientation [q0] at time zero. *)
Definition turning (q0 : quat R) (w : vec3 R) (t : R) : quat R := qmul (qexp (vscale t w)) q0.

(** Uniform motion: constant velocity [v] and angular velocity [w]. *)
Definition uniform_motion (x : vec3 R) (q0 : quat R) (v w : vec3 R) (t : R) : pose R :=
  Pose (vadd x (vscale t v)) (turning q0 w t).
