(** * Model of the ROS message interfaces

    Sources: /repo/curves_ros/src/RosJointTrajectoryInterface.cpp,
    RosMultiDOFJointTrajectoryInterface.cpp and
    RosMultiDOFJointTrajectoryTranslationInterface.cpp.

    The three classes differ in the curve they derive from and in what they read
    from a point, so the common text of fromMessage is one function here.

    Simplifications. A message has the fields the code reads: joint_names, and of
    each point time_from_start and the array of positions (JointTrajectory) or
    transforms (MultiDOFJointTrajectory). Velocities, accelerations and efforts
    are not read by the code. kindr_ros::convertFromRosGeometryMsg is a
    parameter. *)

From Coq Require Import String.
From Coq Require Import List Bool Arith NArith ZArith.
From Verif Require Import Base TimeOrder KeyGen Manager Num Sampling Spline Container SplineCurves
  HermiteE3 Quat HermiteSE3.
Import ListNotations.

Section Message.
Context {S : Type} `{Num S}.
Local Open Scope num_scope.

(** A trajectory point with array entries of type [A]; time_from_start is a
    ros::Duration of seconds and nanoseconds. RosJointTrajectoryInterface.cpp lines 40-42. *)
Record point (A : Type) := Point { pt_sec : Z; pt_nsec : Z; pt_data : list A }.
(** RosJointTrajectoryInterface.cpp lines 30 and 40. *)
Record message (A : Type) := Message { joint_names : list string; points : list (point A) }.
Arguments Point {A}. Arguments pt_sec {A}. Arguments pt_nsec {A}. Arguments pt_data {A}.
Arguments Message {A}. Arguments joint_names {A}. Arguments points {A}.

(** ros::Duration::toSec(). RosJointTrajectoryInterface.cpp line 41. *)
Definition to_sec {A} (p : point A) : S := #(pt_sec p) + #(pt_nsec p) / #1000000000.

(** RosJointTrajectoryInterface.cpp lines 30-35 (the same in the other two
    files): [None] stands for [return false], [Some j] for leaving the loop. *)
Fixpoint joint_loop (names : list string) (name : string) (j : nat) : option nat :=
  match names with
  | [] => Some j
  | n :: r =>
      if String.eqb n name then Some j
      else match r with [] => None | _ => joint_loop r name (Datatypes.S j) end
  end.

(** RosJointTrajectoryInterface.cpp lines 40-43: operator[] beyond the end of
    the array is UB. *)
Fixpoint read_points {A V} (convert : A -> V) (j : nat) (ps : list (point A)) : outcome (list S * list V) :=
  match ps with
  | [] => Ok ([], [])
  | p :: r =>
      match nth_error (pt_data p) j with
      | None => UB
      | Some a =>
          let* (ts, vs) := read_points convert j r in
          Ok (to_sec p :: ts, convert a :: vs)
      end
  end.

(** The body of fromMessage; [fit] is the member function fitCurve on the state of the
    object. RosJointTrajectoryInterface.cpp lines 27-50. *)
Definition from_message {A V C} (convert : A -> V) (fit : C -> list S -> list V -> outcome C)
    (c : C) (m : message A) (name : string) : outcome (bool * C) :=
  match joint_loop (joint_names m) name 0 with
  | None => Ok (false, c)
  | Some j =>
      let* (ts, vs) := read_points convert j (points m) in
      let* c' := fit c ts vs in
      Ok (true, c')
  end.

(** RosJointTrajectoryInterface.cpp lines 27-50 *)
Definition ros_joint (solve : solver S) (c : scalar_curve S) (m : message S) (name : string)
  : outcome (bool * scalar_curve S) :=
  from_message (fun a => a) (sc_fit solve 5) c m name.

(** RosMultiDOFJointTrajectoryTranslationInterface.cpp lines 27-53; a transform is
    given by its translation. *)
Definition ros_translation (solve : solver S) (c : vector_curve S) (m : message (vec3 S)) (name : string)
  : outcome (bool * vector_curve S) :=
  from_message (fun v => [vx v; vy v; vz v]) (vc_fit solve) c m name.

(** RosMultiDOFJointTrajectoryInterface.cpp lines 30-55, with the state of the key
    generator. *)
Definition ros_pose `{TimeOps S} (K : kindr S) {A} (convert : A -> pose S) (g : N) (c : se3_curve S)
    (m : message A) (name : string) : outcome (bool * (N * se3_curve S)) :=
  from_message convert
    (fun gc ts vs => let* (g', c', _) := se3_fit K (fst gc) (snd gc) ts vs [] in Ok (g', c'))
    (g, c) m name.

End Message.

Arguments Point {A}. Arguments pt_sec {A}. Arguments pt_nsec {A}. Arguments pt_data {A}.
Arguments Message {A}. Arguments joint_names {A}. Arguments points {A}.
