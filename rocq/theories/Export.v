(** * Model of the functions writing a curve to a file

    Source: /repo/curves/src/CubicHermiteE3Curve.cpp lines 43-78 and
    /repo/curves/src/CubicHermiteSE3Curve.cpp lines 46-83 (writeEvalToFile),
    571-591 (saveCurveTimesAndValues, saveCurveAtTimes).

    Simplifications.
    - The file can be opened; its contents are the characters written to it, as in [Csv.v].
    - The text that fprintf("%lf") and [toString] produce for a number is a parameter.
    - A loop need not end: [fuel] bounds the number of times its condition is tested,
      [Running] is the state when the bound is reached.
    - Messages on std::cout are dropped. *)

From Coq Require Import String.
From Coq Require Import List Bool Arith NArith ZArith Ascii.
From Verif Require Import Base TimeOrder KeyGen Manager Num Csv Sampling HermiteE3 Quat HermiteSE3.
Import ListNotations.

(** A function that may loop for ever: after a number of rounds it is still running, with the text written so far, or it has ended.
    Not in the source: the state of a loop. *)
Inductive run (A : Type) := Running (file : text) | Ended (result : outcome A).
Arguments Running {A} file.
Arguments Ended {A} result.

(** The bounds of [int]. CubicHermiteE3Curve.cpp line 43: the type of nSamples. *)
Definition int_min : Z := (- 2 ^ 31)%Z.
(** CubicHermiteE3Curve.cpp line 43. *)
Definition int_max : Z := (2 ^ 31 - 1)%Z.

(** CubicHermiteE3Curve.cpp lines 49-53, CubicHermiteSE3Curve.cpp lines 52-56 *)
Definition export_header : text :=
  String.list_ascii_of_string "t px py pz rw rx ry rz vx vy vz wx wy wz "%string ++ [newline].

Section Export.
Context {S : Type} `{Num S} `{TimeOps S}.
Local Open Scope num_scope.
Variable show : S -> text.

(** The fprintf calls for one row: every number is followed by a space.
    CubicHermiteE3Curve.cpp lines 70-73, CubicHermiteSE3Curve.cpp lines 73-78. *)
Definition print_row (xs : list S) : text :=
  fold_right (fun x r => show x ++ " "%char :: r) [newline] xs.

(** One pass through the loop: CubicHermiteE3Curve.cpp lines 59-72, CubicHermiteSE3Curve.cpp lines 62-77; [None] is a return of
    false. *)
Definition sample_row {A B} (evaluate : S -> outcome (option A)) (derivative : S -> outcome (option B))
    (numbers : A -> B -> list S) (t : S) : outcome (option (list S)) :=
  let* p := evaluate t in
  match p with
  | None => Ok None
  | Some p =>
      let* v := derivative t in
      match v with
      | None => Ok None
      | Some v => Ok (Some (t :: numbers p v))
      end
  end.

(** CubicHermiteE3Curve.cpp lines 58-77, CubicHermiteSE3Curve.cpp lines 61-82: the loop and the return value. *)
Fixpoint sample_loop (row : S -> outcome (option (list S))) (tmax dt : S) (fuel : nat) (t : S) (file : text)
    : run (text * bool) :=
  match fuel with
  | O => Running file
  | Datatypes.S fuel =>
      if nltb t tmax then
        match row t with
        | Ok None => Ended (Ok (file, false))
        | Ok (Some xs) => sample_loop row tmax dt fuel (t + dt) (file ++ print_row xs)
        | Abort => Ended Abort
        | Throw => Ended Throw
        | UB => Ended UB
        end
      else Ended (Ok (file, true))
  end.

(** The whole function; [nSamples-1] is computed in [int].
    CubicHermiteE3Curve.cpp lines 43-78, CubicHermiteSE3Curve.cpp lines 46-83. *)
Definition export (row : S -> outcome (option (list S))) (tmin tmax : S) (n : Z) (fuel : nat)
    : run (text * bool) :=
  if Z.eqb n int_min then Ended UB
  else sample_loop row tmax ((tmax - tmin) / #(n - 1)) fuel tmin export_header.

(** The components in the order of the fprintf calls, CubicHermiteE3Curve.cpp lines 71-72, CubicHermiteSE3Curve.cpp lines 74-77. *)
Definition vec_numbers (v : vec3 S) : list S := [vx v; vy v; vz v].
(** CubicHermiteSE3Curve.cpp line 75. *)
Definition quat_numbers (q : quat S) : list S := [qw q; qx q; qy q; qz q].

(** CubicHermiteE3Curve.cpp lines 43-78 *)
Definition e3_write_eval (c : e3_curve S) (n : Z) (fuel : nat) : run (text * bool) :=
  export (sample_row (e3_evaluate c) (fun t => e3_evaluate_derivative c t 1)
                     (fun p v => vec_numbers p ++ vec_numbers v))
         (e3_min_time c) (e3_max_time c) n fuel.

(** CubicHermiteSE3Curve.cpp lines 74-75 *)
Definition pose_numbers (p : pose S) : list S := vec_numbers (p_pos p) ++ quat_numbers (p_rot p).

(** CubicHermiteSE3Curve.cpp lines 46-83 *)
Definition se3_write_eval (K : kindr S) (c : se3_curve S) (n : Z) (fuel : nat) : run (text * bool) :=
  export (sample_row (se3_evaluate K c) (fun t => se3_evaluate_derivative K c t 1)
                     (fun p w => pose_numbers p ++ vec_numbers (t_lin w) ++ vec_numbers (t_ang w)))
         (se3_min_time c) (se3_max_time c) n fuel.

(** kindr's default constructor: no translation, no rotation. CubicHermiteSE3Curve.cpp line 582. *)
Definition identity_pose : pose S := Pose vzero qone.

(** CubicHermiteSE3Curve.cpp lines 578-591.  The return value of evaluate is not used;
    [val] is declared before the loop and keeps its value when evaluate returns false. *)
Definition se3_save_at_times (K : kindr S) (c : se3_curve S) (times : list S) : outcome text :=
  let* r := foldM (fun st t =>
      let* e := se3_evaluate K c t in
      let val := match e with Some p => p | None => fst st end in
      Ok (val, snd st ++ [pose_numbers val])) times (identity_pose, []) in
  write_time_vector_csv show times (snd r).

(** CubicHermiteSE3Curve.cpp lines 571-576 *)
Definition se3_save_times_and_values (K : kindr S) (c : se3_curve S) : outcome text :=
  se3_save_at_times K c (get_times (h_mgr c)).

End Export.
