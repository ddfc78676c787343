(** * What a sequence of splines is, independent of the container code *)

From Coq Require Import List Reals ZArith Bool.
From Verif Require Import Base Num Spline Container.
Import ListNotations.
Local Open Scope R_scope.

(** The time at which spline number [n] of a list starts: the total duration of the
    splines before it. *)
Definition start (l : list (spline R)) (n : nat) : R :=
  fold_right Rplus 0 (map s_duration (firstn n l)).

Definition total (l : list (spline R)) : R := fold_right Rplus 0 (map s_duration l).

(** Spline [n] is the one in charge at time [t]: the time axis is cut at the start
    times, the first piece extends to the left, the last piece to the right. *)
Definition in_charge (l : list (spline R)) (n : nat) (t : R) : Prop :=
  (n < length l)%nat /\ (n = 0%nat \/ start l n <= t) /\ (t < start l (n + 1) \/ (n + 1 = length l)%nat).

Definition positive_durations (l : list (spline R)) : Prop := Forall (fun s => 0 < s_duration s) l.

(** Fewer splines than an [int] can count. *)
Definition countable_splines (l : list (spline R)) : Prop := (Z.of_nat (length l) < 2 ^ 31)%Z.

(** ** Histories of calls *)

Inductive cop :=
| OAdd (s : spline R)
| OAdvance (dt : R)
| OSetTime (t : R)
| OReset
| OResetTime
| OQuery (t : R).

Definition exec_op (o : nat) (c : container R) (op : cop) : outcome (container R) :=
  match op with
  | OAdd s => Ok (add_spline c s)
  | OAdvance dt => let* (_, c') := advance c dt in Ok c'
  | OSetTime t => Ok (set_container_time c t)
  | OReset => Ok (reset c)
  | OResetTime => Ok (reset_time c)
  | OQuery t =>
      let* _ := get_position o c in let* _ := get_velocity o c in let* _ := get_acceleration o c in
      let* _ := get_position_at_time o c t in let* _ := get_velocity_at_time o c t in
      let* _ := get_acceleration_at_time o c t in
      let* _ := get_end_position o c in let* _ := get_end_velocity o c in
      let* _ := get_end_acceleration o c in
      Ok c
  end.

Definition exec_ops (o : nat) (c : container R) (ops : list cop) : outcome (container R) :=
  foldM (exec_op o) ops c.

(** The splines in the container after a history, seen from outside: a list. *)
Fixpoint splines_after (l : list (spline R)) (ops : list cop) : list (spline R) :=
  match ops with
  | [] => l
  | OAdd s :: r => splines_after (l ++ [s]) r
  | OReset :: r => splines_after [] r
  | _ :: r => splines_after l r
  end.

(** setContainerTime is never called while the container is empty. *)
Fixpoint times_set_ok (l : list (spline R)) (ops : list cop) : Prop :=
  match ops with
  | [] => True
  | OAdd s :: r => times_set_ok (l ++ [s]) r
  | OReset :: r => times_set_ok [] r
  | OSetTime _ :: r => l <> [] /\ times_set_ok l r
  | _ :: r => times_set_ok l r
  end.

(** Repeated advance calls. *)
Definition advance_all (c : container R) (dts : list R) : outcome (container R) :=
  foldM (fun c dt => let* (_, c') := advance c dt in Ok c') dts c.
