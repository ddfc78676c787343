(** * What a trajectory through knots is, stated on the values the container returns *)

From Coq Require Import List Reals ZArith.
From Verif Require Import Base Num Spline SplineSpec Container ContainerSpec.
Import ListNotations.
Local Open Scope R_scope.

(** The number an evaluation returns (0 if it returns none). *)
Definition value (r : outcome R) : R := match r with Ok x => x | _ => 0 end.

Definition position (o : nat) (c : container R) (t : R) : R := value (get_position_at_time o c t).
Definition velocity (o : nat) (c : container R) (t : R) : R := value (get_velocity_at_time o c t).
Definition acceleration (o : nat) (c : container R) (t : R) : R := value (get_acceleration_at_time o c t).

(** Knot times increase strictly. *)
Definition increasing (knots : list R) : Prop :=
  forall i, (i + 1 < length knots)%nat -> nth i knots 0 < nth (i + 1) knots 0.

(** Valid input: two or more knots, strictly increasing, one position each, and few
    enough that the 32 bit sizes in the code do not wrap around. *)
Definition valid_knots (knots positions : list R) : Prop :=
  (2 <= length knots)%nat /\ increasing knots /\ length positions = length knots /\
  (Z.of_nat (length knots) < 2 ^ 29)%Z.

(** Time from the first to the last knot. *)
Definition duration_of (knots : list R) : R := nth (length knots - 1) knots 0 - nth 0 knots 0.

(** The trajectory goes through the knots. *)
Definition interpolates (o : nat) (c : container R) (knots positions : list R) : Prop :=
  forall i, (i < length knots)%nat ->
    get_position_at_time o c (nth i knots 0 - nth 0 knots 0) = Ok (nth i positions 0).

(** The velocity is the derivative of the position between two times. *)
Definition velocity_is_derivative (o : nat) (c : container R) (a b : R) : Prop :=
  (forall t, a < t < b -> derivable_pt_lim (position o c) t (velocity o c t)) /\
  right_derivative (position o c) a (velocity o c a) /\
  left_derivative (position o c) b (velocity o c b).

Definition acceleration_is_derivative (o : nat) (c : container R) (a b : R) : Prop :=
  (forall t, a < t < b -> derivable_pt_lim (velocity o c) t (acceleration o c t)) /\
  right_derivative (velocity o c) a (acceleration o c a) /\
  left_derivative (velocity o c) b (acceleration o c b).

Definition acceleration_continuous (o : nat) (c : container R) (a b : R) : Prop :=
  forall t, a < t < b -> continuity_pt (acceleration o c) t.

(** The piecewise linear interpolant. *)
Definition piecewise_linear (o : nat) (c : container R) (knots positions : list R) : Prop :=
  forall i t, (i + 1 < length knots)%nat -> nth i knots 0 <= t <= nth (i + 1) knots 0 ->
    get_position_at_time o c (t - nth 0 knots 0) =
      Ok (nth i positions 0 +
          (t - nth i knots 0) / (nth (i + 1) knots 0 - nth i knots 0) * (nth (i + 1) positions 0 - nth i positions 0)).

(** A container ready to be played from its beginning: it has splines of positive
    duration, its duration is their sum, and its time is at the start. *)
Definition ready (c : container R) : Prop :=
  c_splines c <> [] /\ positive_durations (c_splines c) /\ countable_splines (c_splines c) /\
  get_container_duration c = total (c_splines c) /\ reset_time c = c.
