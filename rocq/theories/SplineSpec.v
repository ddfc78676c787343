(** * What a polynomial spline is, independent of the code *)

From Coq Require Import List Reals.
Import ListNotations.
Local Open Scope R_scope.

(** The polynomial with coefficients listed highest power first, and its first two
    derivatives, at [t]: sum of [a_i t^i]. *)
Definition poly (o : nat) (cs : list R) (t : R) : R :=
  sum_f_R0 (fun i => nth (o - i) cs 0 * t ^ i) o.

Definition dpoly (o : nat) (cs : list R) (t : R) : R :=
  sum_f_R0 (fun i => nth (o - i) cs 0 * (INR i * t ^ (i - 1))) o.

Definition ddpoly (o : nat) (cs : list R) (t : R) : R :=
  sum_f_R0 (fun i => nth (o - i) cs 0 * (INR i * INR (i - 1) * t ^ (i - 2))) o.

(** Restriction of a time to [0, d]; for [d < 0] it is 0. *)
Definition restrict (t d : R) : R := Rmax 0 (Rmin t d).

(** One sided derivatives. *)
Definition right_derivative (f : R -> R) (x l : R) : Prop :=
  forall eps, 0 < eps -> exists delta, 0 < delta /\
    forall h, 0 < h < delta -> Rabs ((f (x + h) - f x) / h - l) < eps.

Definition left_derivative (f : R -> R) (x l : R) : Prop :=
  forall eps, 0 < eps -> exists delta, 0 < delta /\
    forall h, 0 < h < delta -> Rabs ((f x - f (x - h)) / h - l) < eps.

(** The boundary data each order is made for (position first): value and derivatives
    at the start and at the end. *)
Definition meets_start (o : nat) (pos vel acc : R) (p v a : R) : Prop :=
  p = pos /\ ((2 <= o)%nat -> v = vel) /\ ((4 <= o)%nat -> a = acc).
Definition meets_end (o : nat) (pos vel acc : R) (p v a : R) : Prop :=
  p = pos /\ ((3 <= o)%nat -> v = vel) /\ ((5 <= o)%nat -> a = acc).
